#!/usr/bin/env python3
"""Print the statements of the property theorems: statements.py C01 C02 ..."""
import re, sys, os
D = os.path.join(os.path.dirname(__file__), '../rocq/theories')
for f in sorted(os.listdir(D)):
    if not f.startswith('Prop') or not f.endswith('.v'): continue
    s = open(os.path.join(D, f)).read()
    for m in re.finditer(r'((?:\(\*\*(?:(?!\*\)).)*\*\)\n)?)Theorem (C\d\d_\w+)(.*?)\nProof', s, re.S):
        if not sys.argv[1:] or m.group(2)[:3] in sys.argv[1:]:
            print(f'[{f}]', m.group(1) + 'Theorem ' + m.group(2) + m.group(3), '\n')
