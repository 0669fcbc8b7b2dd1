#!/usr/bin/env python3
"""usage: seed_log.py MUTANTS.json OUT.jsonl... : join the runner's results with the mutants into seeded/LOG.jsonl,
and report the mutants whose property has no failing theorem. seeded/tightened.json maps mutant ids to theorems tightened."""
import json, os, sys
root = os.path.join(os.path.dirname(os.path.abspath(__file__)), '..')
ms = {m['id']: m for m in json.load(open(sys.argv[1]))}
tp = root + '/seeded/tightened.json'
tight = json.load(open(tp)) if os.path.exists(tp) else {}
L = []
for f in sys.argv[2:]:
    for l in open(f):
        r = json.loads(l); m = ms.get(r['id'])
        if not m or r['status'] != 'done': print('skip', r['id'], r['status']); continue
        failed = r['failed_theorems']; nr = r['not_reached']
        miss = [p for p in m['props'].split() if not any(t.startswith(p + '_') for t in failed + nr)]
        if miss: print('SURVIVES', r['id'], miss)
        e = {'id': r['id'], 'definition': m['file'] + ': ' + m['definition'], 'edit': m['edit'], 'claim': m['claim'], 'properties': m['props'].split(),
             'theorems_failed': failed, 'theorems_tightened': tight.get(r['id'], [])}
        if nr: e['theorems_not_reached'] = nr
        L.append(e)
xp = root + '/seeded/extra.jsonl'
if os.path.exists(xp): L += [json.loads(l) for l in open(xp)]
L.sort(key=lambda e: e['id'])
open(root + '/seeded/LOG.jsonl', 'w').write(''.join(json.dumps(e) + '\n' for e in L))
print(len(L))
