#!/usr/bin/env python3
"""Write MANIFEST.json: one claim per property, theorems taken from Prop*.v by name prefix."""
import glob, json, re, os
root = os.path.dirname(os.path.dirname(os.path.abspath(__file__)))
props = [json.loads(l) for l in open(root + '/properties.jsonl')]
notes = {}
nf = root + '/tools/notes.json'
if os.path.exists(nf): notes = json.load(open(nf))
for f in sorted(glob.glob(root + '/rocq/theories/*.v')):
    m = re.search(r'\b(Admitted|admit|give_up|Axiom|Parameter|Conjecture|Abort)\b', re.sub(r'\(\*.*?\*\)', '', open(f).read(), flags=re.S))
    if m: raise SystemExit('open proof or axiom in %s: %s' % (f, m.group(1)))
thms = {}
for f in sorted(glob.glob(root + '/rocq/theories/Prop*.v')):
    for m in re.finditer(r'^Theorem ((C\d\d)_\w+)', open(f).read(), re.M):
        thms.setdefault(m.group(2), []).append(m.group(1))
claims = []
for p in props:
    t = thms.get(p['id'], [])
    if not t: continue
    st = notes.get(p['id'], {}).get('status', 'partial' if all(x.endswith('_partial') for x in t) else 'proved')
    claims.append({'property': p['id'], 'status': st, 'theorems': t,
                   'note': notes.get(p['id'], {}).get('note', p['title'])})
json.dump({'claims': claims}, open(root + '/MANIFEST.json', 'w'), indent=1)
print(len(claims), 'claims;', 'missing:', [p['id'] for p in props if p['id'] not in thms])
