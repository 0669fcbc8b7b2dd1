#!/usr/bin/env python3
"""Seeded-bug runner. usage: seed.py MUTANTS.json OUT.jsonl [ids...]
BASE is a built copy of /verif/rocq with MANIFEST.json in it.

For each mutant: copy the built development to a scratch directory, apply the edit,
rebuild. Where a proof no longer goes through, admit it (in the scratch copy only) and
go on, so that at the end Print Assumptions tells which property theorems rest on a
proof that broke."""
import json, os, re, shutil, subprocess, sys, time
BASE = os.environ.get('SEED_BASE', '/tmp/seed/base')
W = '/tmp/seed/work' + os.environ.get('SEED_SUFFIX', '')
CAP = int(os.environ.get('SEED_CAP', '900'))
J = os.environ.get('SEED_J', '3')
def sh(c, cwd=None, timeout=None):
    try:
        p = subprocess.run(c, shell=True, cwd=cwd, capture_output=True, text=True, timeout=timeout)
        return p.returncode, p.stdout + p.stderr
    except subprocess.TimeoutExpired:
        return 124, ''
START = re.compile(r'^(Lemma|Theorem|Example|Corollary|Fact|Remark)\s+(\S+)')
DEF = re.compile(r'^(Definition|Fixpoint|Inductive|Record|Ltac|Tactic)\s+(\S+)')
def admit(path, line):
    L = open(path).read().split('\n')
    i = line - 1
    while i >= 0 and not START.match(L[i]) and not DEF.match(L[i]): i -= 1
    if i < 0 or not START.match(L[i]): return None, 'in ' + (L[i] if i >= 0 else '?')[:80]
    name = START.match(L[i]).group(2).rstrip(':')
    j = i
    while j < len(L) and 'Proof.' not in L[j]: j += 1
    k = j
    while k < len(L) and not re.search(r'\b(Qed|Defined)\.\s*$', L[k]): k += 1
    if j >= len(L) or k >= len(L) or k < line - 1 and j > line - 1: return None, 'statement of ' + name
    if line - 1 < j: return None, 'statement of ' + name
    head = L[j][:L[j].index('Proof.')]
    L[j:k+1] = [head + 'Admitted.'] + [''] * (k - j)
    open(path, 'w').write('\n'.join(L))
    return name, None
def theorems():
    m = json.load(open(BASE + '/MANIFEST.json'))
    return [t for c in m['claims'] for t in c['theorems']]
def where():
    d = {}
    for f in os.listdir(BASE + '/theories'):
        if f.endswith('.v'):
            for l in open(f'{BASE}/theories/{f}'):
                x = re.match(r'^(Theorem)\s+(\w+)', l)
                if x: d[x.group(2)] = f[:-2]
    return d
def run(m):
    sh(f'rm -rf {W} && cp -a {BASE} {W}')
    for e in m['edits']:   # [old, new] in m['file'], or [file, old, new]
        f, old, new = e if len(e) == 3 else (m['file'], *e)
        p = f"{W}/theories/{f}"; s = open(p).read()
        if s.count(old) != 1: return {'status': 'bad edit', 'old': old, 'count': s.count(old)}
        open(p, 'w').write(s.replace(old, new))
    t0 = time.time(); broken = []; stuck = []
    while True:
        rc, out = sh(f'make -k -j{J} 2>&1', W, timeout=max(10, CAP - (time.time() - t0)))
        if rc == 0 or rc == 124: break
        errs = {}
        for f, l in re.findall(r'File "\./theories/(\w+\.v)", line (\d+), characters [\d-]+:\nError', out): errs.setdefault(f, int(l))
        prog = False
        for f, l in errs.items():
            name, why = admit(f'{W}/theories/{f}', l)
            if name: broken.append(name); prog = True
            elif f'{f}: {why}' not in stuck: stuck.append(f'{f}: {why}')
        if not prog or time.time() - t0 > CAP: break
    wh = where(); ths = theorems(); fails = []; unreached = []
    mods = sorted({wh[t] for t in ths})
    ok = [x for x in mods if os.path.exists(f'{W}/theories/{x}.vo') and sh(f'make -q theories/{x}.vo', W)[0] == 0]
    chk = ''.join(f'From Verif Require {x}.\n' for x in ok)
    for t in ths:
        if wh[t] in ok: chk += f'Goal True. idtac "@@{t}". Abort.\nPrint Assumptions {wh[t]}.{t}.\n'
        else: unreached.append(t)
    open(f'{W}/theories/ZZ.v', 'w').write(chk)
    rc, out = sh(f'coqc -Q theories Verif theories/ZZ.v', W, timeout=600)
    for part in out.split('@@')[1:]:
        name, rest = part.split('\n', 1)
        if 'Closed under' not in rest: fails.append(name)
    return {'status': 'done', 'broken_proofs': broken, 'stuck': stuck, 'failed_theorems': fails, 'not_reached': unreached, 'secs': int(time.time() - t0), 'rc': rc}
if __name__ == '__main__':
    ms = json.load(open(sys.argv[1])); out = sys.argv[2]; ids = set(sys.argv[3:])
    done = set()
    if os.path.exists(out): done = {json.loads(l)['id'] for l in open(out)}
    for m in ms:
        if (ids and m['id'] not in ids) or m['id'] in done: continue
        r = run(m); r['id'] = m['id']
        open(out, 'a').write(json.dumps(r) + '\n')
        print(m['id'], r.get('status'), len(r.get('broken_proofs', [])), len(r.get('failed_theorems', [])), len(r.get('not_reached', [])), r.get('stuck'), r.get('secs'), flush=True)
