#!/usr/bin/env python3
"""Screening with automatic point mutants. usage: screen.py OUT.jsonl SEED N FILE.v...
Takes N random point mutations of definitions in the given model files, applies each to a copy of the built development
(SCREEN_BASE) and rebuilds up to the first error. A mutant whose whole development still builds is a survivor: it has to be
explained (equivalent program, or something no property speaks about) or a theorem has to be tightened."""
import json, os, random, re, subprocess, sys, time
BASE = os.environ.get('SCREEN_BASE', '/tmp/seed/base2'); W = '/tmp/seed/screen' + os.environ.get('SEED_SUFFIX', ''); J = os.environ.get('SEED_J', '1')
CAP = int(os.environ.get('SEED_CAP', '1500'))
def strip_comments(s):
    out = list(s); d = 0; i = 0; instr = False
    while i < len(s):
        if d == 0 and s[i] == '"': instr = not instr; i += 1; continue
        if not instr and s.startswith('(*', i): d += 1; out[i] = out[i+1] = ' '; i += 2; continue
        if not instr and d and s.startswith('*)', i): d -= 1; out[i] = out[i+1] = ' '; i += 2; continue
        if d and s[i] != '\n': out[i] = ' '
        i += 1
    return ''.join(out)
OPS = [(r'\btrue\b', ['false']), (r'\bfalse\b', ['true']), (r'<\?', ['<=?']), (r'<=\?', ['<?']), (r'\bnegb\b', ['id']), (r'&&', ['||']), (r'\|\|', ['&&']),
       (r'(?<![\w.%])\d+(?![\w.])', ['+1']), (r'\bChannelTerminated\b', ['Disconnected']), (r'\bDisconnected\b', ['ChannelTerminated']),
       (r'\bUnresolvable\b', ['Disconnected']), (r'\bConnectionFailed\b', ['Disconnected']), (r'\bDeserializationFailed\b', ['Disconnected']),
       (r'([\w.]+|\([^()]*\)) \+\+ (\[[^\[\]]*\])', [r'\2 ++ \1']), (r'\bfirstn\b', ['skipn']), (r'\bskipn\b', ['firstn']),
       (r'\bPanic\b', ['(Err Disconnected)']), (r'\brev \b', ['']), (r'\bs_(\w+) s\b', ['s']), (r' - ', [' + ']), (r' \+ ', [' - ']), (r'\bforallb\b', ['existsb']), (r'\bexistsb\b', ['forallb']),
       (r'=\?', ['<=?']), (r'\bSome (\w+)\b', ['None']),
       (r'\bif ((?:(?!\bif\b|\bthen\b).)+?) then', [r'if negb (\1) then']), (r'\bfst\b', ['snd']), (r'\bsnd\b', ['fst']), (r'\bOk tt\b', ['Panic', '(Err Disconnected)']),
       (r'(\[[^\[\]]*\]) \+\+ ', ['']), (r'(\w+) :: (\w+)(?= *(?:\)|,|$))', [r'\2'])]
HEAD = re.compile(r'^(Definition|Fixpoint|Lemma|Theorem|Example|Inductive|Record|Arguments|Notation|Ltac|#|Section|Variable|Open|From|Print|Module|End|Corollary|Local|Global)\b', re.M)
def sites(f):
    s = open(f'{BASE}/theories/{f}').read(); c = strip_comments(s); out = []
    hs = list(HEAD.finditer(c))
    for a, b in zip(hs, hs[1:] + [None]):
        if a.group(1) not in ('Definition', 'Fixpoint'): continue
        end = b.start() if b else len(c); body = c[a.start():end]; start = body.find(':=')
        if start < 0: continue
        name = body.split()[1]
        for pat, reps in OPS:
            for m in re.finditer(pat, body):
                if m.start() < start: continue
                for r in reps:
                    new = str(int(m.group(0)) + 1) if r == '+1' else m.expand(r) if '\\' in r else r
                    out.append((f, name, a.start() + m.start(), a.start() + m.end(), new))
    return out
def sh(c, cwd=None, timeout=None):
    try:
        p = subprocess.run(c, shell=True, cwd=cwd, capture_output=True, text=True, timeout=timeout); return p.returncode, p.stdout + p.stderr
    except subprocess.TimeoutExpired: return 124, ''
out, seed, n = sys.argv[1], int(sys.argv[2]), int(sys.argv[3]); S = []
for f in sys.argv[4:]: S += sites(f)
random.seed(seed); random.shuffle(S)
done = set()
if os.path.exists(out):
    for l in open(out): d = json.loads(l); done.add((d['file'], d['at'], d['new']))
valid = 0
print(len(S), 'sites', flush=True)
for f, name, i, j, new in S:
    if valid >= n: break
    if (f, i, new) in done: continue
    sh(f'mkdir -p {W} && rsync -a --delete {BASE}/ {W}/') if sh('which rsync')[0] == 0 else sh(f'rm -rf {W} && cp -a {BASE} {W}')
    p = f'{W}/theories/{f}'; s = open(p).read(); old = s[i:j]
    line = s.count('\n', 0, i) + 1; ctx = s[s.rfind('\n', 0, i)+1 : s.find('\n', j)].strip()
    open(p, 'w').write(s[:i] + new + s[j:])
    t0 = time.time(); rc, o = sh(f'make -j{J} 2>&1', W, timeout=CAP); err = re.search(r'File "\./theories/(\w+\.v)", line (\d+)', o)
    st = 'SURVIVES' if rc == 0 else 'timeout' if rc == 124 else 'killed'
    lemma = ''
    if st == 'killed' and err:
        L = open(f'{W}/theories/{err.group(1)}').read().split('\n')[:int(err.group(2))]
        for x in reversed(L):
            m = re.match(r'(Lemma|Theorem|Example|Definition|Fixpoint|Corollary)\s+(\w+)', x)
            if m: lemma = m.group(2); kind = m.group(1); break
        if err.group(1) == f and (lemma == name or kind in ('Definition', 'Fixpoint')): st = 'invalid'
    if st != 'invalid': valid += 1
    d = {'status': st, 'file': f, 'def': name, 'line': line, 'at': i, 'old': old, 'new': new, 'ctx': ctx[:160], 'by': (err.group(1) + ': ' + lemma) if err else '', 'secs': int(time.time() - t0)}
    open(out, 'a').write(json.dumps(d) + '\n')
    print(st, f, line, name, repr(old), '->', repr(new), d['by'], d['secs'], flush=True)
