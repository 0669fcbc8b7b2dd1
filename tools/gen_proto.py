#!/usr/bin/env python3
"""Transcribes /repo/src/protos/pulsar.proto into rocq/theories/ProtoTable.v.
The generated file is committed; this script only documents how it was made."""
import re
src = open('/repo/src/protos/pulsar.proto').read().split('\n')
msgs, enums = [], []   # (name, line, fields), (name, line, values)
stack = []
cur = []
for ln, line in enumerate(src, 1):
    l = re.sub(r'//.*', '', line).strip()
    if l.startswith('/**') or l.startswith('*'): continue
    m = re.match(r'message (\w+) \{', l)
    if m:
        x = ['msg', m.group(1), ln, []]; stack.append(x); msgs.append(x); continue
    m = re.match(r'enum (\w+) \{', l)
    if m:
        pre = [s[1] for s in stack if s[0] == 'msg']
        x = ['enum', '_'.join(pre + [m.group(1)]), ln, []]; stack.append(x); enums.append(x); continue
    if l == '}':
        if stack: stack.pop()
        continue
    if not stack: continue
    if l.startswith('}'): stack.pop(); continue
    top = stack[-1]
    if top[0] == 'enum':
        m = re.match(r'(\w+)\s*=\s*(\d+)\s*;', l)
        if m: top[3].append((m.group(1), int(m.group(2))))
    else:
        m = re.match(r'(required|optional|repeated)\s+(\w+)\s+(\w+)\s*=\s*(\d+)\s*(\[.*\])?;', l)
        if m: top[3].append((m.group(1), m.group(2), m.group(3), int(m.group(4)), ln))
names = {m[1] for m in msgs}; enames = {e[1] for e in enums}
prim = {'uint64':'TU64','uint32':'TU32','int32':'TI32','int64':'TI64','bool':'TBool','string':'TStr','bytes':'TByt','double':'TDouble'}
card = {'required':'Req','optional':'Opt','repeated':'Rep'}
def ty(owner, t):
    if t in prim: return prim[t]
    if owner + '_' + t in enames: return '(TEnum E_%s)' % (owner + '_' + t)
    if t in enames: return '(TEnum E_%s)' % t
    if t in names: return '(TMsg M_%s)' % t
    raise Exception((owner, t))
out = []
w = out.append
w('(** GENERATED by tools/gen_proto.py from /repo/src/protos/pulsar.proto (all messages and enums;')
w('    line numbers of each message are cited). A transcription: no simplification. *)')
w('From Coq Require Import List NArith ZArith. Import ListNotations.')
w('Inductive mname :=\n' + '\n'.join('| M_%s' % m[1] for m in msgs) + '.')
w('Inductive ename :=\n' + '\n'.join('| E_%s' % e[1] for e in enums) + '.')
w('(** Field types of proto2 used by the file. *)')
w('Inductive ftype := TU64 | TU32 | TI32 | TI64 | TBool | TStr | TByt | TDouble | TEnum (e : ename) | TMsg (m : mname).')
w('Inductive card := Req | Opt | Rep.')
w('Record field := mkf { f_num : N; f_card : card; f_ty : ftype }.')
w('Open Scope N_scope.')
w('Definition fields (m : mname) : list field :=\n  match m with')
for m in msgs:
    w('  (* src/protos/pulsar.proto:%d message %s *)' % (m[2], m[1]))
    w('  | M_%s => [' % m[1] + ';\n      '.join('mkf %d %s %s (* %s *)' % (f[3], card[f[0]], ty(m[1], f[1]), f[2]) for f in m[3]) + ']')
w('  end.')
w('(** Declared values of each enum, first one first (the proto2 default). *)')
w('Definition enum_values (e : ename) : list Z :=\n  match e with')
for e in enums:
    w('  (* src/protos/pulsar.proto:%d enum %s: %s *)' % (e[2], e[1], ', '.join('%s=%d' % v for v in e[3])))
    w('  | E_%s => [' % e[1] + '; '.join('%d%%Z' % v[1] for v in e[3]) + ']')
w('  end.')
open('/verif/rocq/theories/ProtoTable.v', 'w').write('\n'.join(out) + '\n')
print(len(msgs), len(enums), sum(len(m[3]) for m in msgs))
