"""Regenerate MANIFEST.json from tools/claims.txt and check the theorem names.

claims.txt: one claim per paragraph:
  C01 proved
  theorems: a b c
  note: text
"""
import json, os, re, sys
root = os.path.dirname(os.path.dirname(os.path.abspath(__file__)))
th = os.path.join(root, 'rocq', 'theories')
names = set()
listed = open(os.path.join(root, 'rocq', '_CoqProject')).read()
for f in os.listdir(th):
    if f.endswith('.v') and ('theories/' + f) in listed:
        for m in re.finditer(r'^\s*Theorem\s+(\w+)', open(os.path.join(th, f)).read(), re.M):
            names.add(m.group(1))
props = [json.loads(l)['id'] for l in open(os.path.join(root, 'properties.jsonl')) if l.strip()]
claims, used, bad = [], set(), False
for para in open(os.path.join(root, 'tools', 'claims.txt')).read().split('\n\n'):
    ls = [l for l in para.strip().split('\n') if l]
    if not ls:
        continue
    pid, st = ls[0].split()
    thm = [l for l in ls if l.startswith('theorems:')][0][9:].split()
    note = ' '.join(l for l in ls if l.startswith('note:'))[5:].strip()
    for t in thm:
        if t not in names:
            print('unknown theorem', t); bad = True
        used.add(t)
    if pid not in props:
        print('unknown property', pid); bad = True
    claims.append({'property': pid, 'status': st, 'theorems': thm, 'note': note})
for n in sorted(names - used):
    if re.match(r'C\d\d', n):
        print('theorem not in manifest', n)
for p in props:
    if p not in [c['property'] for c in claims]:
        print('no claim for', p)
if bad:
    sys.exit(1)
claims.sort(key=lambda c: c['property'])
json.dump({'claims': claims}, open(os.path.join(root, 'MANIFEST.json'), 'w'), indent=1)
open(os.path.join(root, 'MANIFEST.json'), 'a').write('\n')
