#!/usr/bin/env python3
"""Regenerate rocq/_CoqProject's file list, MANIFEST.json and the Print
Assumptions lines of *_Props.v.  Theorem names start with the lower-case
property id (c07_...).  Status and notes come from tools/status.json."""
import glob, json, os, re
root = os.path.dirname(os.path.dirname(os.path.abspath(__file__)))
th = os.path.join(root, 'rocq', 'theories')
files = sorted(os.path.basename(f) for f in glob.glob(th + '/*.v'))
with open(os.path.join(root, 'rocq', '_CoqProject'), 'w') as f:
    f.write('-Q theories Verif\n')
    for x in files:
        f.write('theories/%s\n' % x)
names = {}
for x in files:
    if not x.endswith('_Props.v'):
        continue
    p = os.path.join(th, x)
    src = open(p).read()
    src = re.sub(r'^Print Assumptions c\d+_\w+\.\n', '', src, flags=re.M)
    out, cur = [], None
    for line in src.split('\n'):
        out.append(line)
        m = re.match(r'\s*Theorem (c(\d+)_\w+)', line)
        if m:
            cur = m.group(1)
            names.setdefault('C' + m.group(2), []).append(cur)
        if cur and re.search(r'\bQed\.\s*$', line):
            out.append('Print Assumptions %s.' % cur)
            cur = None
    new = '\n'.join(out)
    if new != open(p).read():
        open(p, 'w').write(new)
status = json.load(open(os.path.join(root, 'tools', 'status.json')))
claims = []
for l in open(os.path.join(root, 'properties.jsonl')):
    q = json.loads(l)['id']
    s = status.get(q)
    if not s or q not in names:
        if s and s['status'] == 'not_applicable':
            claims.append({'property': q, 'status': 'not_applicable', 'theorems': [], 'note': s['note']})
        continue
    claims.append({'property': q, 'status': s['status'], 'theorems': names[q], 'note': s['note']})
json.dump({'claims': claims}, open(os.path.join(root, 'MANIFEST.json'), 'w'), indent=1)
print(len(files), 'files;', sum(map(len, names.values())), 'theorems;', len(claims), 'claims')
for q in names:
    if q not in status:
        print('no status for', q)
