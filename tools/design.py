#!/usr/bin/env python3
"""Regenerate the generated part of DESIGN.md: one line per property from properties.jsonl,
MANIFEST.json and the theorem names; and ASSUMPTIONS.md from a build log (make -Otarget)."""
import json, os, re, sys, glob
root = os.path.dirname(os.path.dirname(os.path.abspath(__file__)))
th = os.path.join(root, 'rocq', 'theories')
where = {}
for p in glob.glob(th + '/*_Props.v'):
    for m in re.finditer(r'^\s*Theorem (c\d+_\w+)', open(p).read(), re.M):
        where[m.group(1)] = os.path.basename(p)[:-2]
claims = {c['property']: c for c in json.load(open(os.path.join(root, 'MANIFEST.json')))['claims']}
out = []
for l in open(os.path.join(root, 'properties.jsonl')):
    q = json.loads(l)
    c = claims.get(q['id'])
    if not c:
        out.append('* **%s %s** - no theorem yet.' % (q['id'], q['title'])); continue
    fs = sorted({where[t] for t in c['theorems']})
    c['note'] = c['note'] or ''
    st = 'refuted' if c['note'].startswith('REFUTED') else c['status']
    out.append('* **%s %s** - %s (%s). %s' % (q['id'], q['title'], st, ', '.join(fs), c['note']))
p = os.path.join(root, 'DESIGN.md')
s = open(p).read()
a, b = '<!-- generated: properties -->\n', '<!-- end generated -->'
i, j = s.index(a) + len(a), s.index(b)
s = s[:i] + '\n'.join(out) + '\n' + s[j:]
open(p, 'w').write(s)
if len(sys.argv) > 1:
    log = open(sys.argv[1]).read()
    res = {}
    for p in sorted(glob.glob(th + '/*_Props.v')):
        names = re.findall(r'^Print Assumptions (\w+)\.', open(p).read(), re.M)
        b = os.path.basename(p)
        m = re.search(r'COQC theories/%s\n(.*?)(?=\nCOQC |\nmake|\Z)' % re.escape(b), log, re.S)
        if not m: print('no log for', b); continue
        blocks = re.split(r'^(?=Axioms:|Closed under)', m.group(1), flags=re.M)[1:]
        if len(blocks) != len(names): print(b, len(blocks), len(names)); continue
        for n, k in zip(names, blocks):
            ax = re.findall(r'^([A-Z]\w*\.\w+)\s*(?::|$)', k, re.M)
            res[n] = ax
    groups = {}
    for n, ax in res.items(): groups.setdefault(tuple(sorted(ax)), []).append(n)
    with open(os.path.join(root, 'ASSUMPTIONS.md'), 'w') as f:
        f.write('# What Print Assumptions lists for each theorem\n\nGenerated by tools/design.py from the output of the Print Assumptions commands of the *_Props.v files.\n')
        for ax in sorted(groups, key=len):
            f.write('\n## %s\n\n' % (', '.join(ax) if ax else 'Closed under the global context (no axioms)'))
            f.write(', '.join(sorted(groups[ax])) + '\n')
    print({k: len(v) for k, v in groups.items()})
