#!/usr/bin/env python3
"""Regenerate rocq/_CoqProject (file list) and MANIFEST.json from tools/claims.json.

claims.json maps property id -> {"status", "note", "theorems" (optional)}.  When
"theorems" is absent every theorem named <id>_* in rocq/theories/Prop_*.v is
listed."""
import json, re, glob, os, sys
root = os.path.dirname(os.path.dirname(os.path.abspath(__file__)))
th = sorted(glob.glob(root + '/rocq/theories/*.v'))
with open(root + '/rocq/_CoqProject', 'w') as f:
    f.write('-Q theories Verif\n')
    for t in th:
        f.write('theories/' + os.path.basename(t) + '\n')
names = {}
for t in th:
    if os.path.basename(t).startswith('Prop_'):
        for m in re.finditer(r'^\s*(?:Theorem|Corollary)\s+((C\d+)_\w+)', open(t).read(), re.M):
            names.setdefault(m.group(2), []).append(m.group(1))
claims = json.load(open(root + '/tools/claims.json'))
props = [json.loads(l)['id'] for l in open(root + '/properties.jsonl') if l.strip()]
out = []
for p in props:
    if p not in claims:
        if p in names: print('no claim entry for', p, names[p], file=sys.stderr)
        continue
    c = claims[p]
    ts = c.get('theorems', names.get(p, []))
    out.append({"property": p, "status": c["status"], "theorems": ts, "note": c.get("note", "")})
for p in names:
    if p not in props: print('theorem for unknown property', p, file=sys.stderr)
with open(root + '/MANIFEST.json', 'w') as f:
    json.dump({"claims": out}, f, indent=1); f.write('\n')
# table of DESIGN.md
titles = {}
files = {}
for l in open(root + '/properties.jsonl'):
    if l.strip():
        p = json.loads(l); titles[p['id']] = p['title']
for t in th:
    b = os.path.basename(t)
    if b.startswith('Prop_'):
        for m in re.finditer(r'^\s*(?:Theorem|Corollary)\s+((C\d+)_\w+)', open(t).read(), re.M):
            files.setdefault(m.group(2), set()).add(b[:-2])
rows = ['| id | property | status | where | theorems | scope and method |', '|---|---|---|---|---|---|']
done = {c['property']: c for c in out}
for p in props:
    c = done.get(p, {"status": "open", "theorems": [], "note": ""})
    rows.append('| %s | %s | %s | %s | %s | %s |' % (p, titles[p], c['status'], ' '.join('`%s`' % f for f in sorted(files.get(p, []))),
        ' '.join('`%s`' % t for t in c['theorems']), c['note'].replace('|', '/')))
d = open(root + '/DESIGN.md').read()
a, r = d.split('<!-- table -->', 1)
b = r.split('<!-- end table -->', 1)[1]
open(root + '/DESIGN.md', 'w').write(a + '<!-- table -->\n' + '\n'.join(rows) + '\n<!-- end table -->' + b)
print(len(out), 'claims,', sum(len(c["theorems"]) for c in out), 'theorems,', len(th), 'files')
