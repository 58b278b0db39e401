#!/usr/bin/env python3
# Writes MANIFEST.json: claims come from the table below, theorem names are checked against rocq/theories/Prop_*.v
import json, re, glob, os
root = os.path.dirname(os.path.dirname(os.path.abspath(__file__)))
names = {}
for f in sorted(glob.glob(root + '/rocq/theories/Prop_*.v')):
    for m in re.finditer(r'^Theorem\s+(\w+)', open(f).read(), re.M):
        names.setdefault(m.group(1).split('_')[0], []).append(m.group(1))
exec(open(root + '/tools/claims.py').read())
props = [json.loads(l)['id'] for l in open(root + '/properties.jsonl')]
out = []
for p in props:
    if p not in names and p not in CLAIMS: continue
    st, note = CLAIMS.get(p, ('proved', ''))
    out.append({"property": p, "status": st, "theorems": names.get(p, []), "note": note})
for p in names: assert p in props, p
json.dump({"claims": out}, open(root + '/MANIFEST.json', 'w'), indent=1)
print(len(out), 'claims', sum(len(c['theorems']) for c in out), 'theorems; missing:', [p for p in props if p not in names])
