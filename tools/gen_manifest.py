#!/usr/bin/env python3
"""Regenerates MANIFEST.json from tools/claims.json-like table below and the P_*.v files."""
import json, re, glob, os
root = os.path.dirname(os.path.dirname(os.path.abspath(__file__)))
props = [json.loads(l)['id'] for l in open(os.path.join(root, 'properties.jsonl'))]
notes = json.load(open(os.path.join(root, 'tools', 'notes.json')))
thms = {}
for f in sorted(glob.glob(os.path.join(root, 'rocq/theories/P_*.v'))):
    for m in re.finditer(r'^Theorem (C\d\d)(\w*)', open(f).read(), re.M):
        thms.setdefault(m.group(1), []).append(m.group(1) + m.group(2))
claims = []
for p in props:
    n = notes.get(p, {})
    t = thms.get(p, [])
    status = n.get('status', 'proved' if t else 'partial')
    claims.append({"property": p, "status": status, "theorems": t, "note": n.get('note', '')})
json.dump({"claims": claims}, open(os.path.join(root, 'MANIFEST.json'), 'w'), ensure_ascii=False, indent=1)
print(sum(1 for c in claims if c['theorems']), 'of', len(claims))
print('no theorem:', [c['property'] for c in claims if not c['theorems']])
