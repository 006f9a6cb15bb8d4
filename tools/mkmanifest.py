#!/usr/bin/env python3
"""Regenerate MANIFEST.json from the theorem names Cnn_* in rocq/theories/P*.v and notes.json."""
import re, json, glob, os
root = os.path.dirname(os.path.dirname(os.path.abspath(__file__)))
notes = json.load(open(os.path.join(root, 'tools', 'notes.json')))
th = {}
for f in sorted(glob.glob(os.path.join(root, 'rocq/theories/[PF]*.v'))):
    for m in re.finditer(r'^Theorem\s+(C\d\d\w*)', open(f).read(), re.M):
        n = m.group(1)
        th.setdefault(n.split('_')[0], []).append(n)
claims = []
for l in open(os.path.join(root, 'properties.jsonl')):
    p = json.loads(l)['id']
    n = notes.get(p, {})
    if p not in th:
        continue
    st = n.get('status') or ('partial' if any(('_partial' in t or '_refuted' in t) for t in th[p]) else 'proved')
    claims.append({"property": p, "status": st, "theorems": th[p], "note": n.get('note', '')})
json.dump({"claims": claims}, open(os.path.join(root, 'MANIFEST.json'), 'w'), indent=1, ensure_ascii=False)
print(len(claims), 'claims', sum(len(c['theorems']) for c in claims), 'theorems',
      'missing:', [json.loads(l)['id'] for l in open(os.path.join(root,'properties.jsonl')) if json.loads(l)['id'] not in th])
