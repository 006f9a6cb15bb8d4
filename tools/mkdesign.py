#!/usr/bin/env python3
import json,glob,re,os
os.chdir('/verif')
where={}
for f in sorted(glob.glob('rocq/theories/[PF]*.v')):
    for m in re.finditer(r'^Theorem (C\d\d\w*)',open(f).read(),re.M): where[m.group(1)]=os.path.basename(f)
man={c['property']:c for c in json.load(open('MANIFEST.json'))['claims']}
how=json.load(open('tools/how.json'))
o=open('tools/design_head.md').read()
for l in open('properties.jsonl'):
    p=json.loads(l); c=man[p['id']]
    fs=sorted({where[t] for t in c['theorems']})
    o+=f"* **{p['id']}** {p['title']} — {c['status']}. Code: {', '.join(a.replace('src/nvector/','') for a in p['anchors'])}. {how.get(p['id'],'')}Theorems ({', '.join(fs)}): {', '.join('`%s`'%t for t in c['theorems'])}."
    if c.get('note'): o+=f" Note: {c['note']}"
    o+="\n"
open('DESIGN.md','w').write(o)
