"""Like assumptions.py, but only asks Coq about theorems not yet in ASSUMPTIONS.md."""
import json,glob,re,subprocess,os,tempfile
os.chdir('/verif/rocq')
txt=open('../ASSUMPTIONS.md').read()
sets={}
for m in re.finditer(r'^## (.*?) — \d+ theorems\n\n(.*?)\n',txt,re.M):
    ax=tuple(re.findall(r'`([^`]+)`',m.group(1))); sets[ax]=m.group(2).split(', ')
old={t for l in sets.values() for t in l}
where={}
for f in sorted(glob.glob('theories/[PF]*.v')):
    for m in re.finditer(r'^Theorem (C\d\d\w*)',open(f).read(),re.M): where[m.group(1)]=os.path.basename(f)[:-2]
allt=[t for c in json.load(open('../MANIFEST.json'))['claims'] for t in c['theorems']]
ths=[t for t in allt if t not in old or t=='C116_closest_on_path']
print(len(old),len(ths),[t for t in old if t not in allt])
d=tempfile.mkdtemp()
src="".join(f"From Verif Require {x}.\n" for x in sorted({where[t] for t in ths}))
for t in ths: src+=f'Print Assumptions Verif.{where[t]}.{t}.\n'
open(d+'/A.v','w').write(src)
out=subprocess.run(['coqc','-Q','theories','Verif',d+'/A.v'],capture_output=True,text=True)
assert out.returncode==0, out.stderr
blocks=re.split(r'^(?=Axioms:|Closed under)',out.stdout,flags=re.M)[1:]
assert len(blocks)==len(ths)
for l in sets.values():
    l[:]=[t for t in l if t in allt and t not in ths]
for t,b in zip(ths,blocks):
    ax=tuple(sorted(re.findall(r'^(\S+)\s*:',b,re.M))) if not b.startswith('Closed') else ()
    ax=tuple(a for a in ax if a!='Axioms')
    sets.setdefault(ax,[]).append(t)
for l in sets.values(): l.sort(key=allt.index)
o="# Print Assumptions for every theorem of MANIFEST.json\n\nGenerated by tools/assumptions.py from the compiled files. All axioms are of Coq's standard library.\n"
for ax,l in sorted(sets.items(),key=lambda x:len(x[0])):
    o+="\n## "+(", ".join("`%s`"%a for a in ax) or "Closed under the global context (no axioms)")+f" — {len(l)} theorems\n\n"+", ".join(l)+"\n"
open('../ASSUMPTIONS.md','w').write(o)
for ax,l in sets.items(): print(ax,len(l))
