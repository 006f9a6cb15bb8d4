"""automut.py SEED COUNT OUT.json : random one-token mutants of the definitions in M*.v (input of mutate.py)."""
import re,sys,json,random,glob,os
T=os.path.join(os.path.dirname(os.path.abspath(__file__)),'../rocq/theories/')
RULES=[('nadd','nsub'),('nsub','nadd'),('nmul','ndiv'),('ndiv','nmul'),('nsin','ncos'),('ncos','nsin'),('nsqrt','nneg'),
 ('row 0','row 1'),('row 1','row 2'),('row 2','row 0'),('Fin 1','Fin 2'),('Fin 2','Fin 1'),('Fin 0','Fin 1'),('NaN','(Fin 1)'),('fst','snd'),('snd','fst'),
 ('true','false'),('false','true'),('&&','||'),('||','&&'),('<=?','<?'),('<?','<=?'),('transpose','id'),('nneg','id'),('deg','rad'),('rad','deg'),
 ('n_EA_E','n_EB_E'),('n_EB_E','n_EA_E'),('n_EA1_E','n_EA2_E'),('n_EA2_E','n_EA1_E'),('nle','nlt'),('nlt','nle'),('nabs','id'),('zA','zB'),('zB','zA'),('a f','f a'),
 ('ValueError','TypeError'),('%nat','%nat'),('negb','id'),('O','1%nat'),('p_AB_E','n_EA_E'),('andb','orb'),('orb','andb'),('existsb','forallb'),('forallb','existsb')]
out=[]
for f in sorted(glob.glob(T+'M*.v')):
    s=open(f).read()
    for m in re.finditer(r"^(?:Definition|Fixpoint)\s+([\w']+)(.*?)(?=^\S|\Z)",s,re.M|re.S):
        name=m.group(1); body=m.group(0); base=m.start()
        k=body.find(':=')
        if k<0: continue
        com=[(c.start(),c.end()) for c in re.finditer(r'\(\*.*?\*\)',body,re.S)]
        for a,b in RULES:
            for o in re.finditer(r'(?<![\w\'.])'+re.escape(a)+r'(?![\w\'])',body):
                if o.start()<k or any(x<=o.start()<y for x,y in com) or a==b: continue
                st,en=base+o.start(),base+o.end()
                # unique context
                w=10
                while True:
                    lo,hi=max(0,st-w),min(len(s),en+w)
                    old=s[lo:hi]
                    if s.count(old)==1: break
                    w+=10
                new=s[lo:st]+b+s[en:hi]
                line=s[:st].count('\n')+1
                out.append(dict(file=os.path.basename(f),definition=name,edit=f'{a} -> {b} (line {line})',old=old,new=new,claim=''))
random.seed(int(sys.argv[1])); 
print(len(out))
byd={}
for o in out: byd.setdefault((o['file'],o['definition']),[]).append(o)
pick=[];ks=list(byd)
while len(pick)<int(sys.argv[2]) and any(byd.values()):
    random.shuffle(ks)
    for k in ks:
        if byd[k] and len(pick)<int(sys.argv[2]): pick.append(byd[k].pop(random.randrange(len(byd[k]))))
for i,o in enumerate(pick): o['id']=f'a{sys.argv[1]}_{i:03d}'
json.dump(pick,open(sys.argv[3],'w'),indent=1)
