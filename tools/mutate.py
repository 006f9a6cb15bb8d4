import json,os,re,shutil,subprocess,sys,time
SRC,W='/tmp/mut/base','/tmp/mut/work'  # SRC: a built scratch copy of /verif/rocq
def thm_at(f,line):
    name=None
    for i,l in enumerate(open(f).read().split('\n'),1):
        if i>line: break
        m=re.match(r'\s*(?:Local\s+)?(Theorem|Lemma|Example|Corollary|Definition|Fixpoint)\s+([\w\']+)',l)
        if m: name=m.group(2)
    return name
muts=json.load(open(sys.argv[1])); outf=sys.argv[2]
done={json.loads(l)['id'] for l in open(outf)} if os.path.exists(outf) else set()
jobs=sys.argv[3] if len(sys.argv)>3 else '3'
for m in muts:
    if m['id'] in done: continue
    if os.path.exists(W): shutil.rmtree(W)
    subprocess.run(['cp','-a',SRC,W],check=True)
    f=f"{W}/theories/{m['file']}"; s=open(f).read()
    if s.count(m['old'])!=1:
        r={'id':m['id'],'error':f"old occurs {s.count(m['old'])} times"}
        open(outf,'a').write(json.dumps(r)+'\n'); continue
    open(f,'w').write(s.replace(m['old'],m['new']))
    t=time.time()
    try:
        p=subprocess.run(['timeout','-k','5','1200','make','-k','-j',jobs],cwd=W,capture_output=True,text=True)
        out=p.stdout+p.stderr
    except Exception as e: out=str(e)
    errs=[]
    for mm in re.finditer(r'File "\./theories/(\w+)\.v", line (\d+), characters [^\n]*\n(Error[^\n]*(?:\n[^\n]*)?)',out):
        errs.append([mm.group(1),thm_at(f"{W}/theories/{mm.group(1)}.v",int(mm.group(2))),mm.group(3)[:160]])
    vs=[x[9:-2] for x in open(W+'/_CoqProject').read().split() if x.endswith('.v')]
    # compare timestamps: rebuilt or failed
    mt=os.path.getmtime(f)
    deps=set()
    failed=[]
    for v in vs:
        vo=f"{W}/theories/{v}.vo"
        if not os.path.exists(vo): failed.append(v)
    errfiles={e[0] for e in errs}
    # files not rebuilt because a dependency failed: stale vo older than some dependency vo
    stale=[]
    q=subprocess.run(['make','-k','-n'],cwd=W,capture_output=True,text=True).stdout
    for v in vs:
        if re.search(r'theories/'+v+r'\.v\b',q): stale.append(v)
    r={'id':m['id'],'secs':round(time.time()-t),'errors':errs,'not_built':sorted(set(failed)|set(stale)),'built':[v for v in vs if v not in failed and v not in stale and v[0] in 'PF']}
    open(outf,'a').write(json.dumps(r)+'\n')
