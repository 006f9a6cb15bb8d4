"""mklog.py BATCH.json RESULTS.jsonl ... : write seeded/LOG.jsonl from mutation batches (see mutate.py).
A theorem counts as failed when its proof, or a lemma before it in its file, or a file it needs, no longer compiles."""
import json,re,sys,os
T=os.path.join(os.path.dirname(__file__),'../rocq/theories/')
TIGHT=json.load(open(os.path.join(os.path.dirname(__file__),'tightened.json')))
def thms(f,after=None):
    out=[];on=after is None
    for l in open(T+f+'.v'):
        m=re.match(r"\s*(?:Local\s+)?(Theorem|Lemma|Example|Corollary|Definition|Fixpoint)\s+([\w']+)",l)
        if not m: continue
        if m.group(2)==after: on=True
        if on and m.group(1)=='Theorem' and re.match(r'C\d\d',m.group(2)): out.append(m.group(2))
    return out
out=[]
for b,r in zip(sys.argv[1::2],sys.argv[2::2]):
    M={x['id']:x for x in json.load(open(b))}
    for l in open(r):
        e=json.loads(l); m=M[e['id']]
        if 'error' in e: print('ERR',e); continue
        at=[f'{f}.{n}' for f,n,_ in e['errors']]
        failed=[]
        for f,n,_ in e['errors']: failed+=thms(f,n)
        errf={f for f,_,_ in e['errors']}
        for f in e['not_built']:
            if f not in errf and f[0] in 'PF': failed+=thms(f)
        t=TIGHT.get(e['id'],[])
        if not e['errors'] and e['not_built']: at=['(proof search did not end within the time limit: '+', '.join(e['not_built'])+')']
        if not at: print('SURVIVED',e['id'],m['edit'],'tightened:',t)
        out.append(dict(definition=f"{m['file']}: {m['definition']}",edit=m['edit'],old=m['old'],new=m['new'],claim=m['claim'],
            first_failure=at,note=m.get('note',''),theorems_failed=sorted(set(failed)),theorems_tightened=t))
open(os.path.join(os.path.dirname(__file__),'../seeded/LOG.jsonl'),'w').write(''.join(json.dumps(o)+'\n' for o in out))
print(len(out))
