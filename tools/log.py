#!/usr/bin/env python3
"""Writes seeded/LOG.jsonl from the mutation batches (seeded/batch*.json: the edits and the claim each
breaks) and the results of tools/mutate.py (/tmp/mut/r*.jsonl, or what is already in LOG.jsonl)."""
import json,os,re,glob
V='/verif'
B={}
for f in sorted(glob.glob(V+'/seeded/batch*.json')):
    k=re.search(r'batch(\d+)',f).group(1)
    for m in json.load(open(f)): B[(k,m['id'])]=m
old={}
p=V+'/seeded/LOG.jsonl'
if os.path.exists(p):
    for l in open(p):
        r=json.loads(l); old[(r['batch'],r['id'])]=r
T=json.load(open(V+'/seeded/tightened.json')) if os.path.exists(V+'/seeded/tightened.json') else {}
def defn(f,o):
    t=open(f'{V}/rocq/theories/{f}').read()
    i=t.find(o)
    if i<0: return f
    best=None
    for m in re.finditer(r'^ *(?:Definition|Fixpoint|with|Inductive|Record)\s+(\w+)',t[:i+len(o)],re.M):
        if m.start()<=i+len(o): best=m.group(1)
        if m.start()>i: break
    return f'{f}: {best}'
for f in sorted(glob.glob('/tmp/mut/r*.jsonl')):
    k=re.search(r'r(\d+)\.jsonl',f)
    if not k: continue
    k=k.group(1)
    for l in open(f):
        r=json.loads(l)
        m=B.get((k,r['id']))
        if not m or r['status']!='done': continue
        rec=dict(batch=k,id=r['id'],
          definition='; '.join(defn(e[0],e[1]) for e in m['edits']),
          edit=[dict(file=e[0],old=e[1],new=e[2]) for e in m['edits']],
          claim_broken=m['claim'],theorems_failed=r['failed'],first_proofs_broken=r['admitted'][:12],
          theorems_tightened=T.get(k+':'+r['id'],{}).get('tightened',[]))
        n=T.get(k+':'+r['id'],{}).get('note')
        if n: rec['note']=n
        old[(k,r['id'])]=rec
with open(p,'w') as o:
    for k in old: o.write(json.dumps(old[k],ensure_ascii=False)+'\n')
print(len(old))
