#!/usr/bin/env python3
"""Writes /verif/MANIFEST.json from the table below; checks that every theorem named exists in a Props_*.v file."""
import json,re,glob,os
here=os.path.dirname(os.path.abspath(__file__))
names=set()
for f in glob.glob(here+'/../rocq/theories/Props_*.v'):
    names|=set(re.findall(r'^Theorem (\w+)',open(f).read(),re.M))
T=[]
def c(p,s,th,note=''):
    for t in th.split():
        assert t in names,t
    T.append(dict(property=p,status=s,theorems=th.split(),note=note))
exec(open(here+'/claims.py').read())
used=set(t for x in T for t in x['theorems'])
print('unused theorems:',sorted(names-used))
props=[json.loads(l)['id'] for l in open(here+'/../properties.jsonl')]
print('unclaimed:',[p for p in props if p not in [x['property'] for x in T]])
json.dump({'claims':T},open(here+'/../MANIFEST.json','w'),indent=1)
