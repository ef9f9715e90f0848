import re,json,glob,os
os.chdir('/verif/rocq/theories')
names={}
for f in sorted(glob.glob('Props_*.v')):
    names[f[:-2]]=re.findall(r'^Theorem (C\d\d_\w+)',open(f).read(),re.M)
m=json.load(open('/verif/MANIFEST.json'))
used=[t for c in m['claims'] for t in c['theorems']]
out=["(** * Assumptions: what every property theorem rests on. Generated by tools/assumptions.py; the build log shows the answers. *)",
"From Verif Require Import "+" ".join(names)+"."]
for f,l in names.items():
    for n in l: out.append(f"Print Assumptions {f}.{n}.")
print(sum(map(len,names.values())), len(set(used)))
open('Assumptions.v','w').write("\n".join(out)+"\n")
