#!/usr/bin/env python3
"""Mutation testing: mutate.py FILE OLD NEW  (in the scratch copy /tmp/mut/w, never in /verif).
Applies the edit to the model, rebuilds, replaces each proof that no longer goes through by Admitted
(in the scratch copy), and reports which theorems of Props_*.v then rest on an admitted statement."""
import sys,os,re,subprocess,glob,json,shutil
M=os.environ.get('MUTDIR','/tmp/mut')
W=M+'/w'
SRC=os.environ.get('MUTSRC','/verif/rocq')
def sh(c): return subprocess.run(c,shell=True,capture_output=True,text=True)
def files(): return [l.strip() for l in open(SRC+'/_CoqProject') if l.strip().endswith('.v')]
def sync():
    os.makedirs(W+'/theories',exist_ok=True)
    for f in files()+['_CoqProject']:
        a,b=open(SRC+'/'+f).read(),None
        if os.path.exists(W+'/'+f): b=open(W+'/'+f).read()
        if a!=b: open(W+'/'+f,'w').write(a)
    sh(f'cd {W} && coq_makefile -f _CoqProject -o Makefile')
def make(jobs=2):
    for x in glob.glob(M+'/err_*')+glob.glob(M+'/time_*'): os.remove(x)
    return sh(f'cd {W} && make -k -j{jobs} COQC={M}/coqcw')
START=re.compile(r'^ *(?:Local |Global )?(Lemma|Theorem|Example|Corollary|Fact|Remark|Definition|Fixpoint|Inductive|Ltac|Record|Notation)\s+(\w+)',re.M)
def admit(f,pos):
    t=open(f).read()
    best=None
    for m in START.finditer(t):
        if m.start()<=pos: best=m
        else: break
    if best is None: return None
    kind,name=best.group(1),best.group(2)
    p=t.find('Proof.',best.start())
    nxt=START.search(t,best.end())
    # statement-level error: not repairable
    ends=[e for e in (t.find('Qed.',best.start()),t.find('Defined.',best.start())) if e>=0]
    if kind in('Definition','Fixpoint','Inductive','Ltac','Record','Notation') or p<0 or not ends: return None
    e=min(ends); e2=t.find('.',e)+1
    # keep the line structure irrelevant
    new=t[:p]+'Admitted.'+t[e2:]
    open(f,'w').write(new)
    return name
def offset(f,line,col):
    L=open(f,'rb').read().split(b'\n')
    b=sum(len(x)+1 for x in L[:line-1])+col
    return len(open(f,'rb').read()[:b].decode('utf8','ignore'))
def run(edits,verbose=True):
    sync()
    for f,o,n in edits:
        p=f'{W}/theories/{f}'
        t=open(p).read()
        assert t.count(o)==1,(f,o,t.count(o))
        open(p,'w').write(t.replace(o,n))
    admitted=[]
    for rnd in range(60):
        r=make()
        errs=glob.glob(M+'/err_*.log')
        fixed=False; bad=[]
        for e in errs:
            b=os.path.basename(e)[4:-4]; f=f'{W}/theories/{b}.v'
            if not os.path.exists(f): continue
            txt=open(e).read()
            vo=f'{W}/theories/{b}.vo'
            m=re.search(r'line (\d+), characters (\d+)-\d+:\nError',txt)
            if m: pos=offset(f,int(m.group(1)),int(m.group(2)))
            elif os.path.exists(vo) and os.path.getmtime(vo)>=os.path.getmtime(f): continue
            else: # timeout or kill: last timed sentence
                tl=open(f'{M}/time_{b}.log').read()
                ms=re.findall(r'Chars (\d+) - (\d+)',tl)
                bo=int(ms[-1][1])+2 if ms else 0
                pos=len(open(f,'rb').read()[:bo].decode('utf8','ignore'))
            nm=admit(f,pos)
            if nm: admitted.append(f'{b}.{nm}'); fixed=True
            else: bad.append((b,txt[-600:]))
        if bad: return dict(status='broken',admitted=admitted,bad=bad)
        if not fixed:
            if r.returncode!=0: return dict(status='make failed',admitted=admitted,bad=r.stderr[-500:])
            break
    # which Props theorems rest on admitted lemmas
    q=['From Verif Require Import '+' '.join(os.path.basename(f)[:-2] for f in files())+'.']
    names=[]
    for f in sorted(glob.glob(W+'/theories/Props_*.v')):
        m=os.path.basename(f)[:-2]
        for n in re.findall(r'^Theorem (\w+)',open(f).read(),re.M): names.append((m,n))
    out={}
    if admitted:
        for m,n in names: q.append(f'Redirect "{M}/pa_{n}" Print Assumptions {m}.{n}.')
        open(M+'/Q.v','w').write('\n'.join(q))
        r=sh(f'cd {M} && coqc -Q {W}/theories Verif Q.v')
        if r.returncode!=0: return dict(status='query failed',admitted=admitted,bad=r.stderr[-500:])
        dep=[n for m,n in names if 'Closed' not in open(f'{M}/pa_{n}.out').read()]
    else: dep=[]
    return dict(status='done',admitted=admitted,failed=dep)
if __name__=='__main__':
    print(json.dumps(run([tuple(sys.argv[1:4])]),indent=1))
