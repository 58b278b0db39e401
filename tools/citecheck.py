#!/usr/bin/env python3
# Checks the citations "path:from-to [symbol]" in the comments of the model files: the symbol must occur in the cited lines.
import re,os,sys,glob
R='/repo'; T='/verif/rocq/theories'
byname={}
for d,_,fs in os.walk(R):
    for f in fs:
        if f.endswith(('.h','.hpp','.cpp')): byname.setdefault(f,[]).append(os.path.join(d,f))
bad=0; n=0
for v in sorted(glob.glob(T+'/*.v')):
    s=open(v).read()
    last=None
    for c in re.finditer(r'\(\*.*?\*\)',s,re.S):
        body=c.group(0)
        for m in re.finditer(r'(?:([\w\-./]+\.(?:hpp|h|cpp)):)(\d+)(?:-(\d+))?((?:, \d+(?:-\d+)?)*)((?:[^\[\]]|\n){0,20}?)\[([^\]]+)\]',body):
            p,a,b,more,_,sym=m.groups()
            a=int(a); b=int(b or a)
            cands=[os.path.join(R,p)] if '/' in p else byname.get(p,[])
            if '/' not in p and last and os.path.exists(os.path.join(os.path.dirname(last),p)): cands=[os.path.join(os.path.dirname(last),p)]
            cands=[x for x in cands if os.path.exists(x)]
            if not cands: print(os.path.basename(v),'no file',p); bad+=1; continue
            if '/' in p: last=cands[0]
            n+=1
            name=re.split(r'[\s(<:=]',sym.split('::')[-1].strip())[0]
            ok=False
            for x in cands:
                L=open(x,encoding='latin-1').read().split('\n')
                if any(name in l for l in L[a-1:b]): ok=True
            if not ok:
                bad+=1
                where=[]
                for x in cands:
                    L=open(x,encoding='latin-1').read().split('\n')
                    where+=[i+1 for i,l in enumerate(L) if name in l][:6]
                print(f"{os.path.basename(v)}:{s[:c.start()].count(chr(10))+1} {p}:{a}-{b} [{sym}] found at {where}")
print(n,'citations',bad,'bad')
