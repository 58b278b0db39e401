#!/usr/bin/env python3
# Converts the results of the mutation harness (json lines) into seeded/LOG.jsonl.
# theorems_failed = lemmas where the rebuild stopped + property theorems whose proof rests on one of them.
import re,json,sys,os
T='/verif/rocq/theories'
items={}
for f in sorted(os.listdir(T)):
    if not f.endswith('.v'): continue
    s=re.sub(r'\(\*.*?\*\)','',open(T+'/'+f).read(),flags=re.S)
    parts=re.split(r'(?m)^\s*(?=(?:Local |Global |#\[[^\]]*\] )?(?:Theorem|Lemma|Example|Definition|Fixpoint|Corollary|Remark|Record|Inductive)\s)',s)
    for p in parts:
        m=re.match(r'(?:Local |Global |#\[[^\]]*\] )?(?:Theorem|Lemma|Example|Definition|Fixpoint|Corollary|Remark|Record|Inductive)\s+(\w+)',p)
        if m: items.setdefault(m.group(1),set()).update(re.findall(r"[A-Za-z_][\w']*",p[m.end():]))
rev={}
for n,us in items.items():
    for u in us:
        if u in items and u!=n: rev.setdefault(u,set()).add(n)
def closure(names):
    seen=set(names); st=list(names)
    while st:
        x=st.pop()
        for y in rev.get(x,()):
            if y not in seen: seen.add(y); st.append(y)
    return seen
def definition(m):
    s=open(T+'/'+m['file']).read()
    i=s.find(m['old'])
    if i<0: return m['file']
    names=re.findall(r'(?m)^\s*(?:Definition|Fixpoint|Record|Inductive)\s+(\w+)',s[:i+len(m['old'])])
    return m['file'][:-2]+'.'+(names[-1] if names else '?')
out=[]
for fn in sys.argv[1:]:
    for l in open(fn):
        m=json.loads(l)
        fails=[x.split('.')[1] for x in m['fails']]
        props=sorted(x for x in closure(fails) if re.match(r'C\d\d\d?_',x))
        out.append(dict(definition=definition(m),edit=m['desc']+': `'+m['old']+'` -> `'+m['new']+'`',claim=m['claim'],
             theorems_failed=m['fails']+props,theorems_tightened=m.get('tightened',[]),outcome='killed' if m['rc'] else m.get('outcome','survived')))
open('/verif/seeded/LOG.jsonl','w').write(''.join(json.dumps(o,ensure_ascii=False)+'\n' for o in out))
print(len(out),[o['definition'] for o in out if o['outcome']!='killed'])
