import re,sys
def tabs(fn):
    s=open(fn,encoding='utf8',errors='replace').read()
    s=re.sub(r'/\*.*?\*/','',s,flags=re.S); s=re.sub(r'//[^\n]*','',s)
    out={}
    for m in re.finditer(r'(?:unsigned\s+char|byte08_t|uint8_t)\s+(\w+)\s*\[\s*(\w*)\s*\]\s*=\s*\{(.*?)\}',s,re.S):
        vals=[v.strip() for v in m.group(3).split(',') if v.strip()]
        r=[]
        for v in vals:
            v=v.split('::')[-1]
            if v.startswith('CT_'): v={'CT_CAPITAL':0,'CT_REGULAR':1,'CT_DLMCHAR':2,'CT_INVALID':3}[v]
            else: v=int(v,0)
            r.append(v)
        out[m.group(1)]=r
    return out
def emit():
    lines=["(** * CharTables: GENERATED by tools/chartables.py from /repo/lang-*/chartype.cpp.  MODEL ONLY.",
           "    CT_CAPITAL = 0, CT_REGULAR = 1, CT_DLMCHAR = 2, CT_INVALID = 3 (xmorph/capsheme.h:94-101). *)",
           "From Verif Require Import Base.","Local Open Scope N_scope.",""]
    for l in ['rus','eng','ukr']:
        f='/repo/lang-%s/chartype.cpp'%l
        src=open(f,encoding='utf8',errors='replace').read().split('\n')
        for k,v in tabs(f).items():
            n=[i+1 for i,x in enumerate(src) if k in x][0]
            lines.append("(** lang-%s/chartype.cpp:%d [%s]. *)"%(l,n,k))
            lines.append("Definition %s_%s : list N := ["%(l,k))
            for i in range(0,len(v),16):
                lines.append("  "+"; ".join(str(x) for x in v[i:i+16])+(";" if i+16<len(v) else ""))
            lines.append("].")
    open('/verif/rocq/theories/CharTables.v','w').write("\n".join(lines)+"\n")
if __name__=='__main__': emit()
