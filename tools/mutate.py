#!/usr/bin/env python3
"""Mutation testing of the model.  Usage: mutate.py MUTANTS.json [--from N]
Each mutant: {"file","def","old","new","claim","count"(optional)}.  Works in a scratch copy (/tmp/mut).
A lemma whose proof breaks is replaced by Admitted in the scratch copy, and the property theorems that
then depend on it are read off Print Assumptions.  One JSON line per mutant is printed."""
import json,os,re,shutil,subprocess,sys
SRC=os.environ.get('MUTSRC','/verif/rocq'); DST='/tmp/mut/rocq'
def sh(c,t=3000):
    return subprocess.run(c,shell=True,stdout=subprocess.PIPE,stderr=subprocess.STDOUT,text=True,timeout=t,cwd=DST).stdout
HEAD=re.compile(r'^\s*(?:#\[[^\]]*\]\s*)?(?:Local |Global )?(Lemma|Theorem|Example|Corollary|Fact|Remark|Proposition)\s+([A-Za-z0-9_\']+)')
def admit(f,line):
    p=os.path.join(DST,f); L=open(p).read().split('\n'); i=line-1
    while i>=0 and not HEAD.match(L[i]): i-=1
    if i<0: return None
    name=HEAD.match(L[i]).group(2)
    s=i
    while s<len(L) and not re.search(r'\bProof\b',L[s]): s+=1
    e=s
    while e<len(L) and not re.search(r'\b(Qed|Defined)\.',L[e]): e+=1
    if e>=len(L) or line-1>e or line-1<s: return None
    pre=L[s][:re.search(r'\bProof\b',L[s]).start()]
    post=re.sub(r'^.*\b(Qed|Defined)\.','',L[e])
    L[s:e+1]=[pre+'Proof. Admitted.'+post]+['']*(e-s)
    open(p,'w').write('\n'.join(L)); return name
def run(m):
    os.makedirs('/tmp/mut',exist_ok=True)
    subprocess.run(f'rm -rf {DST}; cp -a {SRC} {DST}',shell=True,check=True)
    p=os.path.join(DST,'theories',m['file']); t=open(p).read()
    assert t.count(m['old'])>=1,(m['file'],m['old'])
    n=t.count(m['old']); k=m.get('count',1)
    if n!=k: raise SystemExit(f"{m['file']}: {n} occurrences of {m['old']!r}")
    open(p,'w').write(t.replace(m['old'],m['new']))
    failed=[]; broken=[]; t0=os.path.getmtime(p)-1
    for it in range(80):
        out=sh('make -k -j2 2>&1')
        errs=re.findall(r'File "\./(theories/[A-Za-z0-9_]+\.v)", line (\d+), characters [\d-]+:\nError',out)
        if not errs: break
        prog=False
        for f,l in dict.fromkeys(errs):
            nm=admit(f,int(l))
            if nm: failed.append(os.path.basename(f)[:-2]+'.'+nm); prog=True
            else: broken.append(f"{f}:{l}")
        if not prog: break
    props=[]
    for f in sorted(os.listdir(DST+'/theories')):
        if not(f.startswith('Prop') and f.endswith('.v')): continue
        vo=os.path.join(DST,'theories',f+'o')
        if not os.path.exists(vo): broken.append(f); continue
        if os.path.getmtime(vo)<t0: continue
        o=sh(f'coqc -q -Q theories Verif theories/{f} 2>&1')
        names=re.findall(r'^Print Assumptions (\w+)',open(os.path.join(DST,'theories',f)).read(),re.M)
        blocks=[]; cur=None
        for ln in o.split('\n'):
            if ln.startswith('Closed under') : blocks.append(''); cur=None
            elif ln.startswith('Axioms:'): blocks.append(''); cur=len(blocks)-1
            elif cur is not None: blocks[cur]+=ln+'\n'
        fl=[x.split('.')[1] for x in failed]
        for nm,b in zip(names,blocks):
            ax=re.findall(r'^([A-Za-z0-9_\.\']+)\s*:',b,re.M)+re.findall(r'^([A-Za-z0-9_\.\']+)\s*$',b,re.M)
            if any(a.split('.')[-1] in fl for a in ax) or nm in fl: props.append(nm)
    rec={"definition":m['file']+": "+m['def'],"edit":m['old']+"  ==>  "+m['new'],"claim":m['claim'],"theorems_failed":props,
         "lemmas_failed":failed[:12],"theorems_tightened":m.get('tightened',[])}
    if broken: rec["not_rebuilt"]=sorted(set(broken))
    return rec
if __name__=='__main__':
    ms=json.load(open(sys.argv[1])); st=int(sys.argv[3]) if len(sys.argv)>3 else 0
    for m in ms[st:]:
        r=run(m); print(json.dumps(r),flush=True)
