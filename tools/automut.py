#!/usr/bin/env python3
"""Screening by random small edits.  Usage: automut.py SNAPSHOT SCRATCH OUT SEED PER_DEF FILE...
For each definition of the given model files, up to PER_DEF random edits (operators, comparisons, constants,
texts, branches).  An edit that does not type check is skipped.  The scratch copy is rebuilt until the first
failure; an edit with no failure at all has survived.  One JSON line per edit is written to OUT."""
import json,os,random,re,subprocess,sys,time
SRC,DST,OUT,SEED,PER=sys.argv[1],sys.argv[2],sys.argv[3],int(sys.argv[4]),int(sys.argv[5])
FILES=sys.argv[6:]
R=random.Random(SEED)
def mask(t):
    o=list(t);d=0;i=0;q=False
    while i<len(t):
        if d==0 and t[i]=='"': q=not q
        if not q and t.startswith('(*',i): d+=1
        if d>0 and t[i]!='\n': o[i]='\x01'
        if not q and t.startswith('*)',i) and d>0:
            d-=1; o[i+1]='\x01'; i+=1
        i+=1
    return ''.join(o)
SWAPS=[(r' \+ ',[' - ']),(r' - ',[' + ']),(r' \* ',[' / ',' + ']),(r' / ',[' * ']),(r' && ',[' || ']),(r' \|\| ',[' && ']),
 (r'\btrue\b',['false']),(r'\bfalse\b',['true']),(r'\bnegb ',['']),(r'\bs_0\b',['s_1']),(r'\bs_1\b',['s_0']),(r'\bs_half\b',['s_1']),
 (r' <\? ',[' >? ',' <=? ']),(r' >\? ',[' <? ']),(r' <=\? ',[' <? ']),(r' =\? ',[' <? ']),(r'\bNat\.ltb\b',['Nat.leb']),(r'\bNat\.leb\b',['Nat.ltb']),
 (r'\bisEq\b',['isLt']),(r'\bisLt\b',['isLE','isGt']),(r'\bisLE\b',['isLt','isGE']),(r'\bisGt\b',['isGE','isLt']),(r'\bisGE\b',['isGt','isLE']),
 (r'\bop_min\b',['op_max']),(r'\bop_max\b',['op_min']),(r'\bs_nan\b',['s_0']),(r'\bs_inf\b',['s_1']),(r'\bs_floor\b',['s_ceil']),(r'\bs_ceil\b',['s_floor']),
 (r'\bThrow \w+',['UB']),(r'\bUB\b',['Throw ESyntax']),(r'\bDiverge\b',['UB']),(r'\brev\b',['id']),(r'\bfst\b',['snd']),(r'\bsnd\b',['fst']),
 (r'\btrim ',['']),(r'\bDatatypes\.S i\b',['i']),(r'\bDatatypes\.S j\b',['j']),(r'\bhd\b',['last']),(r'\bremovelast\b',['@tl _']),
 (r'\bexistsb\b',['forallb']),(r'\bforallb\b',['existsb']),(r'\bWeightedAverage\b',['WeightedSum']),(r'\bMinimum\b',['Maximum']),
 (r'\bNone\b(?! =>)(?!\s*\|)',['@None _']),(r'\bSome (\w+)(?! =>)',['None']),(r'\bMinimum\b',['AlgebraicProduct']),
 (r'\b2\b',['3']),(r'\b1\b',['2','0']),(r'\b0\b',['1']),(r'\b10\b',['9']),(r'"([^"\n]{1,20})"',None),(r'\bs_min\b',['s_max']),(r'\bstart\b',['stop']),
 (r'\bv_min\b',['v_max']),(r'\bv_max\b',['v_min']),(r'\bo_previous\b',['o_default']),(r'\bmap\b',None),(r'\brest\b',['[]']),(r'\[\]',None),(r'then (.{1,60}?) else (.{1,60}?)(?=[\n.])',None),
 (r'\bsrl_\w+|\bkeep\b',None),(r'\bs_sin\b',['s_cos']),(r'\bs_exp\b',['s_log']),(r'\bs_abs\b',['']),(r'\bfilter\b',None),(r'\bfirst\b',['last']),(r'\band\b',['or'])]
def edits(t,m,a,b):
    out=[]
    for pat,reps in SWAPS:
        for x in re.finditer(pat,m[a:b]):
            s,e=a+x.start(),a+x.end(); old=t[s:e]
            if '\x01' in m[s:e]: continue
            if pat.startswith('"'): rs=['"'+x.group(1)[1:]+'"','"'+x.group(1)+'z"']; rs=[R.choice(rs)]
            elif pat.startswith('then'): rs=['then '+x.group(2)+' else '+x.group(1)]
            elif reps is None: continue
            else: rs=reps
            for r in rs:
                if r!=old: out.append((s,e,old,r))
    return out
def defs(t,m):
    st=[x.start() for x in re.finditer(r'^(Definition|Fixpoint|Function)\s',m,re.M)]
    ends=[x.start() for x in re.finditer(r'^(Definition|Fixpoint|Function|End|Section|Record|Inductive|Variable|Variables|Context|Class|Instance|Lemma|Arguments|Notation|\x01)',m,re.M)]+[len(t)]
    for s in st:
        e=min(x for x in ends if x>s)
        yield re.match(r'\w+\s+([\w\']+)',t[s:e]).group(1),s,e
done=set()
if os.path.exists(OUT):
    for l in open(OUT): d=json.loads(l); done.add((d['file'],d['pos'],d['new']))
jobs=[]
for f in FILES:
    t=open(f'{SRC}/theories/{f}').read(); m=mask(t)
    for name,s,e in defs(t,m):
        body=m.find(':=',s,e)
        es=edits(t,m,body if body>0 else s,e); R.shuffle(es)
        jobs.append((f,name,es))
def restore(): subprocess.run(f'rm -rf {DST}; mkdir -p {os.path.dirname(DST)}; cp -a {SRC} {DST}',shell=True,check=True)
if os.environ.get('SHUFFLE'): R.shuffle(jobs)
for f,name,es in jobs:
    n=0; tries=0
    for s,e,old,new in es:
        if n>=PER or tries>=PER+6: break
        if (f,s,new) in done: n+=1; continue
        restore(); tries+=1
        p=f'{DST}/theories/{f}'; t=open(p).read(); open(p,'w').write(t[:s]+new+t[e:])
        r=subprocess.run(f'timeout 200 coqc -q -Q theories Verif theories/{f}',shell=True,cwd=DST,stdout=subprocess.PIPE,stderr=subprocess.STDOUT,text=True)
        if r.returncode: continue
        t0=time.time()
        try:
            o=subprocess.run(f'timeout 2400 make -j{os.environ.get("J","2")} 2>&1',shell=True,cwd=DST,stdout=subprocess.PIPE,text=True).stdout
        except Exception as ex: o='Error '+str(ex)
        er=re.search(r'File "\./theories/(\w+)\.v", line (\d+), characters [\d-]+:\nError',o)
        w=None
        if er:
            L=open(f'{DST}/theories/{er.group(1)}.v').read().split('\n'); i=int(er.group(2))-1
            while i>=0 and not re.match(r'\s*(?:#\[[^\]]*\]\s*)?(?:Local |Global )?(Lemma|Theorem|Example|Corollary|Instance|Definition|Fact|Remark)\s+(\w+)',L[i]): i-=1
            w=er.group(1)+'.'+(re.match(r'\s*(?:#\[[^\]]*\]\s*)?(?:Local |Global )?\w+\s+(\w+)',L[i]).group(1) if i>=0 else '?')
        elif 'rror' in o: w='other: '+o[-200:]
        ln=t[:s].count('\n')+1; a=t.rfind('\n',0,s)+1; z=t.find('\n',e)
        rec=dict(file=f,definition=name,line=ln,pos=s,old=old,new=new,context=t[max(a,s-50):s]+'<<'+old+'=>'+new+'>>'+t[e:min(z,e+50)],first_failure=w,secs=int(time.time()-t0))
        open(OUT,'a').write(json.dumps(rec)+'\n'); n+=1
