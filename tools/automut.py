#!/usr/bin/env python3
"""Mechanical mutants: small textual edits of every executable definition of the model files that no
hand-written mutant touches.  A mutant is killed when some proof that depends on the file fails.

usage: automut.py OUT.jsonl [per_def] [file ...]   (scratch in /tmp/auto; resumes from OUT)"""
import json,os,re,subprocess,sys,glob,shutil,random,hashlib
V='/verif'; P='/tmp/mut/pristine'; S='/tmp/auto/rocq'
out=sys.argv[1]; per=int(sys.argv[2]) if len(sys.argv)>2 else 2; only=set(sys.argv[3:])
def sh(c,cwd=S,t=3000):
    return subprocess.run(c,shell=True,cwd=cwd,stdout=subprocess.PIPE,stderr=subprocess.STDOUT,text=True,timeout=t).stdout
OPS=[(r'<\?','<=?'),(r'<=\?','<?'),(r'(?<![<>])=\?','<=?'),(r' \+ ',' - '),(r' - ',' + '),(r'&&','||'),(r'\|\|','&&'),
 (r'\btrue\b','false'),(r'\bfalse\b','true'),(r'\bfirstn\b','skipn'),(r'\bskipn\b','firstn'),(r' \* ',' + '),(r'\bnegb \(','id ('),
 (r'(?<![\w.^])(\d+)(?![\w])',None),(r'\bland\b','lor'),(r'\bdiv\b','modulo'),(r'\bmod\b','/'),(r' / ',' mod '),(r'\bS (\w+)\b',r'\1'),(r'\bpred\b','S'),(r'\bmin\b','max'),(r'\bmax\b','min'),
 (r'(\w+) \+\+ (\w+)',r'\2 ++ \1'),(r'\bOk\b \((\w+), (\w+)\)',r'Ok (\2, \1)')]
def comments(s):
    """spans of comments"""
    r=[];d=0;i=0
    while i<len(s)-1:
        if s[i:i+2]=='(*': 
            if d==0: b=i
            d+=1;i+=2;continue
        if s[i:i+2]=='*)':
            d-=1;i+=2
            if d==0: r.append((b,i))
            continue
        i+=1
    return r
def gen(f):
    s=open(f).read(); cs=comments(s)
    inc=lambda p:any(a<=p<b for a,b in cs)
    heads=[m for m in re.finditer(r'^(Definition|Fixpoint|Inductive|Record|Theorem|Lemma|Notation|Section|End|From|Import|Proof|Example|Ltac|Local|Arguments|Variable|Context)\b\s*(\w*)',s,re.M) if not inc(m.start())]
    muts=[]
    for i,m in enumerate(heads):
        if m.group(1) not in('Definition','Fixpoint'): continue
        a=m.start(); b=heads[i+1].start() if i+1<len(heads) else len(s)
        q=s.find(':=',a,b)
        if q<0: continue
        c=[]
        for rx,rep in OPS:
            for x in re.finditer(rx,s[q:b]):
                p=q+x.start()
                if inc(p): continue
                new=str(int(x.group(1))+1) if rep is None else x.expand(rep)
                c.append((p,q+x.end(),new))
        random.Random(int(hashlib.md5((f.split('/')[-1]+m.group(2)).encode()).hexdigest(),16)).shuffle(c)
        for p,e,new in c[:per]:
            ctx=s[max(q,p-30):p].split('\n')[-1]+'['+s[p:e]+'->'+new+']'+s[e:e+30].split('\n')[0]
            muts.append((m.group(2),p,e,new,ctx))
    return s,muts
def main():
    done=set()
    if os.path.exists(out): done={(json.loads(l)['file'],json.loads(l)['edit'],json.loads(l)['definition']) for l in open(out)}
    hit={}
    hand=[json.loads(l) for l in open(V+'/seeded/mutants.jsonl')]
    for f in sorted(glob.glob(P+'/theories/*Model.v')):
        b=os.path.basename(f)
        if only and b not in only: continue
        s,muts=gen(f)
        for d,p,e,new,ctx in muts:
            if (b,ctx,d) in done: continue
            sh(f'rm -rf {S} && cp -a {P} {S}',cwd='/tmp/auto')
            g=f'{S}/theories/{b}'; open(g,'w').write(re.sub(r'^Example (\w+) :(?![^.]*:= )((?:(?!^Example).)*?)Qed\.','',s[:p]+new+s[e:],flags=re.M|re.S))
            o=sh('ulimit -v 6000000; timeout 60 coqc -Q theories Verif theories/'+b+' 2>&1')
            rec=dict(file=b,definition=d,edit=ctx)
            if 'Error' in o: rec['verdict']='invalid'
            else:
                o=sh('ulimit -v 6000000; make -j2 COQC="timeout 100 coqc" 2>&1')
                m=re.search(r'File "\./theories/(\w+)\.v", line (\d+)',o)
                if re.search(r'Error',o):
                    rec['verdict']='killed'
                    if m:
                        src=open(f'{S}/theories/{m.group(1)}.v').read().split('\n')[:int(m.group(2))]
                        n=[re.match(r'\s*(Lemma|Theorem|Corollary|Example|Definition|Fixpoint|Instance)\s+(\w+)',l) for l in src]
                        n=[x for x in n if x]
                        rec['by']=m.group(1)+'.'+(n[-1].group(2) if n else '?')
                    else: rec['by']='(time limit) '+' '.join(re.findall(r'theories/(\w+)\.vo\] (?:Error|Killed)',o))
                else: rec['verdict']='SURVIVED'
            with open(out,'a') as w: w.write(json.dumps(rec)+'\n')
            print(b,d,ctx,rec['verdict'],rec.get('by',''),flush=True)
main()
