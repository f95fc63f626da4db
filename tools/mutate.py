#!/usr/bin/env python3
"""Seeded-bug testing of the theorems (scratch only, never inside /verif/rocq).

usage: mutate.py MUTANTS.jsonl [id ...]

Each mutant is {"id","file","definition","old","new","edit","claims":[...]}.  For each one a
scratch copy of /verif/rocq is edited and rebuilt.  When a proof fails it is replaced, in the
scratch copy, by Admitted, so that the build goes on; afterwards Print Assumptions tells which
theorems of the manifest rest on a failed proof: these are the theorems that failed.  One JSON
line per mutant is appended to /verif/seeded/LOG.jsonl (mutants already logged are skipped unless
named on the command line)."""
import json,os,re,subprocess,sys,shutil
V='/verif'; S='/tmp/mut/rocq'; P='/tmp/mut/pristine'
def sh(c,cwd=S,t=3000):
    return subprocess.run(c,shell=True,cwd=cwd,stdout=subprocess.PIPE,stderr=subprocess.STDOUT,text=True,timeout=t).stdout
def prepare():
    import filecmp,glob
    os.makedirs(P+'/theories',exist_ok=True)
    src=sorted(glob.glob(V+'/rocq/theories/*.v'))+[V+'/rocq/_CoqProject']
    for a in src:
        b=P+a[len(V+'/rocq'):]
        if not os.path.exists(b) or not filecmp.cmp(a,b,shallow=False): shutil.copy(a,b)
    out=sh('coq_makefile -f _CoqProject -o Makefile >/dev/null && make -j4 2>&1',cwd=P)
    if 'Error' in out: print(out[-2000:]); sys.exit('pristine build fails')
def admit(f,line):
    """replace the proof containing line (1-based) of file f by Admitted; returns the lemma's name"""
    src=open(f).read().split('\n'); i=line-1
    start=re.compile(r'^\s*(?:Local |#\[.*\] )?(Lemma|Theorem|Corollary|Example|Fact|Remark|Definition|Fixpoint|Instance)\s+(\w+)')
    j=i
    while j>=0 and not start.match(src[j]): j-=1
    if j<0: return None
    if 'Admitted.' in '\n'.join(src[j:i+1]): return None
    m=start.match(src[j]); k=i
    end=re.compile(r'(Qed|Defined)\.\s*$')
    while k<len(src) and not end.search(src[k]):
        k+=1
        if k>=len(src) or start.match(src[k]): return None
    if m.group(1) in('Definition','Fixpoint'): return None
    # where the statement ends
    text='\n'.join(src[j:k+1]); q=text.find('Proof')
    if q<0: return None
    src[j:k+1]=(text[:q]+'Proof. Admitted.').split('\n')
    open(f,'w').write('\n'.join(src)); return m.group(2)
def deps(f):
    """files depending on theories/f"""
    out=sh('coqdep -f _CoqProject 2>/dev/null',cwd=P); d={}
    for l in out.split('\n'):
        m=re.match(r'theories/(\w+)\.vo .*?:(.*)',l)
        if m: d[m.group(1)]=set(re.findall(r'theories/(\w+)\.vo(?!s)',m.group(2)))
    r={f}; ch=True
    while ch:
        ch=False
        for k,v in d.items():
            if k not in r and v&r: r.add(k); ch=True
    return r
def run(mu,manifest):
    sh(f'rm -rf {S} && cp -a {P} {S}',cwd='/tmp')
    f=f"{S}/theories/{mu['file']}"; s=open(f).read()
    if s.count(mu['old'])!=1: return dict(error=f"old text occurs {s.count(mu['old'])} times")
    open(f,'w').write(s.replace(mu['old'],mu['new']))
    failed=[]
    for rnd in range(160):
        out=sh('ulimit -v 6000000; make -k -j3 COQC="timeout 70 coqc" 2>&1')
        errs=re.findall(r'File "\./theories/(\w+)\.v", line (\d+), characters [\d-]+:\s*\n\s*Error',out)
        if not errs:
            stuck=re.findall(r'Makefile:\d+: theories/(\w+)\.vo\] (?:Error|Killed)',out)
            if stuck:
                fn=stuck[0]; src=open(f'{S}/theories/{fn}.v').read()
                o=sh(f'ulimit -v 6000000; timeout 70 coqc -time -Q theories Verif theories/{fn}.v 2>&1')
                ends=[int(x) for x in re.findall(r'^Chars \d+ - (\d+) ',o,re.M)]
                b=src.encode(); pos=(ends[-1] if ends else 0)+2
                ln=b[:pos].count(b'\n')+1
                n=admit(f'{S}/theories/{fn}.v',ln)
                if n is None: return dict(error=f'cannot admit (stuck) {fn}:{ln}',failed=failed)
                failed.append(fn+'.'+n+' (diverges)'); continue
            if 'rror' in out and 'Error' in out and 'make' in out and re.search(r'make.*Error',out): return dict(error='build: '+out[-500:])
            break
        for fn,ln in dict(errs).items():
            n=admit(f'{S}/theories/{fn}.v',int(ln))
            if n is None: return dict(error=f'cannot admit {fn}:{ln}',failed=failed)
            failed.append(fn+'.'+n)
    else: return dict(error='too many rounds',failed=failed)
    affected=[]
    if failed:
        props=[x for x in deps(mu['file'][:-2]) if re.search(r'Props\d*$',x)]
        thms=[]
        for x in props:
            for n in re.findall(r'^(?:Theorem|Corollary)\s+(C\d\d\w+)',open(f'{S}/theories/{x}.v').read(),re.M):
                thms.append((x,n))
        chk='/tmp/mut/chk.v'
        with open(chk,'w') as o:
            for x in props: o.write(f'From Verif Require {x}.\n')
            for x,n in thms: o.write(f'Goal True. idtac "MARK {n}". Abort.\nPrint Assumptions {x}.{n}.\n')
        out=sh(f'coqc -Q theories Verif {chk} 2>&1')
        for part in out.split('MARK ')[1:]:
            n,_,rest=part.partition('\n')
            if 'Closed under' not in rest: affected.append(n.strip())
    return dict(proofs_failed=failed,theorems_failed=sorted(set(affected)))
def main():
    mus=[json.loads(l) for l in open(sys.argv[1]) if l.strip()]
    only=set(sys.argv[2:]); log=V+'/seeded/LOG.jsonl'
    done=set()
    if os.path.exists(log): done={json.loads(l).get('id') for l in open(log) if l.strip()}
    prepare()
    for mu in mus:
        if only and mu['id'] not in only: continue
        if not only and mu['id'] in done: continue
        r=run(mu,None)
        tf=r.get('theorems_failed',[])
        caught={c for c in mu['claims'] if any(t.startswith(c+'_') for t in tf)}
        miss=[c for c in mu['claims'] if c not in caught]
        rec=dict(id=mu['id'],definition=mu['definition'],file=mu['file'],edit=mu['edit'],claims_broken=mu['claims'],
                 theorems_failed=tf,proofs_failed=r.get('proofs_failed',r.get('failed',[])),theorems_tightened=mu.get('tightened',[]))
        if 'note' in mu: rec['note']=mu['note']
        if 'error' in r: rec['error']=r['error']
        rec['verdict']='caught' if not miss and 'error' not in r else ('error' if 'error' in r else 'SURVIVED: '+','.join(miss))
        print(mu['id'],rec['verdict'],len(tf),'theorems;',r.get('error','') ,flush=True)
        if 'error' not in r:
            with open(log,'a') as o: o.write(json.dumps(rec)+'\n')
main()
