#!/usr/bin/env python3
"""Seeded-bug runner.  seed.py MUTANTS.json : for each mutant {file, old, new, def, edit, claim}
copy rocq/ to a scratch directory, apply the edit to the model, rebuild.  A proof that fails is
replaced by Admitted (in the scratch copy only) so that the rest can be checked; the theorems of
the *Props.v files that then depend on an admitted proof are the ones that failed.
Appends one line per mutant to seeded/LOG.jsonl."""
import json,os,re,shutil,subprocess,sys,glob,time
BASE=os.environ.get('SEED_BASE','/verif/rocq'); LOG='/verif/seeded/LOG.jsonl'
KW=r'^\s*(?:Local\s+|Global\s+|#\[[^\]]*\]\s*)*(?:Theorem|Lemma|Corollary|Example|Fact|Remark|Instance|Program Definition|Definition)\s+([\w\']+)'
def admit(path,line):
    src=open(path).read().split('\n')
    i=line-1
    while i>=0 and not re.match(KW,src[i]): i-=1
    name=re.match(KW,src[i]).group(1)
    # find "Proof" .. Qed/Defined
    j=i
    while j<len(src) and not re.search(r'\bProof\b',src[j]): j+=1
    k=j
    while k<len(src) and not re.search(r'\b(Qed|Defined)\.',src[k]): k+=1
    if j>=len(src) or k>=len(src) or re.match(r'\s*Definition',src[i]) and j>line: return None
    pre=src[j][:src[j].index('Proof')]; post=re.split(r'\b(?:Qed|Defined)\.',src[k],1)[1]
    src[j:k+1]=[pre+'Proof. Admitted.'+post]+['']*(k-j)
    open(path,'w').write('\n'.join(src)); return name
def run(m,n):
    d='/tmp/seed/%d'%n; shutil.rmtree(d,ignore_errors=True); os.makedirs('/tmp/seed',exist_ok=True)
    shutil.copytree(BASE,d,symlinks=True)
    p=d+'/theories/'+m['file']; s=open(p).read()
    if s.count(m['old'])!=1: print('PATTERN COUNT',s.count(m['old']),m['def']); return None
    open(p,'w').write(s.replace(m['old'],m['new']))
    admitted=[]; t0=time.time()-1
    # SEED_FAST: build only the Props files that state the named claims
    tg=''
    if os.environ.get('SEED_FAST'):
        fs=[f for f in sorted(glob.glob(d+'/theories/*Props.v')) if any(re.search(r'^Theorem %s_'%c,open(f).read(),re.M) for c in m['claim_ids'])]
        tg=' '.join('theories/'+os.path.basename(f)+'o' for f in fs)
    for it in range(200):
        try:
            r=subprocess.run('make -k -j3 TIMED= COQEXTRAFLAGS="-set \'Default Timeout=150\'" '+tg+' 2>&1',shell=True,cwd=d,capture_output=True,text=True,timeout=1500).stdout
        except subprocess.TimeoutExpired:
            print('TIMEOUT',m['def']); return None
        errs=re.findall(r'File "\./(theories/\w+\.v)", line (\d+), characters [\d-]+:\nError',r)
        errs+=re.findall(r'File "\./(theories/\w+\.v)", line (\d+), characters [\d-]+:\n(?:.*\n)*?Error',r) if not errs else []
        if not errs: break
        for f,l in dict(errs).items():
            nm=admit(d+'/'+f,int(l))
            if nm is None: print('CANNOT ADMIT',f,l,r[-1500:]); return None
            admitted.append(f[9:-2]+'.'+nm)
    else: print('NO CONVERGENCE'); return None
    failed=[]
    for pf in sorted(glob.glob(d+'/theories/*Props.v')):
        if not os.path.exists(pf+'o') or os.path.getmtime(pf+'o')<t0: continue   # not rebuilt, so untouched by the edit
        names=re.findall(r'^Theorem (C\d+_\w+)',open(pf).read(),re.M)
        mod=os.path.basename(pf)[:-2]
        t='From Verif Require Import %s.\n'%mod+''.join('Goal True. idtac "@@%s". Abort.\nPrint Assumptions %s.\n'%(x,x) for x in names)
        open('/tmp/seed/q%d.v'%n,'w').write(t)
        o=subprocess.run(['coqtop','-Q',d+'/theories','Verif','-l','/tmp/seed/q%d.v'%n,'-batch'],capture_output=True,text=True).stdout
        for blk in o.split('@@')[1:]:
            nm=blk.split('\n')[0].strip()
            if 'Closed under' not in blk and 'Axioms' in blk: failed.append(nm)
    shutil.rmtree(d,ignore_errors=True)
    return admitted,failed
ms=json.load(open(sys.argv[1])); sel=sys.argv[2:] 
for n,m in enumerate(ms):
    if sel and str(n) not in sel: continue
    r=run(m,n+int(os.environ.get('SEED_OFF','0')))
    if r is None: print('SKIP',m['def']); continue
    adm,failed=r
    hit=[x for x in failed if x.startswith(tuple(c+'_' for c in m['claim_ids']))]
    rec={'definition':m['file'][:-2]+'.'+m['def'],'edit':m['edit'],'claim':m['claim'],'claim_ids':m['claim_ids'],
         'theorems_failed':failed,'first_proofs_broken':adm[:12],'theorems_tightened':m.get('tightened',[])}
    ok=all(any(x.startswith(c+'_') and not x.endswith('_refuted') for x in failed) for c in m['claim_ids'])
    print('OK' if ok else '*** SURVIVED',m['def'],'|',m['edit'],'->',failed if ok else (failed,adm),flush=True)
    if ok or os.environ.get('LOGALL'):
        if not ok: rec['note']='the theorems of the named claim still hold; see later entry'
        open(LOG,'a').write(json.dumps(rec)+'\n')
