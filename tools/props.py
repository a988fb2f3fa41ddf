#!/usr/bin/env python3
# props.py OUT.v < spec ; spec lines: "# header text" / "req: A B C" / "src: File.v" / "NewName = lemma  | comment"
import sys,re,os
T='/verif/rocq/theories/'
out=sys.argv[1]; src=None; res=[]; reqs=''; head=''; extra=''
allsrc={}
for line in sys.stdin:
    line=line.rstrip('\n')
    if not line.strip(): continue
    if line.startswith('#'): head+=line[1:].strip()+'\n   '; continue
    if line.startswith('req:'): reqs=line[4:].strip(); continue
    if line.startswith('pre:'): extra+=line[4:].strip()+'\n'; continue
    if line.startswith('src:'): src=[open(T+x).read() for x in line[4:].split()]; continue
    m=re.match(r'(\w+)\s*=\s*([\w\']+)\s*(?:\|\s*(.*))?$',line)
    if not m: raise SystemExit('bad '+line)
    new,old,com=m.groups()
    st=None
    for s in src:
        mm=re.search(r'^(?:Theorem|Lemma|Corollary)\s+'+re.escape(old)+r'\b\s*([\s\S]*?)\.\s*\n?\s*Proof',s,re.M)
        if mm: st=mm.group(1); break
    if st is None: raise SystemExit('no '+old)
    st=st.strip()
    if com: res.append('(* %s *)'%com)
    res.append('Theorem %s %s.\nProof. exact %s. Qed.\nPrint Assumptions %s.\n'%(new,st,'@'+old,new))
t='(* %s*)\n'%(head.strip()+' ')
t+='From Coq Require Import List Arith NArith ZArith Bool Permutation Sorted.\nFrom Verif Require Import %s.\nImport ListNotations.\n%sLocal Open Scope nat_scope.\n\n'%(reqs,extra)
open(T+out,'w').write(t+'\n'.join(res))
