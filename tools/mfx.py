# mfx.py : read lines "ID STATUS | note" and collect theorem names with prefix ID_ from all Props files
import sys,re,glob,subprocess
names=[]
for f in sorted(glob.glob('/verif/rocq/theories/*Props.v')):
    names+=re.findall(r'^Theorem (C\d+_\w+)',open(f).read(),re.M)
for line in sys.stdin:
    if not line.strip(): continue
    a,note=line.split('|',1); i,st=a.split()
    th=[n for n in names if n.startswith(i+'_')]
    if not th: print('NO THEOREMS',i)
    subprocess.check_call(['python3','/verif/tools/mf.py',i,st,' '.join(th),note.strip()])
