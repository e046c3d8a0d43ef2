#!/usr/bin/env python3
"""Mutation testing in a scratch copy.  usage: mutate.py mutants.json [name ...]
Each mutant: {"id", "file", "old", "new", "def", "edit", "claim"}.  The edited model is rebuilt; a lemma whose proof fails is
replaced by Admitted (in the scratch copy only) and the build goes on, so that at the end Print Assumptions shows which
property theorems rest on a lemma that is no longer provable.  A line is appended to seeded/LOG.jsonl."""
import json, re, subprocess, sys, os, shutil, time, glob
SRC=os.environ.get('MUTSRC','/verif/rocq'); DST=os.environ.get('MUTDIR','/tmp/mut/rocq')
def sh(c,t=900):
    try: p=subprocess.run(c,shell=True,capture_output=True,text=True,timeout=t); return p.returncode,p.stdout+p.stderr
    except subprocess.TimeoutExpired: return 124,'TIMEOUT'
def sync():
    os.makedirs(DST,exist_ok=True)
    sh(f'rm -rf {DST} && cp -a {SRC} {DST}')
HEAD=re.compile(r'^\s*(Lemma|Theorem|Example|Corollary|Fact|Remark|Instance|Definition|Fixpoint|Program)\s+([\w\']+)',re.M)
def admit(path,line):
    s=open(path).read(); lines=s.split('\n'); pos=sum(len(x)+1 for x in lines[:line-1])
    # end of the error line: last head starting at or before it
    eol=pos+len(lines[line-1])
    hs=[m for m in HEAD.finditer(s) if m.start()<=eol and m.group(1) in('Lemma','Theorem','Example','Corollary','Fact','Remark')]
    # several heads can share no line; choose last
    if not hs: return None
    m=hs[-1]
    pm=re.compile(r'\bProof\b\.?').search(s,m.end())
    q=re.compile(r'\b(Qed|Defined)\.').search(s,m.end())
    if not pm or not q or q.start()<pm.start() or q.end()<pos: return None
    s=s[:pm.start()]+'Proof. Admitted.'+s[q.end():]
    open(path,'w').write(s); return m.group(2)
def theorems():
    r=[]
    for f in sorted(glob.glob(DST+'/theories/Prop_*.v')):
        for m in re.finditer(r'^(?:Theorem|Lemma|Example)\s+(C\d\d_\w+)',open(f).read(),re.M):
            if 'witness' not in m.group(1): r.append((os.path.basename(f)[:-2],m.group(1)))
    return r
def run(mu,maxadm=25):
    sync(); p=f'{DST}/theories/{mu["file"]}'; s=open(p).read()
    if s.count(mu['old'])!=1: print('BAD',mu['id'],s.count(mu['old'])); return None
    open(p,'w').write(s.replace(mu['old'],mu['new']))
    failed=[]; note=''; t0=time.time()
    while True:
        rc,out=sh(f'cd {DST} && make -j2 2>&1',1500)
        if rc==0: break
        m=re.search(r'File "\./theories/(\w+\.v)", line (\d+)',out)
        if not m: note='build stopped: '+out[-300:]; break
        f,l=m.group(1),int(m.group(2)); n=admit(f'{DST}/theories/{f}',l)
        if n is None: note=f'build stopped at {f}:{l}'; failed.append(f'{f}:{l}'); break
        failed.append(n)
        if len(failed)>=maxadm or time.time()-t0>1500: note='stopped after %d failures'%len(failed); break
    props=[]
    if failed and not note:
        ths=theorems(); mods=sorted(set(a for a,_ in ths))
        open('/tmp/mut/Chk.v','w').write('From Verif Require '+' '.join(mods)+'.\n'+''.join(f'Goal True. idtac "@@ {b}". Abort.\nPrint Assumptions {a}.{b}.\n' for a,b in ths))
        rc,out=sh(f'cd {DST} && coqc -Q theories Verif /tmp/mut/Chk.v')
        for blk in out.split('@@ ')[1:]:
            if any(re.search(r'\b'+re.escape(x)+r'\b',blk.split('\n',1)[1] if '\n' in blk else '') for x in failed): props.append(blk.split()[0])
        failed_c=[x for x in failed if re.match(r'C\d\d_',x) and 'witness' not in x]
        props=sorted(set(props)|set(failed_c))
    elif failed:
        props=sorted(set(x for x in failed if re.match(r'C\d\d_',x)))
    rec={"id":mu['id'],"definition":mu['file']+':'+mu['def'],"edit":mu['edit'],"breaks":mu['claim'],"lemmas_failed":failed,"theorems_failed":props,"theorems_tightened":mu.get('tight',[]),"killed":bool(failed),"note":note}
    print(mu['id'],'KILLED' if failed else 'SURVIVED',failed[:4],props[:8],note[:100],int(time.time()-t0),flush=True)
    return rec
if __name__=='__main__':
    mus=json.load(open(sys.argv[1])); sel=sys.argv[2:]
    for mu in mus:
        if sel and mu['id'] not in sel: continue
        r=run(mu)
        if r: open('/verif/seeded/LOG.jsonl','a').write(json.dumps(r)+'\n')
