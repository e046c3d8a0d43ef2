#!/usr/bin/env python3
"""Print Assumptions for every theorem of MANIFEST.json (needs a built rocq/)."""
import json,subprocess,os,re,collections
root=os.path.dirname(os.path.dirname(os.path.abspath(__file__)))
m=json.load(open(root+'/MANIFEST.json'))
names=[t for c in m['claims'] for t in c['theorems']]
mods=collections.OrderedDict()
for f in sorted(os.listdir(root+'/rocq/theories')):
    if f.startswith('Prop_') and f.endswith('.v'):
        for l in open(root+'/rocq/theories/'+f):
            g=re.match(r'\s*(Theorem|Lemma)\s+(\w+)',l)
            if g and g.group(2) in names: mods[g.group(2)]=f[:-2]
src=''.join('From Verif Require %s.\n'%x for x in sorted(set(mods.values())))
for n in names: src+='Goal True. idtac "@@ %s". Abort.\nPrint Assumptions Verif.%s.%s.\n'%(n,mods[n],n)
open('/tmp/assum.v','w').write(src)
r=subprocess.run(['coqc','-Q',root+'/rocq/theories','Verif','/tmp/assum.v'],capture_output=True,text=True)
out=r.stdout+r.stderr
cur=None; res=collections.OrderedDict()
for l in out.splitlines():
    if l.startswith('@@ '): cur=l[3:]; res[cur]=[]
    elif cur: res[cur].append(l)
bad={k:v for k,v in res.items() if v!=['Closed under the global context']}
print(len(res),'theorems;',len(res)-len(bad),'closed under the global context'); 
for k,v in bad.items(): print(k,v)
if r.returncode: print(out[-500:])
