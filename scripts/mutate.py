#!/usr/bin/env python3
"""Mutation testing of the model.  Usage: mutate.py MUTATIONS.jsonl OUT.jsonl [jobs]
With MUT_FAST set, only the files of the named properties are rebuilt if their theorems reject the mutant.
Each line: {"file","def","old","new","claim","props":[...]}.  Works in scratch copies under /tmp/mut only.
A file that fails is repaired by admitting the failing proof (scratch copy only) so that all failures are
listed; a theorem counts as failed if its proof fails or it rests on a lemma admitted that way."""
import json,sys,os,re,subprocess,shutil
from concurrent.futures import ThreadPoolExecutor
SRC=f'/tmp/mut/snap_{os.getpid()}'   # snapshot, so that /verif may change meanwhile
os.makedirs('/tmp/mut',exist_ok=True); shutil.copytree('/verif/rocq/theories',SRC)
for f in os.listdir(SRC):              # mark the answers of Print Assumptions (scratch copy only)
    if f.startswith('Properties_') and f.endswith('.v'):
        t=open(f'{SRC}/{f}').read()
        open(f'{SRC}/{f}','w').write(re.sub(r'^Print Assumptions (\w+)\s*\.',r'Goal True. idtac "BLOCK \1". Abort. Print Assumptions \1.',t,flags=re.M))
files=[l.strip()[9:] for l in open('/verif/rocq/_CoqProject') if l.startswith('theories/')]
dep={}
for f in files:
    t=open(f'{SRC}/{f}').read()
    m=set()
    for blk in re.findall(r'From Verif Require (?:Import |Export )?\s*([^.]*)\.',t,re.S): m|=set(blk.split())
    dep[f[:-2]]=m
order=[]
def visit(b):
    if b in order: return
    for x in sorted(dep.get(b,())): visit(x)
    order.append(b)
for f in files: visit(f[:-2])
files=[b+'.v' for b in order]
def dependents(base):
    aff={base}
    out=[base]
    for f in files:
        b=f[:-2]
        if b not in aff and dep[b]&aff: aff.add(b); out.append(b)
    return out
DECL=re.compile(r'^\s*(?:Local\s+)?(Theorem|Lemma|Example|Corollary|Fact|Remark)\s+(\w+)',re.M)
def run(b,d,to):
    # the limit is on processor time, so that a paused run does not count
    p=subprocess.run(['bash','-c',f'ulimit -t {to}; exec coqc -Q . Verif {b}.v'],cwd=d,capture_output=True,text=True)
    if p.returncode in (-24,-9,137,152): return 124,'',''
    return p.returncode,p.stdout,p.stderr
def one(a):
    k,m=a
    d=f'/tmp/mut/m{k%64}_{os.getpid()}'
    shutil.rmtree(d,ignore_errors=True); shutil.copytree(SRC,d)
    p=f'{d}/{m["file"]}'; t=open(p).read()
    n=t.count(m['old'])
    if n==1: t=t.replace(m['old'],m['new'])
    else:                                  # look only inside the definition named
        q=re.search(r'^(?:Definition|Fixpoint|Inductive|Record)\s+'+re.escape(m['def'])+r'\b',t,re.M)
        if not q: return dict(m,error=f'old text occurs {n} times')
        e=re.search(r'^(?:Definition|Fixpoint|Inductive|Record|Lemma|Section|End|Context|\(\*\*)',t[q.end():],re.M)
        e=q.end()+e.start() if e else len(t)
        if t[q.start():e].count(m['old'])!=1: return dict(m,error=f'old text occurs {n} times')
        t=t[:q.start()]+t[q.start():e].replace(m['old'],m['new'])+t[e:]
    open(p,'w').write(t)
    failed=[];admitted=set();rest=[]
    todo=dependents(m['file'][:-2]); first=todo
    if os.environ.get('MUT_FAST'):         # the files of the property first; stop there if it rejects the mutant
        tgt=[f[:-2] for f in files if f.startswith('Properties_') and any(re.search(r'^\s*(?:Theorem|Corollary) '+q+'_',open(f'{SRC}/{f}').read(),re.M) for q in m['props'])]
        anc=set()
        def up(z):
            if z in anc: return
            anc.add(z)
            for y in dep.get(z,()): up(y)
        for z in tgt: up(z)
        first=[b for b in todo if b in anc]; todo=first+[b for b in todo if b not in anc]
    for k2,b in enumerate(todo):
        if k2==len(first) and len(first)<len(todo) and any(x[:3] in m['props'] for x in failed): rest.append('stopped'); break
        for it in range(120):
            rc,so,se=run(b,d,400)
            if rc==0: break
            f=f'{d}/{b}.v'; t=open(f).read(); lines=t.split('\n')
            mm=re.search(r'[\s\S]*File "[^"]*", line (\d+)',se)   # the last one: warnings come first
            if rc==124 or not mm:
                # time out: find the last sentence started
                try: q=subprocess.run(['timeout','60','coqc','-time','-Q','.','Verif',b+'.v'],cwd=d,capture_output=True,text=True)
                except Exception: q=None
                pos=[int(x) for x in re.findall(r'^Chars \d+ - (\d+)',q.stdout,re.M)] if q else [0]
                L=t.encode()[:max(pos or [0])+2].decode(errors='ignore').count('\n')+1
            else: L=int(mm.group(1))
            off=sum(len(x)+1 for x in lines[:L])
            ds=[x for x in DECL.finditer(t) if x.start()<off]
            if not ds: rest.append(f'{b}:{L}:{se[-200:]}'); break
            x=ds[-1]; e=re.compile(r'^\s*(.*\s)?(Qed|Defined|Abort|Admitted)\.',re.M).search(t,x.start())
            if not e: rest.append(f'{b}:{L}:noend'); break
            if 'Admitted.' in t[x.start():e.end()]:
                # already admitted: the statement itself fails; drop it
                t=t[:x.start()]+'\n'*t[x.start():e.end()].count('\n')+t[e.end():]
                t=re.sub(r'Print Assumptions '+x.group(2)+r'\s*\.','',t); failed.append(x.group(2)); open(f,'w').write(t); continue
            pr=re.compile(r'\bProof\b').search(t,x.start(),e.end())
            if not pr: rest.append(f'{b}:{L}:noproof {x.group(2)}'); break
            body=t[pr.start():e.end()]
            t=t[:pr.start()]+'Proof. Admitted.'+'\n'*body.count('\n')+t[e.end():]
            open(f,'w').write(t); admitted.add(x.group(2)); failed.append(x.group(2))
        else: rest.append(b+': too many failures')
        # theorems resting on admitted lemmas
        if b.startswith('Properties_') and rc==0:
            names=re.findall(r'Print Assumptions (\w+)',open(f'{d}/{b}.v').read())
            blocks=re.split(r'(?m)^BLOCK (\w+)$',so)[1:]
            blocks=list(zip(blocks[::2],blocks[1::2]))
            if len(blocks)==len(names):
                for nm,bl in blocks:
                    if nm not in failed and any(re.search(r'^(?:\w+\.)*'+re.escape(z)+r'\b',bl,re.M) for z in admitted): failed.append(nm)
            else: rest.append(f'{b}: {len(blocks)} blocks {len(names)} names')
    shutil.rmtree(d,ignore_errors=True)
    if 'stopped' in rest: rest.remove('stopped'); m=dict(m,scope='only the files of '+', '.join(m['props'])+' were checked')
    th=sorted({x for x in failed if re.match(r'C\d\d_',x)})
    return dict(m,failed=th,lemmas=sorted({x for x in failed if not re.match(r'C\d\d_',x)}),trouble=rest)
if __name__=='__main__':
    ms=[json.loads(l) for l in open(sys.argv[1]) if l.strip()]
    with ThreadPoolExecutor(int(sys.argv[3]) if len(sys.argv)>3 else 4) as ex, open(sys.argv[2],'a') as out:
        for r in ex.map(one,list(enumerate(ms))):
            hit=[x for x in r.get('failed',[]) if x[:3] in r.get('props',[])]
            print(('ERR  ' if 'error' in r else 'ok   ' if hit else 'SURV '),r['file'],r['def'],'|',r['old'][:50],'->',r['new'][:50],'|',r.get('error') or ','.join(r['failed'])[:200],r.get('trouble') or '',flush=True)
            out.write(json.dumps(r)+'\n'); out.flush()
