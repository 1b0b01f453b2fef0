#!/usr/bin/env python3
"""mutlog.py OUT.jsonl [TIGHT.json]: append mutation results to seeded/LOG.jsonl.
TIGHT maps a substring of "def | new" to the list of theorems tightened after that attempt."""
import json,sys,os
tight=json.load(open(sys.argv[2])) if len(sys.argv)>2 else {}
log='/verif/seeded/LOG.jsonl'
have=set()
if os.path.exists(log):
    for l in open(log):
        r=json.loads(l); have.add((r['definition'],r['edit'],r.get('attempt',1)))
with open(log,'a') as o:
    for l in open(sys.argv[1]):
        r=json.loads(l)
        if r.get('error'): continue
        if r.get('trouble') and not r.get('failed'): continue
        edit=f"{r['old']}  ==>  {r['new']}"
        d=f"{r['file']}:{r['def']}"
        a=1
        while (d,edit,a) in have: a+=1
        failed=sorted(set(t for t in r.get('failed',[]) if t[0]=='C' and t[1:3].isdigit()))
        t=[]
        for k,v in tight.items():
            if k in r['def']+' | '+r['new']: t+=v
        rec={'definition':d,'edit':edit,'claim':r['claim'],'properties':r.get('props',[]),
             'failed':failed,'survived':not failed,'tightened':t}
        if r.get('scope'): rec['scope']=r['scope']
        if a>1: rec['attempt']=a
        have.add((d,edit,a))
        o.write(json.dumps(rec)+'\n')
