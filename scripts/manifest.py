#!/usr/bin/env python3
"""Regenerates MANIFEST.json from the theorem names in rocq/theories/Properties_*.v and
scripts/notes.json (id -> {status, note})."""
import json,re,glob
notes=json.load(open('/verif/scripts/notes.json'))
props=[json.loads(l)['id'] for l in open('/verif/properties.jsonl')]
th={}
for f in sorted(glob.glob('/verif/rocq/theories/Properties_*.v')):
    for n in re.findall(r'^Theorem\s+(C\d+)(_\w+)',open(f).read(),re.M):
        th.setdefault(n[0],[]).append(n[0]+n[1])
claims=[]
for p in props:
    t=th.get(p,[])
    n=notes.get(p,{})
    st=n.get('status')
    if st is None: st='proved' if t else 'partial'
    if any(x.endswith('_refuted') or x.endswith('_partial') for x in t) and 'status' not in n: st='partial'
    claims.append(dict(property=p,status=st,theorems=t,note=n.get('note','' if t else 'not yet modelled')))
json.dump({'claims':claims},open('/verif/MANIFEST.json','w'),indent=1)
print(len(claims),sum(1 for c in claims if c['theorems']))
