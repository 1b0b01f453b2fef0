#!/usr/bin/env python3
"""Insert or replace properties: reads JSON lines on stdin, merges by id into properties.jsonl."""
import json,sys,os
p=os.path.join(os.path.dirname(__file__),'..','properties.jsonl')
d={}
for l in open(p):
    if l.strip():
        o=json.loads(l); d[o['id']]=o
for l in sys.stdin:
    if l.strip():
        o=json.loads(l); d.setdefault(o['id'],{}).update(o)
with open(p,'w') as f:
    for k in sorted(d): f.write(json.dumps(d[k])+'\n')
