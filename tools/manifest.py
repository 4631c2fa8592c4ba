#!/usr/bin/env python3
"""Regenerates MANIFEST.json: theorem names are collected from the sources by their CNN_ prefix."""
import re,glob,json,os
root=os.path.dirname(os.path.dirname(os.path.abspath(__file__)))
names={}
for f in sorted(glob.glob(root+'/rocq/theories/Props/*.v')):
    for m in re.finditer(r'^\s*(?:Theorem|Corollary)\s+((C\d\d)_\w+)',open(f).read(),re.M):
        names.setdefault(m.group(2),[]).append(m.group(1))
notes=json.load(open(root+'/tools/notes.json'))
props=[json.loads(l) for l in open(root+'/properties.jsonl') if l.strip()]
claims=[]
for p in props:
    i=p['id']; th=names.get(i,[]); n=notes.get(i,{})
    st=n.get('status') or ('proved' if th else 'partial')
    if th and all(t.endswith('_partial') for t in th): st='partial'
    if not th and st!='not_applicable': 
        print('no theorem yet for',i); continue
    claims.append({"property":i,"status":st,"theorems":th,"note":n.get('note','')})
json.dump({"claims":claims},open(root+'/MANIFEST.json','w'),indent=1)
open(root+'/MANIFEST.json','a').write('\n')
print(len(claims),'claims',sum(len(c['theorems']) for c in claims),'theorems')
