#!/usr/bin/env python3
"""Regenerate MANIFEST.json from the theorem names in rocq/theories/P*.v.
A property with a _refuted or _partial theorem is 'partial'; notes come from tools/notes.json."""
import re,glob,json,os
root=os.path.dirname(os.path.dirname(os.path.abspath(__file__)))
notes=json.load(open(root+'/tools/notes.json'))
th={}
files=[l.strip() for l in open(root+'/rocq/_CoqProject') if l.strip().endswith('.v')]
for f in files:
    s=open(root+'/rocq/'+f).read()
    for m in re.finditer(r'^Theorem ((C\d+)_\w*)',s,re.M):
        th.setdefault(m.group(2),[]).append(m.group(1))
claims=[]
for l in open(root+'/properties.jsonl'):
    p=json.loads(l)['id']
    ts=th.get(p,[])
    if not ts:
        st='not_applicable' if p in notes.get('_na',[]) else None
        if st is None: continue
    else:
        st='partial' if any(t.endswith('_refuted') or t.endswith('_partial') for t in ts) else 'proved'
    claims.append(dict(property=p,status=st,theorems=ts,note=notes.get(p,'')))
json.dump(dict(claims=claims),open(root+'/MANIFEST.json','w'),indent=1)
print(len(claims),'claims',sum(len(c['theorems']) for c in claims),'theorems')
for c in claims:
    if c['status']=='partial' and not c['note']: print('note missing',c['property'])
