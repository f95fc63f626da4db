#!/usr/bin/env python3
"""Regenerate MANIFEST.json from the theorem names in rocq/theories/*Props.v.
A theorem named Cnn_... belongs to property Cnn.  A property is "partial" when one of its
theorems ends in _partial or _refuted."""
import re,glob,json,os
root=os.path.dirname(os.path.dirname(os.path.abspath(__file__)))
props=[json.loads(l) for l in open(root+'/properties.jsonl')]
notes=json.load(open(root+'/tools/notes.json'))
th={}
for f in sorted(glob.glob(root+'/rocq/theories/*.v')):
    for m in re.finditer(r'^(?:Theorem|Corollary)\s+((C\d+)_\w+)',open(f).read(),re.M):
        th.setdefault(m[2],[]).append(m[1])
claims=[]
for p in props:
    t=th.get(p['id'],[])
    if not t:
        print('no theorem yet for',p['id']); continue
    part=any(x.endswith('_partial') or x.endswith('_refuted') for x in t)
    claims.append(dict(property=p['id'],status='partial' if part else 'proved',theorems=t,note=notes.get(p['id'],'')))
json.dump(dict(claims=claims),open(root+'/MANIFEST.json','w'),indent=1)
print(len(claims),'claims',sum(len(c['theorems']) for c in claims),'theorems')
