"""Helpers to edit properties.jsonl and notes.json (imported by one-off scripts)."""
import json,os
root=os.path.dirname(os.path.dirname(os.path.abspath(__file__)))
def load(): return [json.loads(l) for l in open(root+'/properties.jsonl')]
def save(P):
    P.sort(key=lambda d:int(d['id'][1:]))
    with open(root+'/properties.jsonl','w') as f:
        for x in P: f.write(json.dumps(x)+"\n")
def p(id,title=None,statement=None,quantifier=None,why=None,anchors=None):
    P=load(); d=next((x for x in P if x['id']==id),None)
    if d is None:
        d=dict(id=id); P.append(d)
    for k,v in (('title',title),('statement',statement),('quantifier',quantifier),('why_tests_cant',why),('anchors',anchors)):
        if v is not None: d[k]=v
    assert all(k in d for k in ('title','statement','quantifier','why_tests_cant','anchors')),d
    save(P)
def note(id,text):
    f=root+'/tools/notes.json'; n=json.load(open(f)); n[id]=text
    json.dump(dict(sorted(n.items())),open(f,'w'),indent=1)
