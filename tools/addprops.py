"""Append/replace properties in properties.jsonl from a python file defining PROPS (list of tuples)."""
import json,sys,runpy
P='/verif/properties.jsonl'
cur={}
for l in open(P):
    if l.strip():
        d=json.loads(l); cur[d['id']]=d
for t in runpy.run_path(sys.argv[1])['PROPS']:
    i,title,st,q,why,anch=t
    cur[i]=dict(id=i,title=title,statement=' '.join(st.split()),quantifier=' '.join(q.split()),why_tests_cant=' '.join(why.split()),anchors=anch)
with open(P,'w') as f:
    for k in sorted(cur,key=lambda k:int(k[1:])): f.write(json.dumps(cur[k],ensure_ascii=False)+'\n')
print(len(cur))
