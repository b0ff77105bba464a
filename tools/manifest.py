#!/usr/bin/env python3
"""Regenerate MANIFEST.json from tools/claims.py and check that each named theorem exists."""
import json,re,glob,os,sys
here=os.path.dirname(os.path.abspath(__file__))
ns={}
exec(open(here+'/claims.py').read(),ns)
names=set()
for f in glob.glob(here+'/../rocq/theories/*.v'):
    for m in re.finditer(r'^\s*(?:Theorem|Lemma|Corollary|Proposition|Fact|Remark)\s+([\w\']+)',open(f).read(),re.M):
        names.add(m.group(1))
props=[json.loads(l)['id'] for l in open(here+'/../properties.jsonl')]
claims=[]
for pid,status,ths,note in ns['CLAIMS']:
    for t in ths:
        if t not in names: sys.exit('missing theorem '+t)
    if pid not in props: sys.exit('missing property '+pid)
    claims.append({"property":pid,"status":status,"theorems":ths,"note":note})
claims.sort(key=lambda c:c['property'])
json.dump({"claims":claims},open(here+'/../MANIFEST.json','w'),indent=1)
print(len(claims),'claims; uncovered:',[p for p in props if p not in {c['property'] for c in claims}])
