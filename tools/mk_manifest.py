#!/usr/bin/env python3
"""Regenerates /verif/MANIFEST.json from the table below."""
import json,os,re
here=os.path.dirname(os.path.abspath(__file__))
T={}
def c(p,status,ths,note): T[p]=dict(property=p,status=status,theorems=ths.split(),note=note)
exec(open(os.path.join(here,'claims.py')).read())
src=''
d=os.path.join(here,'..','rocq','theories')
for f in os.listdir(d):
    if f.endswith('.v'): src+=open(os.path.join(d,f)).read()
for p in T.values():
    for t in p['theorems']:
        if not re.search(r'(Theorem|Lemma|Corollary)\s+%s\b'%re.escape(t),src): print('MISSING',p['property'],t)
props=[json.loads(l)['id'] for l in open(os.path.join(here,'..','properties.jsonl'))]
for q in props:
    if q not in T: print('NO CLAIM',q)
json.dump({"claims":[T[k] for k in sorted(T)]},open(os.path.join(here,'..','MANIFEST.json'),'w'),indent=1)
