#!/usr/bin/env python3
"""Generates /verif/MANIFEST.json from the theorem names found in *_Properties.v and the STATUS table."""
import json,re,glob,sys
sys.path.insert(0,'/verif/tools')
from gen_properties import P
STATUS={
}
try:
    from status import STATUS
except ImportError: pass
thms={}
for f in sorted(glob.glob('/verif/rocq/theories/*_Properties.v')):
    for m in re.finditer(r'^(?:Theorem|Corollary)\s+((C\d\d)_\w+)',open(f).read(),re.M):
        thms.setdefault(m.group(2),[]).append(m.group(1))
claims=[]
for p in P:
    t=thms.get(p['id'],[])
    st,note=STATUS.get(p['id'],(None,''))
    if t and st:
        claims.append(dict(property=p['id'],status=st,theorems=t,note=note))
    elif st=="not_applicable":
        claims.append(dict(property=p['id'],status=st,theorems=[],note=note))
    else:
        print("missing",p['id'],len(t),st)
json.dump({"claims":claims},open('/verif/MANIFEST.json','w'),indent=1)
print(len(claims),"claims",sum(len(c['theorems']) for c in claims),"theorems")
