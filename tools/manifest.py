#!/usr/bin/env python3
"""Regenerates MANIFEST.json from the table below; checks that every theorem exists."""
import json, re, glob
names=set()
for f in glob.glob('/verif/rocq/theories/*.v'):
    names |= set(re.findall(r'^(?:Theorem|Lemma|Corollary|Example) (\w+)', open(f).read(), re.M))
T={}
for n in sorted(names):
    m=re.match(r'(C\d\d)_',n)
    if m: T.setdefault(m.group(1),[]).append(n)
exec(open('/verif/tools/notes.py').read())   # NOTES: id -> (status, note)
out=[]
for l in open('/verif/properties.jsonl'):
    i=json.loads(l)['id']
    st,note=NOTES.get(i,(None,''))
    th=T.get(i,[])
    if st is None: st='proved' if th else 'partial'
    out.append({'property':i,'status':st,'theorems':th,'note':note})
json.dump({'claims':out},open('/verif/MANIFEST.json','w'),indent=1)
for o in out: print(o['property'],o['status'],len(o['theorems']))
