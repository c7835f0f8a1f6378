#!/usr/bin/env python3
"""Writes MANIFEST.json: theorems are found by their name prefix Cnn_ in rocq/theories/Props/*.v."""
import json,re,glob,collections
thms=collections.defaultdict(list)
for f in sorted(glob.glob('/verif/rocq/theories/Props/*.v')):
    for m in re.finditer(r'^(?:Theorem|Corollary)\s+((C\d\d)_\w+)',open(f).read(),re.M):
        thms[m.group(2)].append(m.group(1))
notes=json.load(open('/verif/tools/notes.json'))
props=[json.loads(l)['id'] for l in open('/verif/properties.jsonl')]
claims=[]
for p in props:
    if not thms[p]: continue
    n=notes.get(p,{})
    st=n.get('status') or ('partial' if all(t.endswith('_partial') for t in thms[p]) else 'proved')
    claims.append({"property":p,"status":st,"theorems":thms[p],"note":n.get('note','')})
json.dump({"claims":claims},open('/verif/MANIFEST.json','w'),indent=1)
print(len(claims),'claims; missing:',[p for p in props if not thms[p]])
