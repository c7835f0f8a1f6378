#!/usr/bin/env python3
"""Transcribes the constant tables of /repo into rocq/theories/Model/Tables.v."""
import re
bt=open('/repo/include/poplar/bit_tools.hpp').read()
bh=open('/repo/include/poplar/bijective_hash.hpp').read()
def nums(src,name):
    m=re.search(re.escape(name)+r'[^=]*=\s*\{(.*?)\};',src,re.S)
    body=re.sub(r'//[^\n]*','',m.group(1))
    return [int(x,0) for x in re.findall(r'0x[0-9a-fA-F]+|\d+(?=ULL|\b)',body.replace('ULL',''))]
def lines(src,name):
    m=re.search(re.escape(name)+r'[^=]*=\s*\{(.*?)\};',src,re.S)
    return src[:m.start()].count('\n')+1, src[:m.end()].count('\n')+1
def coq(name,l,doc,per=16):
    out='(** %s *)\nDefinition %s : list N :=\n  ['%(doc,name)
    rows=['; '.join(str(x) for x in l[i:i+per]) for i in range(0,len(l),per)]
    return out+';\n   '.join(rows)+'].\n\n'
o='(** GENERATED by tools/gen_tables.py from /repo: the constant tables of the library. *)\nFrom Coq Require Import NArith List.\nImport ListNotations.\nLocal Open Scope N_scope.\n\n'
for n,cnt in [('POPCNT_TABLE',256),('PS_OVERFLOW',65),('LT_SEL',2048),('MSB_TABLE',256)]:
    l=nums(bt,n+'['); a,b=lines(bt,n+'[')
    assert len(l)==cnt,(n,len(l))
    o+=coq(n,l,'bit_tools.hpp:%d-%d [%s]'%(a,b,n), 4 if n=='PS_OVERFLOW' else 32)
m=re.search(r'PRIME_TABLE\[\]\[2\]\[3\] = \{(.*?)\n\};',bh,re.S)
a=bh[:m.start()].count('\n')+1; b=bh[:m.end()].count('\n')+1
rows=re.findall(r'\{\{(.*?)\}, \{(.*?)\}\}',m.group(1))
rows=[tuple([int(x) for x in p.replace('ULL','').split(',')] for p in r) for r in rows]
assert len(rows)==64
o+='(** bijective_hash.hpp:%d-%d [PRIME_TABLE]: row [bits] = (three primes, their inverses). *)\nDefinition PRIME_TABLE : list ((N * N * N) * (N * N * N)) :=\n  ['%(a,b)
o+=';\n   '.join('((%d, %d, %d), (%d, %d, %d))'%tuple(r[0]+r[1]) for r in rows)+'].\n'
open('/verif/rocq/theories/Model/Tables.v','w').write(o)
