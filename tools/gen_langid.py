#!/usr/bin/env python3
"""Generates rocq/theories/LangidTable.v from the text of /repo/include/stdex/langid.hpp."""
import re
s=open('/repo/include/stdex/langid.hpp',encoding='utf-8-sig').read()
lines=s.split('\n')
i=next(k for k,l in enumerate(lines) if 'rfc1766_from_langid(' in l)
f=[(k+1,m[1],int(m[2],0)) for k,l in enumerate(lines[:i]) for m in re.finditer(r'\{"([^"]+)",\s*(0x[0-9a-fA-F]+)\}',l)]
g=[(k+1,int(m[1],0),m[2]) for k,l in enumerate(lines) if k>i for m in re.finditer(r'\{(0x[0-9a-fA-F]+),\s*"([^"]+)"\}',l)]
assert len(f)==435 and len(g)==435
assert f[-1][0]-f[0][0]==434 and g[-1][0]-g[0][0]==434
z=lambda n:'['+'; '.join(str(ord(c)) for c in n)+']'
o=['(** The tables of include/stdex/langid.hpp, generated by tools/gen_langid.py: names (97-%d) and codes (%d-%d). *)'%(f[-1][0],g[0][0],g[-1][0]),'From Verif Require Import Base.','']
o[0]=o[0].replace('(97-','(%d-'%f[0][0])
o.append('(** langid.hpp:%d-%d *)'%(f[0][0],f[-1][0]))
o.append('Definition lang_names : list (list Z * Z) := [')
o.append(';\n'.join('  (%s, %d)'%(z(n),v) for _,n,v in f)+'].')
o.append('(** langid.hpp:%d-%d *)'%(g[0][0],g[-1][0]))
o.append('Definition lang_codes : list (Z * list Z) := [')
o.append(';\n'.join('  (%d, %s)'%(v,z(n)) for _,v,n in g)+'].')
open('/verif/rocq/theories/LangidTable.v','w').write('\n'.join(o)+'\n')
