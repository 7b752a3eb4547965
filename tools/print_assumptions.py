"""Print Assumptions for every theorem of MANIFEST.json, against a built /verif/rocq; writes tools/assumptions.txt."""
import json,re,os,subprocess
order=[l.strip()[9:-2] for l in open('/verif/rocq/_CoqProject') if l.startswith('theories/')]
loc={}
for b in order:
    for m in re.finditer(r'^\s*(?:Theorem|Lemma|Corollary|Example|Remark|Fact|Proposition)\s+(\w+)',open(f'/verif/rocq/theories/{b}.v').read(),re.M):
        loc.setdefault(m.group(1),[]).append(b)
ths=[]
for c in json.load(open('/verif/MANIFEST.json'))['claims']:
    for t in c['theorems']:
        for b in loc[t]:
            if (b,t) not in ths: ths.append((b,t))
groups={}
byfile={}
for b,t in ths: byfile.setdefault(b,[]).append(t)
closed=0; other={}
for b,l in byfile.items():
    src=f"From Verif Require {b}.\n"+"".join(f'Goal True. idtac "@@{b}.{t}". exact I. Qed.\nPrint Assumptions {b}.{t}.\n' for t in l)
    open('/tmp/pa/pa.v','w').write(src)
    out=subprocess.run(['coqc','-Q','/verif/rocq/theories','Verif','/tmp/pa/pa.v'],capture_output=True,text=True)
    if out.returncode: print(b,out.stderr[:500])
    parts=re.split(r'@@(\S+)\n',out.stdout)[1:]
    for n,a in zip(parts[::2],parts[1::2]):
        a=a.strip()
        if a=='Closed under the global context': closed+=1
        else: other[n]=a
s=f"`Print Assumptions` answers \"Closed under the global context\" for {closed} of the {len(ths)} theorems of MANIFEST.json.\n"
if other:
    s+="The others:\n\n"+"".join(f"* `{n}`: {' '.join(a.split())}\n" for n,a in other.items())
else: s+="No theorem depends on any axiom, also none of the standard library's.\n"
open('/verif/tools/assumptions.txt','w').write(s); print(s[:2000])
