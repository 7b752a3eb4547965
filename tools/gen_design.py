"""Writes the property table and the assumption list of DESIGN.md from properties.jsonl, MANIFEST.json and the theories.
   tools/assumptions.txt is the output of Print Assumptions for every theorem (tools/print_assumptions.sh)."""
import json,re,glob,os
P=[json.loads(l) for l in open('/verif/properties.jsonl') if l.strip()]
M={c['property']:c for c in json.load(open('/verif/MANIFEST.json'))['claims']}
order=[l.strip()[9:-2] for l in open('/verif/rocq/_CoqProject') if l.startswith('theories/')]
loc={}; deps={}
for b in order:
    t=open(f'/verif/rocq/theories/{b}.v').read()
    for m in re.finditer(r'^\s*(?:Theorem|Lemma|Corollary|Example|Remark|Fact|Proposition)\s+(\w+)',t,re.M):
        loc.setdefault(m.group(1),[]).append(b)
    r=re.findall(r'From Verif Require (?:Import|Export)?\s*(.*?)\.\s*(?:\n|$)',t,re.S)
    deps[b]=[x for g in r for x in g.split() if x in order]
def files(c):
    fs=[]
    for t in c['theorems']:
        for b in loc.get(t,[]):
            if b not in fs: fs.append(b)
    return fs
def models(fs):
    ms=set()
    for f in fs:
        for d in [f]+deps[f]:
            if d.endswith('Model') or d.endswith('Table'): ms.add(d)
    return sorted(ms)
def method(t):
    return t
prose=open('/verif/tools/design_prose.md').read()
rows=[]
for p in P:
    c=M[p['id']]; fs=files(c)
    st={'proved':'proved','partial':'partial','not_applicable':'n/a'}[c['status']]
    rows.append(f"| {p['id']} | {p['title']} | {st} | {', '.join('`'+t+'`' for t in c['theorems'])} | {', '.join(fs)} | {c['note'].replace('|','/')} |")
table="| id | property | status | theorems | proved in | remarks |\n|---|---|---|---|---|---|\n"+"\n".join(rows)
A=open('/verif/tools/assumptions.txt').read() if os.path.exists('/verif/tools/assumptions.txt') else ''
open('/verif/DESIGN.md','w').write(prose.replace('@@TABLE@@',table).replace('@@ASSUMPTIONS@@',A))
