#!/usr/bin/env python3
"""Seeded-bug runner.  usage: seed.py MUTATIONS.py   (file defines muts = [(file, definition, old, new, claim), ...])
Builds each mutant in a scratch copy (/tmp/seed/work) of the built base (/tmp/seed/base) and prints which proofs fail.
Appends a JSON line per mutant to seeded/LOG.jsonl unless -n is given."""
import sys,subprocess,shutil,os,re,json
dry='-n' in sys.argv
src=[a for a in sys.argv[1:] if a!='-n'][0]
ns={}; exec(open(src).read(),ns)
base='/tmp/seed/base'; work='/tmp/seed/work'
log='/verif/seeded/LOG.jsonl'
def enclosing(f,line):
    name=None
    for i,l in enumerate(open(f)):
        if i+1>line: break
        m=re.match(r'\s*(?:Theorem|Lemma|Example|Fixpoint|Definition|Corollary)\s+(\w+)',l)
        if m: name=m.group(1)
    return name
for mu in ns['muts']:
    f,d,old,new,claim=mu[:5]
    tight=mu[5] if len(mu)>5 else []
    subprocess.run(['rsync','-a','--delete',base+'/',work+'/'],check=True) if shutil.which('rsync') else (shutil.rmtree(work,ignore_errors=True),subprocess.run(['cp','-a',base,work]))
    p=f'{work}/theories/{f}'
    s=open(p).read()
    if s.count(old)!=1:
        print('BAD PATTERN',f,d,s.count(old)); continue
    open(p,'w').write(s.replace(old,new))
    try:
        r=subprocess.run('make -k -j2',shell=True,cwd=work,capture_output=True,text=True,timeout=900)
        out=r.stdout+r.stderr
    except subprocess.TimeoutExpired as e:
        subprocess.run('pkill coqc',shell=True)
        out='TIMEOUT'; 
    fails=[]
    for m in re.finditer(r'File "\./theories/(\w+\.v)", line (\d+)',out):
        n=enclosing(f'{work}/theories/{m.group(1)}',int(m.group(2)))
        # only errors, not warnings
        if f'{m.group(1)}:{n}' not in fails: fails.append(f'{m.group(1)[:-2]}.{n}')
    errs=re.findall(r'theories/(\w+)\.vo\] Error',out)
    fails=[x for x in fails if x.split('.')[0] in errs]
    print(('KILLED ' if fails else 'SURVIVED '), f, d, '|', claim, '|', fails, flush=True)
    if not dry:
        with open(log,'a') as h:
            h.write(json.dumps({"definition":f'{f}: {d}',"edit":f'{old.strip()}  ==>  {new.strip()}',"claim":claim,"failed":fails,"survived":not fails,"tightened":tight})+'\n')
