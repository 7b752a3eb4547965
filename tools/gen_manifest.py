import json
# property -> (status, theorems, note)
M={}
def m(pid,status,thms,note=""):
    M[pid]=dict(property=pid,status=status,theorems=thms,note=note)
exec(open('/verif/tools/manifest_data.py').read())
ids=[json.loads(l)["id"] for l in open('/verif/properties.jsonl') if l.strip()]
for i in ids:
    if i not in M: print("MISSING",i)
json.dump({"claims":[M[i] for i in ids if i in M]},open('/verif/MANIFEST.json','w'),indent=1,ensure_ascii=False)
