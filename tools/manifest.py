import json,re,glob
thms={}
for p in sorted(glob.glob('/verif/rocq/theories/Prop*.v')):
    for m in re.finditer(r'^Theorem (C(\d\d)_\w+)',open(p).read(),re.M):
        thms.setdefault('C'+m.group(2),[]).append(m.group(1))
exec(open('/verif/tools/notes.py').read())
claims=[]
for l in open('/verif/properties.jsonl'):
    o=json.loads(l); c=o['id']
    t=thms.get(c,[])
    st,note=notes.get(c,(None,''))
    if not t: continue
    claims.append({"property":c,"status":st,"theorems":t,"note":note})
json.dump({"claims":claims},open('/verif/MANIFEST.json','w'),indent=1)
print(len(claims),[c for c in claims if not c['status']])
