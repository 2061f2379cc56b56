# builds MANIFEST.json from theorem names found in P_*.v and status notes
import json,re,glob
notes=json.load(open('/verif/tools/notes.json'))
th={}
for f in sorted(glob.glob('/verif/rocq/theories/P_*.v')):
    for m in re.finditer(r'^Theorem (\w+)',open(f).read(),re.M):
        n=m.group(1); c=re.match(r'(C\d\d+)',n).group(1)
        th.setdefault(c,[]).append(n)
claims=[]
for l in open('/verif/properties.jsonl'):
    d=json.loads(l); c=d['id']
    st,note=notes.get(c,["not_applicable","not yet modelled"])
    claims.append({"property":c,"status":st,"theorems":th.get(c,[]),"note":note})
json.dump({"claims":claims},open('/verif/MANIFEST.json','w'),indent=1)
print(sum(c['status']=='proved' for c in claims),'proved',sum(c['status']=='partial' for c in claims),'partial',[c['property'] for c in claims if not c['theorems']])
