import json,re,glob
M=[]
def c(p,s,th,note): M.append(dict(property=p,status=s,theorems=th,note=note))
exec(open('/tmp/gen/claims.py').read())
names=set()
for f in glob.glob('/verif/rocq/theories/*.v'):
    names|=set(re.findall(r'^(?:Theorem|Lemma|Corollary)\s+(\w+)',open(f).read(),re.M))
for m in M:
    for t in m['theorems']:
        assert t in names,t
props=[json.loads(l)['id'] for l in open('/verif/properties.jsonl')]
have={m['property'] for m in M}
print('missing',[p for p in props if p not in have])
M.sort(key=lambda m:m['property'])
json.dump({"claims":M},open('/verif/MANIFEST.json','w'),indent=1)
