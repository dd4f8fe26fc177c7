import json,re,glob
HEAD=open('/tmp/gen/design_head.md').read()
TAIL=open('/tmp/gen/design_tail.md').read()
METHOD=json.load(open('/tmp/gen/method.json'))
where={}
for f in sorted(glob.glob('/verif/rocq/theories/*.v')):
    for n in re.findall(r'^(?:Theorem|Lemma|Corollary)\s+(\w+)',open(f).read(),re.M): where.setdefault(n,f.split('/')[-1])
props=[json.loads(l) for l in open('/verif/properties.jsonl')]
man={c['property']:c for c in json.load(open('/verif/MANIFEST.json'))['claims']}
out=HEAD
for p in props:
    m=man[p['id']]
    fs=sorted({where[t] for t in m['theorems']})
    ths=m['theorems'] if len(m['theorems'])<=8 else m['theorems'][:6]+['… (%d in all, see MANIFEST.json)'%len(m['theorems'])]
    out+="* **%s %s** (%s; %s). %s %s Theorems: %s.\n"%(p['id'],p['title'],m['status'],', '.join(fs),METHOD.get(p['id'],''),m['note'],', '.join(ths))
out+=TAIL
open('/verif/DESIGN.md','w').write(out)
missing=[p['id'] for p in props if p['id'] not in METHOD]
print('no method:',missing)
