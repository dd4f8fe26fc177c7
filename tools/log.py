import json
tight={'E12':['C38_invalidates (added)'],'R07':['C35_token_edit (added)']}
notes={'L12':'the label C42 was too generous: the claim broken is C54/C50, whose theorems fail','V08':'listing deleted files is the claim of C45, whose theorem fails','P03':'C34 is about texts; the pointer theorems C31/C32 fail','R01':'what the balance check protects is the text (C34), whose theorem fails; C35 is refuted of the code anyway'}
notes.update(json.load(open('/tmp/gen/lognotes.json')) if __import__('os').path.exists('/tmp/gen/lognotes.json') else {})
extra=json.load(open('/tmp/gen/logtight.json')) if __import__('os').path.exists('/tmp/gen/logtight.json') else {}
tight.update(extra)
seen={}
for l in open('/tmp/mut/results.jsonl'):
    r=json.loads(l); seen[r['id']]=r
with open('/verif/seeded/LOG.jsonl','w') as f:
    for i,r in seen.items():
        o={'id':i,'definition':r['def'],'edit':r['edit'],'claim_broken':r['claims'],'theorems_failed':r['failed_theorems'],'lemmas_failed':r['broken_lemmas'],'properties_failed':r['failed_props'],'theorems_tightened':tight.get(i,[])}
        if i in notes: o['note']=notes[i]
        f.write(json.dumps(o)+'\n')
print(len(seen))
