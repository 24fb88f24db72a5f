import sys,json,re
muts=json.load(open(sys.argv[1])); lines=[l for l in open(sys.argv[2]) if l.startswith('== ')]
assert len(muts)==len(lines)
with open('/verif/seeded/LOG.jsonl','a') as f:
    for m,l in zip(muts,lines):
        r=json.loads(l.split(' -> ',1)[1] if l.count(' -> ')==1 else l[l.index(' -> {"')+4:])
        if 'error' in r: print('skip',m['definition'],m['edit'],r['error'][:200]); continue
        e=dict(definition=m['definition'],edit=m['edit'],claim_broken=m['claim'],theorems_failed=r['properties'],failed_lemmas=r['admitted'],theorems_tightened=m.get('tightened',[]))
        if 'remark' in m: e['remark']=m['remark']
        f.write(json.dumps(e)+'\n')
