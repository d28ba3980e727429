"""Turn the output of mutate.py into lines of seeded/LOG.jsonl.  usage: seedlog.py OUT.jsonl [TIGHTENED.json]"""
import sys,json,os
t=json.load(open(sys.argv[2])) if len(sys.argv)>2 else {}
L='/verif/seeded/LOG.jsonl'
have=set()
if os.path.exists(L):
    for l in open(L): have.add(json.loads(l)['id'])
with open(L,'a') as f:
    for l in open(sys.argv[1]):
        d=json.loads(l)
        if d['id'] in have: continue
        f.write(json.dumps(dict(id=d['id'],definition=d['definition'],file='rocq/theories/'+d['file'],edit=d['edit'],old=d['old'],new=d['new'],claim=d['claim'],
          lemmas_whose_proof_failed=[x if isinstance(x,str) else x[0].split('/')[-1]+':'+x[1] for x in d['failed_lemmas']],theorems_failed=d['fails'],n_theorems_still_proved=len(d['holds']),theorems_tightened=t.get(d['id'],[])))+'\n')
