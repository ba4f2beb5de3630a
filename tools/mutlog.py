"""Turns the results of tools/mutate.py into seeded/LOG.jsonl: one line per wrong program tried."""
import json,sys,os
root=os.path.dirname(os.path.dirname(os.path.abspath(__file__)))
fix=json.load(open(root+'/tools/mutfix.json'))
ren=json.load(open(root+'/tools/renames.json'))
R=lambda l:[ren.get(x,x) for x in l]
out=[]
for f in sys.argv[1:]:
    for l in open(f):
        d=json.loads(l); o=fix.get(d['id'],{})
        if o.get('skip'): continue
        out.append({"id":d['id'],"definition":d['definition'] if d['definition'].startswith(d['file']) else d['file']+": "+d['definition'],"edit":d['edit'],
            "change":{"from":d['old'],"to":d['new']},
            "claim":o.get('claim',d['claim']),
            "theorems_failed":R(o.get('failed',d['affected'])),
            "first_proofs_broken":d['broken'],
            "theorems_tightened":R(o.get('tightened',[])),
            **({"note":o['note']} if 'note' in o else {})})
open(root+'/seeded/LOG.jsonl','w').write(''.join(json.dumps(x)+'\n' for x in out))
print(len(out), 'entries;', sum(1 for x in out if x['theorems_tightened']),'led to tightening;', [x['id'] for x in out if not x['theorems_failed'] and 'note' not in x])
