"""Regenerates MANIFEST.json: theorems named Cnn_* in theories/*.v, notes below."""
import json,re,glob,os
root=os.path.dirname(os.path.dirname(os.path.abspath(__file__)))
props=[json.loads(l) for l in open(root+'/properties.jsonl')]
thms={}
for f in sorted(glob.glob(root+'/rocq/theories/*.v')):
    for m in re.finditer(r'^ *(?:Theorem|Lemma|Corollary)\s+(C\d+_\w+)',open(f).read(),re.M):
        thms.setdefault(m.group(1).split('_')[0],[]).append(m.group(1))
notes=json.load(open(root+'/tools/notes.json')) if os.path.exists(root+'/tools/notes.json') else {}
out=[]
for p in props:
    i=p['id']; t=thms.get(i,[])
    n=notes.get(i,{})
    st=n.get('status') or ('proved' if t and not any(x.endswith('_refuted') or x.endswith('_partial') for x in t) else 'partial')
    if not t and st!='not_applicable': 
        continue
    out.append({"property":i,"status":st,"theorems":t+n.get("see",[]),"note":n.get('note','')})
json.dump({"claims":out},open(root+'/MANIFEST.json','w'),indent=1)
print(len(out),[ (o['property'],o['status']) for o in out])
