#!/usr/bin/env python3
"""Write MANIFEST.json: theorems are collected from Properties*.v by their Cnn_ prefix; notes below."""
import re,glob,json,os
root=os.path.join(os.path.dirname(os.path.abspath(__file__)),'..')
th={}
cp=open(root+'/rocq/_CoqProject').read()
for f in sorted(glob.glob(root+'/rocq/theories/Properties*.v')):
    if os.path.basename(f) not in cp: continue
    for m in re.finditer(r'^Theorem ((C\d+)_\w+)',open(f).read(),re.M):
        th.setdefault(m.group(2),[]).append(m.group(1))
notes=json.load(open(root+'/tools/notes.json'))
claims=[]
for l in open(root+'/properties.jsonl'):
    d=json.loads(l); i=d['id']
    t=th.get(i,[])
    n=notes.get(i,{})
    if not t:
        continue
    st=n.get('status','partial' if any(x.endswith('_partial') for x in t) else 'proved')
    claims.append({"property":i,"status":st,"theorems":t,"note":n.get('note','')})
json.dump({"claims":claims},open(root+'/MANIFEST.json','w'),indent=1)
print(len(claims),'claims',sum(len(c['theorems']) for c in claims),'theorems')
