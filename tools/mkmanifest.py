#!/usr/bin/env python3
# Collects theorem names by prefix Cnn_ from rocq/theories/Prop*.v and writes MANIFEST.json
import re,glob,json,os
root=os.path.dirname(os.path.dirname(os.path.abspath(__file__)))
notes=json.load(open(os.path.join(root,'tools/notes.json')))
props=[json.loads(l) for l in open(os.path.join(root,'properties.jsonl'))]
th={}
for f in sorted(glob.glob(os.path.join(root,'rocq/theories/Prop*.v'))):
    for m in re.finditer(r'^Theorem\s+((C\d+)_\w+)',open(f).read(),re.M):
        th.setdefault(m.group(2),[]).append(m.group(1))
claims=[]
for p in props:
    i=p['id']; n=notes.get(i,{})
    t=th.get(i,[])
    if not t and n.get('status')!='not_applicable': continue
    st=n.get('status') or ('partial' if any(x.endswith('_partial') for x in t) else 'proved')
    claims.append({"property":i,"status":st,"theorems":t,"note":n.get('note','')})
json.dump({"claims":claims},open(os.path.join(root,'MANIFEST.json'),'w'),indent=1)
print(len(claims),'claims',sum(len(c['theorems']) for c in claims),'theorems; missing:',[p['id'] for p in props if p['id'] not in [c['property'] for c in claims]])
