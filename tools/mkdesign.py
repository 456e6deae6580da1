#!/usr/bin/env python3
"""Regenerates /verif/DESIGN.md from properties.jsonl, tools/notes.json, MANIFEST.json and tools/design_parts.json."""
import json,os
R=os.path.dirname(os.path.dirname(os.path.abspath(__file__)))
props=[json.loads(l) for l in open(R+'/properties.jsonl')]
man={c['property']:c for c in json.load(open(R+'/MANIFEST.json'))['claims']}
parts=json.load(open(R+'/tools/design_parts.json'))
how=parts['how']
out=[parts['head']]
out.append("## Properties: what is modelled, how it is proved\n")
for p in props:
    i=p['id']; m=man.get(i,{})
    out.append(f"### {i} — {p['title']} ({m.get('status','planned')})\n")
    out.append(p['statement']+"\n")
    if i in how: out.append("*Model and proof.* "+how[i]+"\n")
    if m.get('note'): out.append("*Scope.* "+m['note']+"\n")
    ths=m.get('theorems',[])
    if ths: out.append("*Theorems.* "+", ".join("`%s`"%t for t in ths)+"\n")
out.append(parts['tail'])
open(R+'/DESIGN.md','w').write("\n".join(out))
