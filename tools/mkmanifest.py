#!/usr/bin/env python3
"""Regenerate MANIFEST.json: theorem names Cnn_* in rocq/theories/P_*.v, notes/status from tools/notes.json."""
import re,glob,json,os
root=os.path.dirname(os.path.dirname(os.path.abspath(__file__)))
th={}
for f in sorted(glob.glob(root+'/rocq/theories/P_*.v')):
    for m in re.finditer(r'^(?:Theorem|Corollary)\s+((C\d+)_\w+)',open(f).read(),re.M):
        th.setdefault(m.group(2),[]).append(m.group(1))
notes=json.load(open(root+'/tools/notes.json'))
claims=[]
ids=[json.loads(l)['id'] for l in open(root+'/properties.jsonl') if l.strip()]
for i in ids:
    n=notes.get(i,{})
    if i in th:
        part=n.get('status') or ('partial' if any(t.endswith('_partial') for t in th[i]) else 'proved')
        claims.append(dict(property=i,status=part,theorems=th[i],note=n.get('note','')))
    elif n.get('status')=='not_applicable':
        claims.append(dict(property=i,status='not_applicable',theorems=[],note=n.get('note','')))
json.dump({'claims':claims},open(root+'/MANIFEST.json','w'),indent=1)
print(len(claims),'claims; missing:',[i for i in ids if i not in th])
