#!/usr/bin/env python3
"""Regenerate rocq/_CoqProject (file list) and MANIFEST.json from Prop_*.v.
Status and notes per property live in tools/status.json."""
import json,re,glob,os
root=os.path.dirname(os.path.dirname(os.path.abspath(__file__)))
th=os.path.join(root,'rocq','theories')
files=sorted(os.path.basename(f) for f in glob.glob(th+'/*.v'))
with open(os.path.join(root,'rocq','_CoqProject'),'w') as f:
    f.write('-Q theories Verif\n'+''.join('theories/%s\n'%x for x in files))
props=[json.loads(l) for l in open(os.path.join(root,'properties.jsonl')) if l.strip()]
status=json.load(open(os.path.join(root,'tools','status.json')))
thm={}
for f in files:
    if not f.startswith('Prop_'): continue
    for m in re.finditer(r'^(?:Theorem|Corollary)\s+(C\d+)_(\w+)',open(os.path.join(th,f)).read(),re.M):
        thm.setdefault(m.group(1),[]).append(m.group(1)+'_'+m.group(2))
claims=[]
for p in props:
    s=status.get(p['id'])
    if not s and p['id'] not in thm:
        claims.append(dict(property=p['id'],status='partial',theorems=[],note='no theorem yet')); continue
    s=s or dict(status='proved',note='')
    claims.append(dict(property=p['id'],status=s['status'],theorems=thm.get(p['id'],[]),note=s.get('note','')))
json.dump(dict(claims=claims),open(os.path.join(root,'MANIFEST.json'),'w'),indent=1)
print(len(claims),sum(1 for c in claims if c['theorems']))
