#!/usr/bin/env python3
"""Writes MANIFEST.json from the theorem names found in rocq/theories/Properties_*.v and the notes below."""
import json,re,glob,os
root=os.path.dirname(os.path.dirname(os.path.abspath(__file__)))
thms={}
for f in sorted(glob.glob(root+'/rocq/theories/Properties_*.v')):
    for m in re.finditer(r'^Theorem (C\d\d)_(\w+)',open(f).read(),re.M):
        thms.setdefault(m.group(1),[]).append(m.group(1)+'_'+m.group(2))
from manifest_notes import NOTES
props=[json.loads(l) for l in open(root+'/properties.jsonl')]
claims=[]
for p in props:
    i=p['id']
    st,note=NOTES.get(i,('not_applicable','not modelled yet'))
    claims.append({'property':i,'status':st,'theorems':thms.get(i,[]),'note':note})
    if st!='not_applicable' and not thms.get(i): print('no theorem for',i)
json.dump({'claims':claims},open(root+'/MANIFEST.json','w'),indent=1)
print({s:sum(c['status']==s for c in claims) for s in ('proved','partial','not_applicable')})
