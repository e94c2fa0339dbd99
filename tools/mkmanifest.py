#!/usr/bin/env python3
# Regenerates MANIFEST.json from the theorem names in rocq/theories/Prop*.v and the notes below.
import re,glob,json,os
root=os.path.dirname(os.path.dirname(os.path.abspath(__file__)))
thms={}
for f in sorted(glob.glob(root+'/rocq/theories/Prop*.v')):
    for m in re.finditer(r'^Theorem ((C\d\d)_\w+)',open(f).read(),re.M):
        thms.setdefault(m.group(2),[]).append(m.group(1))
notes=json.load(open(root+'/tools/notes.json'))
props=[json.loads(l)['id'] for l in open(root+'/properties.jsonl')]
claims=[]
for p in props:
    st,note=notes.get(p,["partial","not proved yet"])
    claims.append({"property":p,"status":st,"theorems":thms.get(p,[]),"note":note})
json.dump({"claims":claims},open(root+'/MANIFEST.json','w'),indent=1)
for c in claims: print(c['property'],c['status'],len(c['theorems']))
