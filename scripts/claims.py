#!/usr/bin/env python3
"""Writes MANIFEST.json. One entry per property: status, note; theorems are found by name in *Props.v."""
import re,glob,json,os
root=os.path.dirname(os.path.dirname(os.path.abspath(__file__)))
thms={}
for f in sorted(glob.glob(root+'/rocq/theories/*Props*.v')):
    for m in re.finditer(r'^Theorem\s+((C\d\d+)_\w+)',open(f).read(),re.M):
        thms.setdefault(m.group(2),[]).append(m.group(1))
notes={}
exec(open(root+'/scripts/notes.py').read())
claims=[]
for l in open(root+'/properties.jsonl'):
    i=json.loads(l)['id']
    if i in thms:
        st,n=notes.get(i,('partial','(note missing)'))
        if i not in notes: print('no note',i)
        claims.append({"property":i,"status":st,"theorems":thms[i],"note":n})
    elif i in notes: print('note without theorem',i)
json.dump({"claims":claims},open(root+'/MANIFEST.json','w'),indent=1)
print(len(claims),'claims')
