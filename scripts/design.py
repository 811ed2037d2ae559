import json,os
H=open('/verif/scripts/design_head.md').read()
more=open('/verif/scripts/design_more.md').read() if os.path.exists('/verif/scripts/design_more.md') else ''
H=H.replace('@@MORE@@\n',more)
P=[json.loads(l) for l in open('/verif/properties.jsonl')]
M={c['property']:c for c in json.load(open('/verif/MANIFEST.json'))['claims']}
out=[H]
for p in P:
    c=M[p['id']]
    out.append(f"### {p['id']} {p['title']} – {c['status']}\n\n{p['statement']}\n\n*Proved:* {', '.join('`'+t+'`' for t in c['theorems'])}. {c['note']}\n\n")
open('/verif/DESIGN.md','w').write(''.join(out).rstrip()+'\n')
