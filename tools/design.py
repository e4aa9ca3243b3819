"""DESIGN.md = tools/design_head.md + one line per property from MANIFEST.json.  Run after tools/props.py."""
import json, os
r=os.path.join(os.path.dirname(__file__),'..')
m={c['property']:c for c in json.load(open(r+'/MANIFEST.json'))['claims']}
out=open(r+'/tools/design_head.md').read()+'\n## 5. Property by property\n\n'
for l in sorted(open(r+'/properties.jsonl'),key=lambda l:int(json.loads(l)['id'][1:])):
    d=json.loads(l); c=m[d['id']]
    out+='* **%s** %s (%s): `%s`. %s\n'%(d['id'],d['title'],c['status'],'`, `'.join(c['theorems']),c['note'])
open(r+'/DESIGN.md','w').write(out)
