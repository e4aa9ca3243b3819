"""Single source for properties.jsonl and MANIFEST.json.  Run: python3 tools/props.py"""
import json, os
S='include/maf/utils/serialization/'
CS='include/maf/messaging/client-server/'
SC='src/common/maf/messaging/client-server/'
UX='src/platforms/unix/maf/messaging/client-server/ipc/'
M='src/common/maf/messaging/'
P=[]
def p(id,title,statement,quantifier,why,anchors,status='partial',theorems=(),note=''):
    P.append(dict(id=id,title=title,statement=statement,quantifier=quantifier,why_tests_cant=why,anchors=anchors,
                  _status=status,_theorems=list(theorems),_note=note))
exec(open(os.path.join(os.path.dirname(__file__),'props_data.py')).read())
exec(open(os.path.join(os.path.dirname(__file__),'claims.py')).read())
for q in P:
    if q['id'] in C: q['_status'],q['_theorems'],q['_note']=C[q['id']]
    else: q['_note']='no theorem yet'; print('missing',q['id'])
root=os.path.join(os.path.dirname(__file__),'..')
with open(os.path.join(root,'properties.jsonl'),'w') as f:
    for q in P:
        f.write(json.dumps({k:v for k,v in q.items() if not k.startswith('_')})+'\n')
with open(os.path.join(root,'MANIFEST.json'),'w') as f:
    json.dump({"claims":[{"property":q['id'],"status":q['_status'],"theorems":q['_theorems'],"note":q['_note']} for q in P]},f,indent=1)
assert len({q['id'] for q in P})==len(P)
print(len(P),'properties')
