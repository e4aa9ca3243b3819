#!/usr/bin/env python3
"""Turn the mutation results of the scratch directory into seeded/LOG.jsonl.
usage: mklog.py RESULT_DIR  (tightened.json there, if present: mutant id -> [theorems])"""
import sys, os, re, json, glob
d = sys.argv[1]
tight = json.load(open(d + '/../tightened.json')) if os.path.exists(d + '/../tightened.json') else {}
notes = json.load(open(d + '/../notes.json')) if os.path.exists(d + '/../notes.json') else {}
def defn(job):
    f, old = job['file'], job['old']
    s = open('/verif/rocq/theories/%s.v' % f).read()
    k = s.find(old)
    if k < 0: return f
    best = None
    for m in re.finditer(r'(?m)^(?:Definition|Fixpoint|Inductive|Record|Function|with)\s+([\w\']+)', s[:k + 200]):
        if m.start() <= k + 12: best = m.group(1)
    return '%s: %s' % (f, best) if best else f
out = []
for f in sorted(glob.glob(d + '/*.json')):
    r = json.load(open(f))
    if 'error' in r: continue
    j = r['job']
    if 'edits' in j: j = dict(j, old='; '.join(e[1] for e in j['edits']), new='; '.join(e[2] for e in j['edits']))
    e = dict(mutant=r['id'], definition=defn(j), edit='%s  ==>  %s' % (j['old'].strip(), j['new'].strip()),
             claim_broken=j['claim'], theorems_failed=r['failed'], theorems_tightened=tight.get(r['id'], []))
    if r['id'] in notes: e['note'] = notes[r['id']]
    out.append(e)
open('/verif/seeded/LOG.jsonl', 'w').write(''.join(json.dumps(e) + '\n' for e in out))
print(len(out))
