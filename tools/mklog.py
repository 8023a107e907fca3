"""Turns mutation results (one JSON object per line) into seeded/LOG.jsonl lines.
usage: mklog.py RESULTS.jsonl [id=theorem,theorem ...]   (theorems tightened because of a mutant)"""
import json,sys
tight=dict(a.split('=') for a in sys.argv[2:])
seen=set(); out=[]
try:
    out=[json.loads(l) for l in open('/verif/seeded/LOG.jsonl')]; seen={x['id'] for x in out}
except FileNotFoundError: pass
new=[json.loads(l) for l in open(sys.argv[1])]
last={d['id']:d for d in new if 'error' not in d}   # a mutant run again after a theorem was tightened: the last run counts
for d in new:
    if d['id'] in seen or d['id'] not in last: continue
    d=last[d['id']]
    seen.add(d['id'])
    out.append({'id':d['id'],'definition':d['definition'],'edit':d['edit'],'claim':d['claim'].rstrip('?'),
      'theorems_failed':[t for t in d['failed_theorems'] if 'witness' not in t],
      'examples_failed':[t for t in d['failed_theorems'] if 'witness' in t],
      'first_lemmas_failed':[t for t in d['failed_lemmas'] if 'witness' not in t],
      'tightened':tight.get(d['id'],'').split(',') if d['id'] in tight else []})
open('/verif/seeded/LOG.jsonl','w').write(''.join(json.dumps(x)+'\n' for x in out)); print(len(out))
