#!/usr/bin/env python3
"""Generate MANIFEST.json.  Theorem names are collected from rocq/theories/Props*.v by their Cnn_ prefix."""
import glob, json, os, re
root = os.path.join(os.path.dirname(__file__), '..')
thms = {}
for f in sorted(glob.glob(os.path.join(root, 'rocq/theories/Props*.v'))):
    for m in re.finditer(r'^Theorem ((C\d\d\d?)_\w+)', open(f).read(), re.M):
        thms.setdefault(m.group(2), []).append(m.group(1))
exec(open(os.path.join(root, 'tools/notes.py')).read())
ids = [json.loads(l)['id'] for l in open(os.path.join(root, 'properties.jsonl'))]
claims = []
for i in ids:
    if i in thms:
        st, note = notes[i]
        claims.append({"property": i, "status": st, "theorems": thms[i], "note": note})
    else:
        print("no theorems:", i)
for i in thms:
    assert i in ids, i
json.dump({"claims": claims}, open(os.path.join(root, 'MANIFEST.json'), 'w'), indent=1)
open(os.path.join(root, 'MANIFEST.json'), 'a').write('\n')
