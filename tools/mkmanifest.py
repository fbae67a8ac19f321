#!/usr/bin/env python3
"""Write MANIFEST.json from the CLAIMS table and check that the names exist."""
import json, re, glob, os
here = os.path.dirname(os.path.abspath(__file__))
CLAIMS = json.load(open(os.path.join(here, 'claims.json')))
names = set()
for f in glob.glob(os.path.join(here, '../rocq/theories/*.v')):
    names |= set(re.findall(r'^(?:Theorem|Lemma|Corollary)\s+(\w+)', open(f).read(), re.M))
ids = [json.loads(l)['id'] for l in open(os.path.join(here, '../properties.jsonl'))]
out = []
for i in ids:
    c = CLAIMS.get(i)
    if not c:
        continue
    for t in c['theorems']:
        assert t in names, (i, t)
    out.append({"property": i, "status": c['status'], "theorems": c['theorems'], "note": c['note']})
json.dump({"claims": out}, open(os.path.join(here, '../MANIFEST.json'), 'w'), indent=1)
print(len(out), 'of', len(ids), 'claims; missing', [i for i in ids if i not in CLAIMS])
