#!/usr/bin/env python3
"""addclaims.py C23 C24 ... : (re)collect all Theorem/Corollary names Cnn_* for the ids, status proved,
keeping an existing note."""
import json, re, glob, os, sys
here = os.path.dirname(os.path.abspath(__file__))
p = os.path.join(here, 'claims.json')
C = json.load(open(p))
names = []
for f in sorted(glob.glob(os.path.join(here, '../rocq/theories/*.v'))):
    names += re.findall(r'^(?:Theorem|Corollary)\s+(\w+)', open(f).read(), re.M)
for i in sys.argv[1:]:
    ns = [n for n in names if n.startswith(i + '_')]
    assert ns, i
    st = 'partial' if any(n.endswith('_partial') for n in ns) else 'proved'
    C[i] = {'status': st, 'theorems': ns, 'note': C.get(i, {}).get('note', '')}
json.dump(C, open(p, 'w'), indent=1)
