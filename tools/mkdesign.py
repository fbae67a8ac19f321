#!/usr/bin/env python3
"""Write DESIGN.md: the hand-written text below, the per-property table, and what
Print Assumptions lists for each theorem of MANIFEST.json (needs a finished build)."""
import json, re, glob, os, subprocess, collections
here = os.path.dirname(os.path.abspath(__file__))
root = os.path.dirname(here)
M = {c['property']: c for c in json.load(open(f'{root}/MANIFEST.json'))['claims']}
P = [json.loads(l) for l in open(f'{root}/properties.jsonl')]
names = [t for p in P for t in M[p['id']]['theorems']]
mods = {}
for f in sorted(glob.glob(f'{root}/rocq/theories/*.v')):
    for n in re.findall(r'^(?:Theorem|Corollary|Lemma)\s+(\w+)', open(f).read(), re.M):
        if n in names: mods.setdefault(n, []).append(os.path.basename(f)[:-2])
for n in names: assert len(mods[n]) == 1, (n, mods[n])
src = "From Verif Require " + " ".join(sorted({m[0] for m in mods.values()})) + ".\n"
for n in names: src += f'Goal True. idtac "@@ {n}". Abort.\nPrint Assumptions {mods[n][0]}.{n}.\n'
open('/tmp/pa.v', 'w').write(src)
out = subprocess.run(['coqc', '-Q', f'{root}/rocq/theories', 'Verif', '/tmp/pa.v'], capture_output=True, text=True, cwd='/tmp')
assert out.returncode == 0, out.stderr
groups = collections.OrderedDict()
for part in out.stdout.split('@@ ')[1:]:
    n, rest = part.split('\n', 1)
    ax = () if 'Closed under' in rest else tuple(sorted(set(re.findall(r'^([\w\.]+)\s*:', rest, re.M)) - {'Axioms'}))
    groups.setdefault(ax, []).append(n)
HOW = json.load(open(f'{here}/how.json'))
head = open(f'{here}/design_head.md').read()
t = ["## 4. Property by property\n", "| id | property | what is modelled, and how it is proved | theorems (file) |", "|---|---|---|---|"]
for p in P:
    c = M[p['id']]
    ths = ', '.join(f'`{x}`' for x in c['theorems']) + ' (' + ', '.join(sorted({mods[x][0] + '.v' for x in c['theorems']})) + ')'
    how = HOW[p['id']] + (' *Note:* ' + c['note'] if c['note'] else '')
    t.append(f"| {p['id']} | {p['title']} | {how} | {c['status']}: {ths} |")
t.append("\nNo property is listed as impossible to express, and none is partial.\n" if all(c['status'] == 'proved' for c in M.values()) else "")
t.append("## 5. Print Assumptions\n")
t.append("What `Print Assumptions` lists for each theorem of MANIFEST.json (written by `tools/mkdesign.py`). Nothing but the standard library's axioms and primitive constants occurs; primitive floats and integers show up as \"axioms\" because they are kernel primitives.\n")
base = max((a for a in groups if a), key=len)
for ax, ns in sorted(groups.items(), key=lambda kv: len(kv[0])):
    t.append(f"* **{'Closed under the global context' if not ax else ', '.join('`'+a+'`' for a in ax)}** ({len(ns)} theorems): " + ', '.join(f'`{n}`' for n in ns) + ".\n")
open(f'{root}/DESIGN.md', 'w').write(head + '\n' + '\n'.join(t))
print({len(k): len(v) for k, v in groups.items()})
