#!/usr/bin/env python3
"""Write rocq/theories/Assumptions.v: Print Assumptions for every theorem named in MANIFEST.json."""
import json, re, os, glob
here = os.path.dirname(os.path.dirname(os.path.abspath(__file__)))
th = os.path.join(here, 'rocq', 'theories')
where = {}
for f in sorted(glob.glob(th + '/*.v')):
    for m in re.finditer(r'^\s*(?:Theorem|Lemma|Corollary|Example)\s+(\w+)', open(f).read(), re.M):
        where.setdefault(m.group(1), []).append(os.path.basename(f)[:-2])
names = []
for c in json.load(open(here + '/MANIFEST.json'))['claims']:
    sole = {where[t][0] for t in c['theorems'] if len(where[t]) == 1}
    for n in c['theorems']:
        mods = where[n]
        if len(mods) > 1:
            mods = [m for m in mods if m in sole]
        assert len(mods) == 1, (n, mods)
        if (mods[0], n) not in names:
            names.append((mods[0], n))
mods = sorted({m for m, _ in names})
with open(th + '/Assumptions.v', 'w') as f:
    f.write('(** Generated by tools/mkassumptions.py: the assumptions of every theorem of MANIFEST.json.\n'
            '    Each line of the output reads "Closed under the global context". *)\n')
    f.write('From Verif Require ' + ' '.join(mods) + '.\n')
    for m, n in names:
        f.write('Print Assumptions %s.%s.\n' % (m, n))
