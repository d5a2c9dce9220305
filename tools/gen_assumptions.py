#!/usr/bin/env python3
"""Regenerate ASSUMPTIONS.md: what `Print Assumptions` lists for every theorem in MANIFEST.json.
Needs a finished build in rocq/. Usage: python3 tools/gen_assumptions.py"""
import json, os, re, subprocess, tempfile
root = os.path.dirname(os.path.dirname(os.path.abspath(__file__)))
th = os.path.join(root, 'rocq', 'theories')
claims = json.load(open(os.path.join(root, 'MANIFEST.json')))['claims']
names = [t for c in claims for t in c['theorems']]
mods = {}
for f in sorted(os.listdir(th)):
    if f.startswith('Properties_') and f.endswith('.v'):
        for m in re.finditer(r'^(?:Theorem|Corollary)\s+(C\d\d\w*)', open(os.path.join(th, f)).read(), re.M):
            mods[m.group(1)] = f[:-2]
with tempfile.TemporaryDirectory() as d:
    src = os.path.join(d, 'Ask.v')
    with open(src, 'w') as o:
        for m in sorted(set(mods.values())):
            o.write('From Verif Require %s.\n' % m)
        o.write('From Coq Require Import String.\n')
        for n in names:
            o.write('Goal True. idtac "@@ %s". exact I. Qed.\nPrint Assumptions Verif.%s.%s.\n' % (n, mods[n], n))
    out = subprocess.run(['coqc', '-Q', th, 'Verif', src], capture_output=True, text=True)
    assert out.returncode == 0, out.stderr
res, cur = {}, None
for line in out.stdout.splitlines():
    if line.startswith('@@ '):
        cur = line[3:].strip(); res[cur] = []
    elif cur and not line.startswith(' ') and ':' in line and not line.startswith('Axioms:'):
        res[cur].append(line.split(':')[0].strip())
    elif cur and re.match(r'^[A-Za-z_.0-9]+$', line.strip()) and not line.startswith(' '):
        res[cur].append(line.strip())
sets = {}
for n in names:
    sets.setdefault(tuple(sorted(set(res[n]))), []).append(n)
with open(os.path.join(root, 'ASSUMPTIONS.md'), 'w') as o:
    o.write('# What `Print Assumptions` lists\n\nGenerated by `tools/gen_assumptions.py` from a finished build, one block per set of axioms.\n'
            'All the axioms are those of Coq\'s standard library.\n')
    for s in sorted(sets, key=lambda s: (len(s), s)):
        o.write('\n## %s (%d theorems)\n\n' % (', '.join('`%s`' % a for a in s) if s else 'Closed under the global context', len(sets[s])))
        for n in sets[s]:
            o.write('* `%s` (%s.v)\n' % (n, mods[n]))
print({k: len(v) for k, v in sets.items()})
