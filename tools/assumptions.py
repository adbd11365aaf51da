#!/usr/bin/env python3
"""Regenerates ASSUMPTIONS.md: what Print Assumptions lists for each theorem (needs the compiled theories)."""
import json, os, re, subprocess, tempfile
root = os.path.dirname(os.path.dirname(os.path.abspath(__file__)))
th = os.path.join(root, 'rocq', 'theories')
names, mods = [], []
for f in sorted(os.listdir(th)):
    if f.endswith('Props.v'):
        t = open(os.path.join(th, f)).read()
        ns = re.findall(r'^Theorem (C\d+_\w+)', t, re.M)
        mods.append(f[:-2])
        names += [(f[:-2], n) for n in ns]
src = ''.join('From Verif Require %s.\n' % m for m in mods)
for m, n in names:
    src += 'Goal True. idtac "@@ %s". exact I. Qed.\nPrint Assumptions Verif.%s.%s.\n' % (n, m, n)
d = tempfile.mkdtemp()
open(os.path.join(d, 'A.v'), 'w').write(src)
out = subprocess.run(['coqc', '-Q', th, 'Verif', os.path.join(d, 'A.v')], capture_output=True, text=True)
if out.returncode: raise SystemExit(out.stderr)
res = {}
for blk in out.stdout.split('@@ ')[1:]:
    n, rest = blk.split('\n', 1)
    ax = re.findall(r'^([A-Za-z_][\w.]*)\s*:', rest, re.M) if 'Closed under' not in rest else []
    res[n.strip()] = tuple(sorted(a for a in ax if a != 'Axioms'))
groups = {}
for m, n in names: groups.setdefault(res[n], []).append(n)
o = ['# What `Print Assumptions` lists', '', 'Generated by `tools/assumptions.py`; %d theorems.' % len(names), '']
for ax in sorted(groups, key=lambda a: (len(a), a)):
    o += ['## ' + ('Closed under the global context' if not ax else ', '.join('`%s`' % a for a in ax)), '', ', '.join(sorted(groups[ax])), '']
open(os.path.join(root, 'ASSUMPTIONS.md'), 'w').write('\n'.join(o))
print(len(names), [(len(a), len(g)) for a, g in groups.items()])
