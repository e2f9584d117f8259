#!/usr/bin/env python3
"""Writes ASSUMPTIONS.md: what Print Assumptions says of each theorem in the *Props.v files.
Run in a built tree (uses rocq/theories/*.vo)."""
import os, re, subprocess, glob, collections
here = os.path.dirname(os.path.abspath(__file__))
root = os.path.dirname(here)
th = os.path.join(root, 'rocq', 'theories')
groups = collections.OrderedDict()
total = 0
for f in sorted(glob.glob(os.path.join(th, '*Props.v'))):
    mod = os.path.basename(f)[:-2]
    names = re.findall(r'^Print Assumptions (\S+)\.', open(f).read(), re.M)
    src = 'From Verif Require Import %s.\n' % mod + ''.join('Check "@@%s".\nPrint Assumptions %s.\n' % (n, n) for n in names)
    src = 'Require Import String. Open Scope string_scope.\n' + src
    p = '/tmp/Assum_%s.v' % mod
    open(p, 'w').write(src)
    out = subprocess.run(['coqc', '-Q', th, 'Verif', p], capture_output=True, text=True)
    assert out.returncode == 0, out.stderr
    parts = re.split(r'"@@(\S+)"\s*\n\s*: string\n', out.stdout)
    for n, body in zip(parts[1::2], parts[2::2]):
        ax = tuple(sorted(re.findall(r'^([A-Za-z_][\w.]*) ?:', body, re.M)) + sorted(x for x in re.findall(r'^([A-Za-z_][\w.]*)\n  :', body, re.M)))
        groups.setdefault(tuple(sorted(set(ax) - {'Axioms'})), collections.OrderedDict()).setdefault(mod, []).append(n)
        total += 1
with open(os.path.join(root, 'ASSUMPTIONS.md'), 'w') as o:
    o.write('# What `Print Assumptions` lists\n\nGenerated by tools/mkassumptions.py; %d theorems.\n' % total)
    for ax in sorted(groups, key=len):
        o.write('\n## ' + ('Closed under the global context' if not ax else 'Axioms: ' + ', '.join('`%s`' % a for a in ax)) + '\n\n')
        for mod, ns in groups[ax].items():
            o.write('* %s: %s\n' % (mod, ', '.join(ns)))
print(total, {k: sum(map(len, v.values())) for k, v in groups.items()})
