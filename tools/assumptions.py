#!/usr/bin/env python3
"""Runs Print Assumptions on every property theorem of MANIFEST.json (after a
build in rocq/) and rewrites the last section of DESIGN.md with the result."""
import json, re, glob, os, subprocess, tempfile
root = os.path.dirname(os.path.dirname(os.path.abspath(__file__)))
files = sorted(glob.glob(root + '/rocq/theories/Prop*.v'))
where = {}
for f in files:
    mod = os.path.basename(f)[:-2]
    for m in re.finditer(r'^(?:Theorem|Corollary|Lemma) (C\d\d_\w+)', open(f).read(), re.M):
        where[m.group(1)] = mod
names = sorted(where)
src = ''.join('Require Verif.%s.\n' % m for m in sorted(set(where.values())))
for n in names:
    src += 'Print Assumptions Verif.%s.%s.\n' % (where[n], n)
d = tempfile.mkdtemp()
open(d + '/A.v', 'w').write(src)
out = subprocess.run(['coqc', '-Q', root + '/rocq/theories', 'Verif', d + '/A.v'],
                     capture_output=True, text=True)
assert out.returncode == 0, out.stderr
# one block per theorem
blocks = re.split(r'(?=^Closed under the global context|^Axioms:)', out.stdout, flags=re.M)
blocks = [b.strip() for b in blocks if b.strip()]
assert len(blocks) == len(names), (len(blocks), len(names))
closed = [n for n, b in zip(names, blocks) if b.startswith('Closed')]
other = [(n, b) for n, b in zip(names, blocks) if not b.startswith('Closed')]
txt = '## Print Assumptions\n\nGenerated by `tools/assumptions.py`. %d theorems, %d of them ' % (len(names), len(closed))
txt += '"Closed under the global context" (no axiom, not even of the standard library).\n'
if other:
    txt += '\nThe others:\n'
    for n, b in other:
        txt += '\n* `%s`: %s' % (n, ' '.join(b.split()))
txt += '\nClosed:\n\n'
cur = None
for n in closed:
    p = n[:3]
    txt += ('\n* ' if p != cur else ', ') + '`%s`' % n
    cur = p
txt += '\n'
p = root + '/DESIGN.md'
s = open(p).read()
i = s.find('## Print Assumptions')
if i >= 0: s = s[:i]
open(p, 'w').write(s.rstrip() + '\n\n' + txt)
print(len(names), 'theorems', len(closed), 'closed')
