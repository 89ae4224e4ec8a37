#!/usr/bin/env python3
"""Write ASSUMPTIONS.md from the output of Print Assumptions in the *_Props.v files.
Needs a finished build in rocq/ (recompiles only the *_Props.v files)."""
import glob, os, re, subprocess, tempfile
root = os.path.dirname(os.path.dirname(os.path.abspath(__file__)))
rows, sets = [], {}
for f in sorted(glob.glob(root + '/rocq/theories/*_Props.v')):
    src = open(f).read()
    names = re.findall(r'^Print Assumptions (\w+)\.', src, re.M)
    with tempfile.TemporaryDirectory() as d:
        out = subprocess.run(['coqc', '-q', '-Q', 'theories', 'Verif', '-o', d + '/' + os.path.basename(f) + 'o',
                              os.path.relpath(f, root + '/rocq')], cwd=root + '/rocq',
                             capture_output=True, text=True, check=True).stdout
    blocks = re.split(r'(?m)^(?=Axioms:|Closed under the global context)', out)[1:]
    assert len(blocks) == len(names), (f, len(blocks), len(names))
    for n, b in zip(names, blocks):
        ax = sorted(set(re.findall(r'(?m)^([\w.]+)(?: :|$)', b)) - {'Axioms'}) if b.startswith('Axioms') else []
        rows.append((n, tuple(a.split('.')[-1] for a in ax)))
        for a in ax:
            sets.setdefault(a.split('.')[-1], a)
kinds = sorted(set(r[1] for r in rows), key=lambda k: (len(k), k))
label = {k: chr(ord('A') + i) for i, k in enumerate(kinds)}
o = ['# Print Assumptions per theorem', '',
     'Generated by `tools/gen_assumptions.py` from the output of `Print Assumptions` beneath each theorem.', '']
for k in kinds:
    o.append(f'* **{label[k]}**: ' + (', '.join('`' + sets[a] + '`' for a in k) if k else 'closed under the global context'))
o += ['', '| theorem | assumptions |', '|---|---|']
o += [f'| {n} | {label[k]} |' for n, k in sorted(rows)]
open(root + '/ASSUMPTIONS.md', 'w').write('\n'.join(o) + '\n')
print(len(rows), 'theorems', {label[k]: sum(r[1] == k for r in rows) for k in kinds})
