#!/usr/bin/env python3
"""Write ASSUMPTIONS.md: what Print Assumptions reports for every property theorem.

Needs a built tree (make in rocq/).  Run from anywhere; uses coqc on a scratch file outside /verif.
"""
import collections, pathlib, re, subprocess, tempfile

ROOT = pathlib.Path(__file__).resolve().parent.parent
TH = ROOT / 'rocq' / 'theories'
groups = collections.OrderedDict()
for f in sorted(TH.glob('Properties*.v')):
    names = re.findall(r'^ *Theorem (C\d+_\w+)', f.read_text(), re.M)
    src = f'From Verif Require {f.stem}.\nFrom Coq Require Import String.\n' + ''.join(
        f'Eval compute in "{n}"%string.\nPrint Assumptions Verif.{f.stem}.{n}.\n' for n in names)
    with tempfile.TemporaryDirectory() as d:
        p = pathlib.Path(d) / 'scratch.v'
        p.write_text(src)
        out = subprocess.run(['coqc', '-Q', str(TH), 'Verif', str(p)], capture_output=True, text=True)
    if out.returncode:
        raise SystemExit(f'{f.name}: {out.stderr}')
    for chunk in out.stdout.split('     = "')[1:]:
        name, rest = chunk.split('"', 1)
        axioms = tuple(sorted(re.findall(r'^([A-Za-z_][\w.]*)\s*:', rest.split('Axioms:')[1], re.M))) if 'Axioms:' in rest else ()
        groups.setdefault(axioms, []).append((f.stem, name))
L = ['# Print Assumptions, theorem by theorem', '', 'Written by `tools/assumptions.py` from the compiled files; theorems with the same list are grouped.', '']
for ax in sorted(groups, key=len):
    L.append('## ' + (', '.join(f'`{a}`' for a in ax) if ax else 'Closed under the global context (no axioms)'))
    L.append('')
    by = collections.OrderedDict()
    for f, n in groups[ax]:
        by.setdefault(f, []).append(n)
    for f, ns in by.items():
        L.append(f'- `{f}.v`: ' + ', '.join(f'`{n}`' for n in ns))
    L.append('')
(ROOT / 'ASSUMPTIONS.md').write_text('\n'.join(L))
print({' '.join(a): len(v) for a, v in groups.items()})
