#!/usr/bin/env python3
"""Rewrite the table of assumptions in DESIGN.md (between the markers) from the output of Print Assumptions."""
import concurrent.futures, glob, os, re, subprocess, tempfile
root = os.path.dirname(os.path.dirname(os.path.abspath(__file__)))
th = root + '/rocq/theories'
short = {'ClassicalDedekindReals.sig_not_dec': 'N', 'ClassicalDedekindReals.sig_forall_dec': 'F',
         'FunctionalExtensionality.functional_extensionality_dep': 'X', 'Classical_Prop.classic': 'C'}
def assumptions(f):
    rows = []
    src = open(f).read()
    names = re.findall(r'^Print Assumptions (\w+)\.', src, re.M)
    with tempfile.TemporaryDirectory() as tmp:
        out = subprocess.run(['coqc', '-Q', th, 'Verif', '-o', tmp + '/' + os.path.basename(f) + 'o', f],
                             capture_output=True, text=True).stdout
    blocks = []
    for line in out.splitlines():
        if line.startswith('Closed under') or line.startswith('Axioms:'):
            blocks.append(line)
        elif blocks:
            blocks[-1] += '\n' + line
    assert len(blocks) == len(names), (f, len(blocks), len(names))
    for n, b in zip(names, blocks):
        if b.startswith('Closed'):
            rows.append((n, 'none'))
        else:
            ax = [m for m in re.findall(r'^([A-Za-z_][\w.]*)\s*(?=:|$|\n)', b, re.M) if m not in ('Axioms',)]
            rows.append((n, ' '.join(sorted(short[a] for a in ax))))
    return rows
with concurrent.futures.ThreadPoolExecutor(3) as pool:
    rows = [r for l in pool.map(assumptions, sorted(glob.glob(th + '/Prop*.v'))) for r in l]
groups = {}
for n, a in rows:
    groups.setdefault(a, []).append(n)
lines = []
for a in sorted(groups, key=lambda a: (a != 'none', a)):
    lines.append(f'* **{a}**: ' + ', '.join('`%s`' % n for n in sorted(groups[a])))
d = open(root + '/DESIGN.md').read()
i = d.index('<!-- assumptions -->'); j = d.index('<!-- end assumptions -->')
d = d[:i] + '<!-- assumptions -->\n' + '\n'.join(lines) + '\n' + d[j:]
open(root + '/DESIGN.md', 'w').write(d)
print(len(rows), 'theorems', {a: len(g) for a, g in groups.items()})
