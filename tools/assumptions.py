#!/usr/bin/env python3
"""Runs coqc on every P_*.v and writes what Print Assumptions lists for each
theorem to ASSUMPTIONS.md.  Needs a built tree in rocq/."""
import glob, os, re, subprocess
here = os.path.dirname(os.path.dirname(os.path.abspath(__file__)))
th = os.path.join(here, 'rocq', 'theories')
groups = {}
total = 0
os.makedirs('/tmp/as', exist_ok=True)
for f in sorted(glob.glob(os.path.join(th, 'P_*.v'))):
    src = open(f).read()
    names = re.findall(r'^Print Assumptions (\w+)\.', src, re.M)
    thms = re.findall(r'^Theorem (\w+)', src, re.M)
    assert set(thms) == set(names), (f, set(thms) ^ set(names))
    out = subprocess.run(['coqc', '-Q', th, 'Verif', '-o', '/tmp/as/' + os.path.basename(f) + 'o', f], capture_output=True, text=True, check=False)
    text = out.stdout
    blocks = re.split(r'^(?=Axioms:|Closed under the global context)', text, flags=re.M)[1:]
    assert len(blocks) == len(names), (f, len(blocks), len(names), out.stderr)
    for n, b in zip(names, blocks):
        ax = tuple(sorted(set(re.findall(r'^([A-Z][\w.]*\.[\w]+)(?=\s*(?::|$))', b, re.M))))
        assert b.startswith('Closed') or ax
        groups.setdefault(ax, []).append(n)
        total += 1
with open(os.path.join(here, 'ASSUMPTIONS.md'), 'w') as w:
    w.write('# What `Print Assumptions` lists\n\nWritten by tools/assumptions.py; %d theorems.\n' % total)
    for ax in sorted(groups, key=lambda a: (len(a), a)):
        w.write('\n## ' + (', '.join('`%s`' % a for a in ax) if ax else 'Closed under the global context') + '\n\n')
        for n in sorted(groups[ax]):
            w.write('- %s\n' % n)
