#!/usr/bin/env python3
"""Collect what [Print Assumptions] says for every theorem of the P*.v files of a built rocq/ directory and
write it into section 6 of DESIGN.md.  usage: assumptions.py ROCQ_DIR"""
import glob, os, re, subprocess, sys, tempfile
d = os.path.abspath(sys.argv[1])
top = os.path.dirname(os.path.dirname(os.path.abspath(__file__)))
groups, kinds = {}, {}
for f in sorted(glob.glob(d + '/theories/P*.v')):
    n = os.path.basename(f)[:-2]
    names = re.findall(r'^Theorem (\w+)', open(f).read(), re.M)
    q = 'From Verif Require Import %s.\n' % n
    q += ''.join('Goal True. idtac "@@%s". exact I. Qed.\nPrint Assumptions %s.\n' % (x, x) for x in names)
    with tempfile.TemporaryDirectory() as t:
        open(t + '/q.v', 'w').write(q)
        r = subprocess.run(['coqc', '-Q', d + '/theories', 'Verif', t + '/q.v'], capture_output=True, text=True)
    got = re.findall(r'@@(\w+)\n(.*?)(?=@@|\Z)', r.stdout, re.S)
    assert [x for x, _ in got] == names, (n, r.stderr)
    for x, a in got:
        ax = tuple(sorted(x for x in re.findall(r'^([\w.]+)\s*:', a, re.M) if x != 'Axioms'))
        groups.setdefault(ax, []).append(x)
key = lambda x: (int(re.match(r'C(\d+)', x).group(1)), x) if re.match(r'C(\d+)', x) else (999, x)
out = ['<!-- assumptions -->', '', 'Generated by `tools/assumptions.py` from the built theories.', '']
for ax in sorted(groups, key=lambda a: (len(a), a)):
    out.append('**%s** (%d theorems):' % ('Closed under the global context (no axioms)' if not ax else 'Axioms ' + ', '.join('`%s`' % x for x in ax), len(groups[ax])))
    out.append('')
    out.append(', '.join('`%s`' % x for x in sorted(groups[ax], key=key)) + '.')
    out.append('')
p = top + '/DESIGN.md'
s = open(p).read()
open(p, 'w').write(s[:s.index('<!-- assumptions -->')] + '\n'.join(out))
