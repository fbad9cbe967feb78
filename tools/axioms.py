#!/usr/bin/env python3
"""Print, for every theorem of the *Props.v files, the axioms it depends on (needs a built tree)."""
import re, subprocess, os, glob, collections
root = '/verif/rocq'
files = [l.strip() for l in open(root + '/_CoqProject') if l.strip().endswith('Props.v')]
by = collections.OrderedDict()
for f in files:
    mod = os.path.basename(f)[:-2]
    names = re.findall(r'^Theorem (C\d\d\w*)', open(root + '/' + f).read(), re.M)
    src = 'From Verif Require Import %s.\n' % mod
    for n in names:
        src += 'Goal True. idtac "@@ %s". exact I. Qed.\nPrint Assumptions %s.%s.\n' % (n, mod, n)
    open('/tmp/ax.v', 'w').write(src)
    out = subprocess.run(['coqc', '-Q', root + '/theories', 'Verif', '/tmp/ax.v'], capture_output=True, text=True).stdout
    for blk in out.split('@@ ')[1:]:
        n, _, rest = blk.partition('\n')
        if 'Closed under the global context' in rest:
            ax = ()
        else:
            ax = tuple(sorted(set(re.findall(r'^([\w.]+)\s*(?::|$)', rest, re.M)) - {'Axioms'}))
        by.setdefault(ax, []).append(n.strip())
for ax, ns in by.items():
    print('%s: %s\n' % (', '.join(ax) or 'closed under the global context', ', '.join(ns)))
import sys
if '--design' in sys.argv:
    d = open('/verif/DESIGN.md').read()
    a, b = '<!-- axioms:begin -->', '<!-- axioms:end -->'
    body = ''.join('* %s: %s\n' % (', '.join('`%s`' % x for x in ax) or 'closed under the global context',
                                   ', '.join(ns)) for ax, ns in by.items())
    d = d[:d.index(a) + len(a)] + '\n' + body + d[d.index(b):]
    open('/verif/DESIGN.md', 'w').write(d)
