#!/usr/bin/env python3
"""After a build: print, for every theorem Cnn_* in rocq/theories/P_*.v, what Print Assumptions lists.
Output: a markdown section, grouped by the set of axioms; pasted into DESIGN.md by --write."""
import re, subprocess, sys, pathlib, tempfile, collections
root = pathlib.Path(__file__).resolve().parent.parent
th = root / 'rocq' / 'theories'
thms = []
for f in sorted(th.glob('P_*.v')):
    for m in re.finditer(r'^ *Theorem (C\d\d_\w+)', f.read_text(), re.M):
        thms.append((f.stem, m.group(1)))
with tempfile.TemporaryDirectory() as d:
    v = pathlib.Path(d) / 'A.v'
    v.write_text('From Verif Require %s.\n' % ' '.join(sorted({m for m, _ in thms})) +
                 ''.join('Eval compute in tt.\nPrint Assumptions Verif.%s.%s.\n' % t for t in thms))
    out = subprocess.run(['coqc', '-Q', str(th), 'Verif', str(v)], capture_output=True, text=True, cwd=d)
assert out.returncode == 0, out.stderr
parts = re.split(r'^\s*= tt\n\s*: unit\n', out.stdout, flags=re.M)[1:]
assert len(parts) == len(thms), (len(parts), len(thms))
groups = collections.defaultdict(list)
for (m, n), p in zip(thms, parts):
    ax = tuple(sorted(set(re.findall(r'^([A-Za-z_][\w.]*)(?= *:|\s*$)', p, re.M)) - {'Axioms', 'Closed'}))
    if 'Closed under the global context' in p: ax = ()
    else: assert ax, (n, p)
    groups[ax].append(n)
lines = []
for ax in sorted(groups, key=len):
    lines.append('**%s** (%d theorems):' % (', '.join('`%s`' % a for a in ax) or 'no axioms (closed under the global context)', len(groups[ax])))
    lines.append('')
    lines.append(', '.join(sorted(groups[ax])) + '.')
    lines.append('')
text = '\n'.join(lines)
if '--write' in sys.argv:
    p = root / 'DESIGN.md'
    s = p.read_text()
    b, e = '<!-- assumptions -->\n', '<!-- end assumptions -->'
    i, j = s.index(b) + len(b), s.index(e)
    p.write_text(s[:i] + text + s[j:])
else:
    print(text)
