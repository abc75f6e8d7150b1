#!/usr/bin/env python3
"""Print Assumptions of every property theorem -> section 6 of DESIGN.md (run after a build)."""
import glob, os, re, subprocess, tempfile
ROOT = os.path.dirname(os.path.dirname(os.path.abspath(__file__)))
TH = os.path.join(ROOT, 'rocq', 'theories')
thms, mods = [], []
for f in sorted(glob.glob(TH + '/*_Props.v')):
    mod = os.path.basename(f)[:-2]
    mods.append(mod)
    for n in re.findall(r'^Theorem\s+(C\d+_[\w\']+)', open(f).read(), re.M):
        thms.append((n, mod))
src = ''.join(f'From Verif Require {m}.\n' for m in mods)
for n, m in thms:
    src += f'Goal True. idtac "@@ {n}". exact I. Qed.\nPrint Assumptions {m}.{n}.\n'
d = tempfile.mkdtemp()
open(d + '/t.v', 'w').write(src)
out = subprocess.run(['coqc', '-Q', TH, 'Verif', d + '/t.v'], capture_output=True, text=True)
assert out.returncode == 0, out.stderr[-2000:]
res = {}
for part in out.stdout.split('@@ ')[1:]:
    name, _, body = part.partition('\n')
    ax = [] if 'Closed under the global context' in body else re.findall(r'^([\w.]+)\s*(?::|$)', body.split('Axioms:')[1], re.M)
    res[name.strip()] = tuple(a for a in ax if a)
groups = {}
for n, a in res.items(): groups.setdefault(a, []).append(n)
key = lambda n: (int(re.match(r'C(\d+)', n).group(1)), n)
text = f'{len(res)} theorems (generated by `tools/assumptions.py`).\n\n'
for a, ns in sorted(groups.items(), key=lambda kv: len(kv[0])):
    if not a:
        text += '**Closed under the global context** (no axioms):\n'
    else:
        text += 'Axioms of the standard library: ' + ', '.join(f'`{x}`' for x in a) + ':\n'
    text += ', '.join(f'`{n}`' for n in sorted(ns, key=key)) + '.\n\n'
p = os.path.join(ROOT, 'DESIGN.md')
s = open(p).read()
b, e = '<!-- assumptions -->\n', '<!-- /assumptions -->'
i, j = s.index(b) + len(b), s.index(e)
open(p, 'w').write(s[:i] + text + s[j:])
print({a: len(ns) for a, ns in groups.items()})
