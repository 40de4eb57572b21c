#!/usr/bin/env python3
"""Print Assumptions of every theorem in MANIFEST.json -> ASSUMPTIONS.md (needs a built rocq/)."""
import json, re, subprocess, os, glob
R = '/verif/rocq'
where = {}
for f in glob.glob(R + '/theories/Prop*.v'):
    for m in re.finditer(r'^(?:Theorem|Lemma|Example)\s+([\w\']+)', open(f).read(), re.M): where[m.group(1)] = os.path.basename(f)[:-2]
cl = json.load(open('/verif/MANIFEST.json'))['claims']
names = [(c['property'], t) for c in cl for t in c['theorems']]
src = 'From Verif Require %s.\n' % ' '.join(sorted(set(where[t] for _, t in names)))
for _, t in names: src += 'Goal True. idtac "@@ %s". exact I. Qed.\nPrint Assumptions %s.%s.\n' % (t, where[t], t)
os.makedirs('/tmp/asm', exist_ok=True); open('/tmp/asm/a.v', 'w').write(src)
out = subprocess.run(['coqc', '-Q', R + '/theories', 'Verif', 'a.v'], cwd='/tmp/asm', capture_output=True, text=True)
assert out.returncode == 0, out.stderr[-2000:]
res, cur = {}, None
for line in out.stdout.split('\n'):
    m = re.match(r'@@ (\S+)', line)
    if m: cur = m.group(1); res[cur] = []; continue
    m = re.match(r'([A-Za-z_][\w\'.]*)\s*(:|$)', line)
    if m and cur and not line.startswith(('Axioms', 'Closed')): res[cur].append(m.group(1))
groups = {}
for p, t in names: groups.setdefault(tuple(sorted(set(res[t]))), []).append((p, t))
with open('/verif/ASSUMPTIONS.md', 'w') as f:
    f.write('# What `Print Assumptions` lists\n\nGenerated by tools/assumptions.py from the built development; every theorem of MANIFEST.json is in exactly one group.  All of the names are declared in Coq\'s standard library.\n')
    for k in sorted(groups, key=lambda k: (len(k), k)):
        f.write('\n## %s\n\n' % (', '.join('`%s`' % x for x in k) or 'closed under the global context (no axiom)'))
        f.write(', '.join(t for _, t in groups[k]) + '\n')
print({k: len(v) for k, v in groups.items()})
