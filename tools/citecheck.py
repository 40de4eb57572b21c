#!/usr/bin/env python3
"""For comments 'file.rs:a-b [name]' (or 'lines a-b [name]' under a header naming one file) check that fn name is inside a-b of the file."""
import re, glob, os
files = {}
for r, _, fs in os.walk('/repo/src'):
    for f in fs:
        if f.endswith('.rs'): files.setdefault(f, []).append(os.path.join(r, f))
bad = 0; n = 0
for v in sorted(glob.glob('/verif/rocq/theories/*.v')):
    t = open(v).read()
    hdr = re.findall(r'([\w/]+\.rs)', t[:600])
    for m in re.finditer(r'(\w+\.rs):(\d+)(?:-(\d+))?\s*(?:\[|\()(\w+)(?:\]|\))', t):
        f, a, b, name = m.group(1), int(m.group(2)), int(m.group(3) or m.group(2)), m.group(4)
        n += 1
        ok = False; where = []
        for p in files.get(f, []):
            L = open(p).read().split('\n')
            for i, l in enumerate(L, 1):
                if re.search(r'\b(fn|struct|enum)\s+%s\b' % re.escape(name), l):
                    where.append((p[10:], i)); ok = ok or a - 1 <= i <= b
        if where and not ok: bad += 1; print(os.path.basename(v), m.group(0), 'actual', where)
        if not where: print('  ?', os.path.basename(v), m.group(0), [len(files.get(f, []))])
        for p in files.get(f, [])[:1]:
            pass
print(n, 'checked', bad, 'bad')
