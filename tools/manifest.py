#!/usr/bin/env python3
"""Write MANIFEST.json: theorems are collected from rocq/theories/Prop*.v by their Cnn prefix; status and notes
come from tools/notes.json ({"C01": ["proved", "note"], ...}); properties without theorems are left out."""
import re, os, glob, json
R = os.path.join(os.path.dirname(os.path.abspath(__file__)), '..')
th = {}
for f in sorted(glob.glob(os.path.join(R, 'rocq/theories/Prop*.v'))):
    for m in re.finditer(r'^Theorem ((C\d+)_\w+)', open(f).read(), re.M):
        th.setdefault(m.group(2), []).append(m.group(1))
notes = json.load(open(os.path.join(R, 'tools/notes.json')))
ids = [json.loads(l)['id'] for l in open(os.path.join(R, 'properties.jsonl'))]
claims = []
for i in ids:
    if i in th:
        st, note = notes.get(i, ['partial', 'TODO'])
        if i not in notes: print('no note for', i)
        claims.append({'property': i, 'status': st, 'theorems': th[i], 'note': note})
    else:
        print('no theorem for', i)
json.dump({'claims': claims}, open(os.path.join(R, 'MANIFEST.json'), 'w'), indent=1)
