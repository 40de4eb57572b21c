#!/usr/bin/env python3
"""seedlog.py muts.json out.txt verdicts.json: append one JSON line per mutation to seeded/LOG.jsonl.
verdicts: {index: {"theorems": [...property theorems whose statement is false of the edited program...], "tightened": [...], "note": "..."}}"""
import json, re, sys
muts = json.load(open(sys.argv[1])); ver = json.load(open(sys.argv[3]))
txt = open(sys.argv[2]).read()
fails = {}
for m in re.finditer(r"^(\d+) .*?=> (\[.*?\]|SURVIVED)\s*$", txt, re.M | re.S):
    fails.setdefault(int(m.group(1)), m.group(2))
with open('/verif/seeded/LOG.jsonl', 'a') as o:
    for k, m in enumerate(muts):
        v = ver.get(str(k), {})
        f = fails.get(k, '?')
        lem = [] if f in ('SURVIVED', '?') else eval(f)
        rec = {"file": m['file'], "definition": m['definition'], "edit": {"old": m['old'], "new": m['new']}, "claim": m['claim'],
               "outcome": 'survived' if f == 'SURVIVED' else ('build fails' if lem else 'not run'),
               "build_stops_at": lem, "theorems_failed": v.get('theorems', []), "theorems_tightened": v.get('tightened', [])}
        if v.get('note'): rec['note'] = v['note']
        o.write(json.dumps(rec) + '\n')
