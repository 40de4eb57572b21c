#!/usr/bin/env python3
"""addprop.py ID title statement quantifier why anchor..."""
import sys, json, os
i,t,s,q,w=sys.argv[1:6]
p=os.path.join(os.path.dirname(__file__),'..','properties.jsonl')
ids=[json.loads(l)['id'] for l in open(p) if l.strip()]
assert i not in ids, i
open(p,'a').write(json.dumps({"id":i,"title":t,"statement":s,"quantifier":q,"why_tests_cant":w,"anchors":sys.argv[6:]})+"\n")
