#!/usr/bin/env python3
"""Generate rocq/theories/Prop<X>.v from rocq/theories/<X>Facts.v.

In a Facts file every property lemma is named P_Cnn_...; its statement (self-contained, outside of any
section) is copied verbatim into the Prop file as `Theorem Cnn_...`, closed by `exact`, with
`Print Assumptions` beneath.  `Example`s and section comments `(** ** ...` are copied, too."""
import re, sys, os, glob
TH = os.path.join(os.path.dirname(__file__), '..', 'rocq', 'theories')

def gen(path):
    src = open(path).read()
    base = os.path.basename(path)[:-len('Facts.v')]
    out = []
    header = re.search(r'\(\*\*.*?\*\)', src, re.S).group(0)
    out.append(header)
    for m in re.finditer(r'^(From Coq Require Import .*?\.)$|^From Verif Require Import (.*?)\.\n', src, re.M | re.S):
        out.append(m.group(1) or 'From Verif Require Import ' + ' '.join(m.group(2).split()) + ' ' + base + 'Facts.')
    out.append('Open Scope R_scope.\n' if 'Open Scope R_scope' in src else '')
    pat = re.compile(r'^(\(\*\* \*\* .*?\*\)|(?:\(\*\* [^*](?:(?!\*\)).)*\*\)\n)?Lemma P_(C\d\d\w*)\s*:(.*?)\nProof\.|Example (.*?)\nProof\..*?Qed\.)', re.S | re.M)
    for m in pat.finditer(src, src.index('From Verif')):
        if m.group(1).startswith('(** **'):
            if 'Specification' not in m.group(1): out.append('\n' + m.group(1))
        elif m.group(2):
            name, stmt = m.group(2), m.group(3)
            doc = re.match(r'(\(\*\* [^*].*?\*\)\n)?', m.group(1), re.S).group(0)
            out.append(f'\n{doc}Theorem {name} :{stmt}\nProof. exact P_{name}. Qed.\nPrint Assumptions {name}.')
        else:
            out.append('\n' + m.group(1))
    open(os.path.join(TH, 'Prop' + base + '.v'), 'w').write('\n'.join(out) + '\n')

for f in sorted(glob.glob(os.path.join(TH, '*Facts.v'))):
    gen(f)
# _CoqProject: dependency order does not matter for coq_makefile
proj = os.path.join(TH, '..', '_CoqProject')
files = sorted(os.path.basename(f) for f in glob.glob(os.path.join(TH, '*.v')))
open(proj, 'w').write('-Q theories Verif\n' + ''.join(f'theories/{f}\n' for f in files))
