#!/usr/bin/env python3
"""Seeded-bug runner.  usage: seed.py muts.json [first [last]]
Each mutation: {"file","old","new","definition","claim"}.  Works in /tmp/seed/w (a copy of rocq/ with its build output),
never in /verif.  Prints, per mutation, the lemmas at which the build stops."""
import json, os, re, shutil, subprocess, sys
W = '/tmp/seed/w'
SRC = os.environ.get('SEED_SRC', '/verif/rocq')
def sync():
    subprocess.run(['rsync', '-a', '--delete', SRC + '/', W + '/'], check=True) if shutil.which('rsync') else (shutil.rmtree(W, ignore_errors=True), subprocess.run(['cp', '-a', SRC, W], check=True))
def lemma_at(f, line):
    L = open(os.path.join(W, f)).read().split('\n')
    for i in range(line - 1, -1, -1):
        m = re.match(r'\s*(?:Local\s+|#\[[^\]]*\]\s*)?(Lemma|Theorem|Example|Corollary|Definition|Fixpoint|Fact|Remark)\s+([\w\']+)', L[i])
        if m: return m.group(2)
    return '?'
def main():
    muts = json.load(open(sys.argv[1]))
    a = int(sys.argv[2]) if len(sys.argv) > 2 else 0
    b = int(sys.argv[3]) if len(sys.argv) > 3 else len(muts)
    out = []
    for k in range(a, min(b, len(muts))):
        m = muts[k]
        sync()
        p = os.path.join(W, 'theories', m['file'])
        s = open(p).read()
        n = s.count(m['old'])
        if n != 1:
            print(k, 'EDIT MATCHES', n, m['file'], m['old'][:60]); continue
        open(p, 'w').write(s.replace(m['old'], m['new']))
        r = subprocess.run(['make', '-k', '-j4'], cwd=W, capture_output=True, text=True)
        txt = r.stdout + r.stderr
        fails = []
        for mm in re.finditer(r'File "\./(theories/\w+\.v)", line (\d+), characters[^\n]*\n(?:.*\n)*?Error', txt):
            pass
        for mm in re.finditer(r'File "\./(theories/\w+\.v)", line (\d+), characters [^\n]*:\n(Warning|Error|[^F]*?Error)', txt):
            if mm.group(3).startswith('Warning'): continue
            fails.append(mm.group(1)[9:-2] + '.' + lemma_at(mm.group(1), int(mm.group(2))))
        missing = re.findall(r"No rule to make target|\[Makefile[^\]]*: (theories/\w+)\.vo\]", txt)
        fails = sorted(set(fails))
        print(k, m['file'], '|', m['definition'], '|', m['edit'] if 'edit' in m else m['new'][:60], '=>', fails or 'SURVIVED', flush=True)
        out.append((k, fails))
if __name__ == '__main__': main()
