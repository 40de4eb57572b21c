#!/bin/sh
# milestone: regenerate, build, commit, vcheck
cd /verif && python3 tools/genprops.py && python3 tools/manifest.py | tr '\n' ' ' && cd rocq && coq_makefile -f _CoqProject -o Makefile && make -j4 > /tmp/build.log 2>&1 || { grep -B2 -A12 Error /tmp/build.log | head -40; exit 1; }
cd /verif && git add -A && git commit -qm "$1" && vcheck 2>&1 | tail -1 | sed 's/"library_axioms": \[[^]]*\], //'
