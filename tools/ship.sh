#!/bin/bash
# Regenerates the manifest, builds, and on success commits and runs vcheck.
cd /verif/rocq || exit 1
python3 ../tools/mkmanifest.py
coq_makefile -f _CoqProject -o Makefile

if ! (ulimit -v 8000000; timeout 3000 make -j4) > /tmp/make.log 2>&1; then
  grep -v "^Closed under\|^COQ" /tmp/make.log | tail -30
  exit 1
fi

cd /verif
git add -A
git commit -qm "$1"
vcheck 2>&1 | tail -1 | cut -c1-1500 | sed 's/"library_axioms": \[[^]]*\], //'
