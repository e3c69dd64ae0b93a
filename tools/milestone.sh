#!/bin/sh
# Rebuild, refresh generated sections, commit and check.  usage: milestone.sh "message"
# Stops before the commit if a tracked source has disappeared or a property has lost its theorems.
cd /verif || exit 1
gone=$(git ls-files --deleted)
[ -z "$gone" ] || { echo "deleted files: $gone"; exit 1; }
python3 tools/project.py | tee /tmp/project.out
grep -q "^missing: \[\]" /tmp/project.out || { echo "a property has no theorem"; exit 1; }
cd rocq && coq_makefile -f _CoqProject -o Makefile >/dev/null && make -j4 2>&1 | grep -i -A8 "^Error\|Error:" 
python3 ../tools/project.py --axioms; cd .. && git add -A && git commit -qm "$1"; vcheck | tail -12
