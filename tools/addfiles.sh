#!/bin/sh
# addfiles.sh Name...: lists theories in _CoqProject
cd "$(dirname "$0")/../rocq"
for f in "$@"; do grep -q "^theories/$f.v$" _CoqProject || echo "theories/$f.v" >> _CoqProject; done
