#!/bin/bash
# regenerate the Makefile and build everything
cd "$(dirname "$0")" && coq_makefile -f _CoqProject -o Makefile && make -j4 "$@"
