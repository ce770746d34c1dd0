#!/bin/sh
# Extracts the model to OCaml (IEEE doubles for the abstract arithmetic) and runs it on the vectors of /repo/palTest.c.
# Needs a built ../../rocq (or ROCQ=dir).  Not part of the proofs: evidence that the transcription is faithful.
here=$(cd "$(dirname "$0")" && pwd); R=${ROCQ:-$here/../../rocq}; W=${W:-/tmp/val}; mkdir -p $W && cd $W
names=$(grep -ho "Definition pal[A-Za-z0-9_]*" $R/theories/M_*.v | awk '{print $2}' | sort -u | tr '\n' ' ')
cat > Ext.v <<X
From Coq Require Import ExtrOcamlBasic ExtrOcamlString ExtrOcamlNatInt.
From Verif Require Import Num Erfa Erfa2 M_Sphere M_Linear M_Time M_Str M_Frames M_Refr M_Place M_Kin M_Moon M_Orbit M_Misc M_Pm.
Extraction "pm.ml" MkArith $names pal1Atms pal1Atmt.
X
coqc -Q $R/theories Verif Ext.v 2>/dev/null && cp $here/driver.txt drv.ml && ocamlfind ocamlopt -w -a pm.mli pm.ml drv.ml -o drv 2>&1 | grep -v WARNING; ./drv
