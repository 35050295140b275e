#!/usr/bin/env python3
"""Regenerates rocq/theories/Assumptions.v: one term that mentions every property theorem, and Print Assumptions of it.
   With -each, writes a file to stdout that prints the assumptions of each theorem separately (takes 4 minutes)."""
import re, sys
R='/verif/rocq/'
T=[]
for f in open(R+'_CoqProject'):
    f=f.strip()
    if f.endswith('.v') and 'Assumptions' not in f: T+=re.findall(r'^(?:Theorem|Lemma) (C\d\d_\w+)',open(R+f).read(),re.M)
T.sort()
head='From Verif Require Import Witness6 Witness7 Witness8 Witness9 Witness10 Witness11 Witness12 Witness13 Witness14 Witness15 Witness16 Witness17.\n'
if '-each' in sys.argv:
    print(head+''.join(f'Print Assumptions {t}.\n' for t in T))
else:
    open(R+'theories/Assumptions.v','w').write('''(** * Assumptions.v -- what the theorems rest on (generated by tools/assumptions.py)

    Compiling this file prints the axioms used by the proofs of all property theorems together. *)
'''+head+'Definition all_theorems : True :=\n'+''.join(f'  let _ := @{t} in\n' for t in T)+'  I.\nPrint Assumptions all_theorems.\n')
    print(len(T),'theorems')
