#!/usr/bin/env python3
"""Generate rocq/theories/Properties*.v from the lemma files PP*.v.

Every `Lemma p_X : stmt. Proof. ... Qed.` of PP<n>.v becomes `Theorem X : stmt. Proof. exact p_X. Qed.`
followed by `Print Assumptions X.`; the comment above the lemma is kept, and a comment block of the form
(*EX ... EX*) is copied as code (the non-vacuity examples)."""
import re,sys,glob,os
th=os.path.join(os.path.dirname(os.path.abspath(__file__)),'..','rocq','theories')
for src in sorted(glob.glob(os.path.join(th,'PP[0-9]*.v'))):
    n=os.path.basename(src)[2:-2]
    s=open(src).read()
    m=re.search(r'From Coq Require.*?\n\n',s,re.S)
    hdr=m.group(0).rstrip()
    out=['(* Properties%s.v -- generated by tools/genprops.py from PP%s.v: property theorems, their\n   assumptions, and examples showing that the hypotheses are met.  Proofs are in PP%s.v. *)'%(n,n,n),
         hdr.replace('Open Scope Z_scope.','').rstrip()+'\nFrom Verif Require Import PP%s.\nOpen Scope Z_scope.\n'%n]
    for m in re.finditer(r'((?:^\(\*(?!EX)(?:(?!\*\)).)*\*\)\n)?)^Lemma p_(\w+)(.*?\.)\nProof\.|^\(\*EX\n(.*?)EX\*\)',s,re.S|re.M):
        if m.group(4) is not None:
            out.append(m.group(4))
        else:
            out.append('%sTheorem %s%s\nProof. exact p_%s. Qed.\nPrint Assumptions %s.\n'%(m.group(1),m.group(2),m.group(3),m.group(2),m.group(2)))
    open(os.path.join(th,'Properties%s.v'%n),'w').write('\n'.join(out))
