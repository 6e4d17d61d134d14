(* SpecStack.v -- terms used in the properties about the recursion limit. *)
From Coq Require Import ZArith List.
Import ListNotations.

(* x1 & x2 & ... & xn *)
Definition unit_clauses (n : nat) : list (list Z) := map (fun i => [Z.of_nat i]) (seq 1 n).
