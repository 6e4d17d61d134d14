(* SpecFloat.v -- what tools/factorize.py is asked for and prints *)
From Coq Require Import String Ascii ZArith List Bool Znumtheory.
From Verif Require Import PyBase MText.
Import ListNotations.
Open Scope Z_scope.

(* an odd prime divisor than which no other is smaller *)
Definition least_odd_prime_divisor (x f : Z) : Prop :=
  prime f /\ f <> 2 /\ (f | x) /\ forall p, prime p -> p <> 2 -> (p | x) -> f <= p.
(* a divisor that the search is for: odd, at least 3, at most the root *)
Definition in_reach (x d : Z) : Prop := Z.odd d = true /\ 3 <= d /\ d * d <= x /\ (d | x).
Definition composite (x : Z) : Prop := exists a b, 1 < a /\ 1 < b /\ x = a * b.
(* the first line of the output *)
Definition product_line (x f g : Z) (verified : bool) : list ascii :=
  str_Z x ++ txt " = " ++ str_Z f ++ txt " x " ++ str_Z g ++ txt " .. verified = " ++ (if verified then txt "True" else txt "False").
