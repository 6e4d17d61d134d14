(* SpecGen.v -- vocabulary for the properties of the benchmark generator.  Definitions only; of the model
   only the type of bits is used (to relate printed bits to the integers of a formula). *)
From Coq Require Import String Ascii ZArith List.
From Verif Require Import Spec SpecInput PyBase MGen.
Import ListNotations.
Open Scope Z_scope.

Definition composite (n : Z) : Prop := exists p q, 1 < p /\ 1 < q /\ n = p * q.

(* number of binary digits, and the sizes the generator gives to the two factors of n *)
Definition bit_length (n : Z) : Z := Z.log2 n + 1.
Definition first_bits (n : Z) : Z := bit_length n - 1.
Definition second_bits (n : Z) : Z := (bit_length n + 1) / 2.

(* a literal as the generator holds it *)
Definition literal (l : Z) : bit := if l <? 0 then NotBitVar (- l) else BitVar l.

(* all multipliers, except the recursive one for numbers of more than 40 binary digits, or of an odd number of
   digits above 21 *)
Definition array_sized (m : multiplier_arg) (n : Z) : Prop :=
  m = Recursive -> bit_length n <= 21 \/ (Z.even (bit_length n) = true /\ bit_length n <= 40).

(* the header of a generated file: a list in brackets, truth values, the names of the circuits *)
Definition listed (items : list text) : text := txt "[" ++ separated ","%char items ++ txt "]".
Definition truth (b : bool) : text := txt (if b then "True" else "False").
Definition circuit_name (a : adder_arg) (m : multiplier_arg) : text :=
  txt (match m with CarrySave => "carry-save" | Wallace => "wallace" | Recursive => "recursive" end) ++
  txt (match a with NBit => "[n-bit]" | Fast => "[fast]" end).
