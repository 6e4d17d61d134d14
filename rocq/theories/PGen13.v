(* PGen13.v -- a circuit of the recursive multiplier that is misread. *)
From Coq Require Import ZArith List Bool Lia Arith.
From Verif Require Import Spec MGen SpecGen PGen5.
Import ListNotations.
Open Scope Z_scope.

Definition misread : Z := 4194309.
(* every clause is a unit or has two variables (first and second literal, or first and third) *)
Definition shape_ok (c : list bit) : bool :=
  match c with
  | [b] => negb (lit_of b =? 0)
  | [x; y; z] => negb (Z.abs (lit_of x) =? Z.abs (lit_of y))
  | _ => false
  end.
Definition units_bits (cs : list (list bit)) : list bit := flat_map (fun c => match c with [b] => [b] | _ => [] end) cs.
Definition circuit_check (o : option generated) (k : Z) : bool :=
  match o with
  | Some g => forallb shape_ok (g_cnf g) &&
      (bits_value (map (fun b => 0 <? lit_of b) (units_bits (g_cnf g))) =? k) &&
      (match g_cnf g with [BitVar x; BitVar y; NotBitVar z] :: _ => (x =? 12) && (y =? 34) && (z =? 35) | _ => false end)
  | None => false
  end.
Lemma misread_check : circuit_check (generate NBit Recursive misread) (4 * misread + 3) = true.
Proof. vm_compute. reflexivity. Qed.
