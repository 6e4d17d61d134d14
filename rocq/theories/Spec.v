(* Spec.v -- what the properties talk about, independently of the model.

   A literal is an integer: v stands for "variable v is true", -v for "variable v is false"
   (the single-line format does not exclude 0, which the program treats as a positive
   occurrence of a variable named 0).  Nothing in this file refers to the model. *)
From Coq Require Import ZArith List Bool Sorted Permutation.
Import ListNotations.
Open Scope Z_scope.

Definition assignment := Z -> bool.

(* truth value of a literal *)
Definition lit_true (a : assignment) (l : Z) : bool :=
  if l <? 0 then negb (a (- l)) else a l.

(* a clause (list of literals) is a disjunction, a formula (list of clauses) a conjunction *)
Definition clause_true (a : assignment) (c : list Z) : Prop :=
  exists l, In l c /\ lit_true a l = true.

Definition cnf_true (a : assignment) (F : list (list Z)) : Prop :=
  forall c, In c F -> clause_true a c.

Definition satisfiable (F : list (list Z)) : Prop := exists a, cnf_true a F.

(* an assignment extends a partial assignment given as a finite list of (variable, value) *)
Definition extends (a : assignment) (d : list (Z * bool)) : Prop :=
  forall v b, In (v, b) d -> a v = b.

Definition cvars (c : list Z) : list Z := map Z.abs c.
Definition fvars (F : list (list Z)) : list Z := concat (map cvars F).

(* a clause over pairwise different variables: no repeated and no complementary literal *)
Definition distinct_vars (c : list Z) : Prop := NoDup (cvars c).

(* a clause containing some variable both positively and negatively *)
Definition complementary (c : list Z) : Prop := exists v, v <> 0 /\ In v c /\ In (- v) c.

(* literals in ascending order of variable *)
Definition sorted_clause (c : list Z) : Prop := StronglySorted Z.le (cvars c).

(* renaming of the variables of a literal / a clause, keeping signs *)
Definition rename_lit (f : Z -> Z) (l : Z) : Z := if l <? 0 then - f (- l) else f l.

Definition injective_on (f : Z -> Z) (xs : list Z) : Prop :=
  forall x y, In x xs -> In y xs -> f x = f y -> x = y.

(* [G] is [F] up to renaming of variables by f, reordering of clauses and reordering of literals
   inside clauses; multiplicities are kept. *)
Definition same_up_to_renaming (f : Z -> Z) (F G : list (list Z)) : Prop :=
  exists F', Permutation F F' /\
             Forall2 (fun c d => Permutation (map (rename_lit f) c) d) F' G.

(* ---- linear-order conditions, as documented in Set.py:195-204 ---- *)

(* variable occurrences of the formula from left to right *)
Definition occurrences (F : list (list Z)) : list Z := fvars F.

(* condition 3: a variable occurring for the first time is greater than all before it *)
Definition new_vars_ascend (F : list (list Z)) : Prop :=
  forall p v q, occurrences F = p ++ v :: q -> ~ In v p -> forall u, In u p -> u < v.

(* condition 5: the leftmost variable is at most 1 *)
Definition starts_low (F : list (list Z)) : Prop :=
  forall v q, occurrences F = v :: q -> v <= 1.

(* condition 2 as implemented: leading variables do not decrease *)
Definition leading (c : list Z) : Z := match c with [] => 0 | l :: _ => Z.abs l end.
Definition leading_ascend (F : list (list Z)) : Prop := StronglySorted Z.le (map leading F).

(* ---- directed graphs given by a finite successor map ---- *)
Section Graph.
  Context {A : Type} (succ : A -> list A).
  Inductive reaches : A -> A -> Prop :=
  | reaches_refl : forall x, reaches x x
  | reaches_step : forall x y z, reaches x y -> In z (succ y) -> reaches x z.
End Graph.

(* value of a list of bits, least significant first *)
Fixpoint bits_value (bs : list bool) : Z :=
  match bs with [] => 0 | b :: t => (if b then 1 else 0) + 2 * bits_value t end.

(* the number encoded by variables vs, least significant bit first *)
Definition value_of (a : assignment) (vs : list Z) : Z := bits_value (map a vs).

(* literals of the unit clauses, in order; the other clauses *)
Definition unit_literals (F : list (list Z)) : list Z :=
  flat_map (fun c => match c with [l] => [l] | _ => [] end) F.
Definition non_units (F : list (list Z)) : list (list Z) :=
  filter (fun c => negb (List.length c =? 1)%nat) F.

(* the distinct elements of a list in order of first occurrence *)
Fixpoint first_occurrences (l : list Z) : list Z :=
  match l with
  | [] => []
  | x :: t => x :: filter (fun y => negb (y =? x)) (first_occurrences t)
  end.
(* 1, 2, ..., n *)
Definition one_to (n : nat) : list Z := map Z.of_nat (seq 1 n).
(* k+1, ..., k+n *)
Definition next_vars (k n : Z) : list Z := map (fun i => k + Z.of_nat i) (seq 1 (Z.to_nat n)).

(* ---- restriction of a formula by the value of one variable (cofactor) ---- *)
Definition made_true (v : Z) (b : bool) (l : Z) : bool :=
  (Z.abs l =? v) && (if l <? 0 then negb b else b).
(* clauses made true are dropped, the remaining literals of v are removed; a clause all of whose
   literals are removed stays as the empty clause *)
Definition restrict (v : Z) (b : bool) (F : list (list Z)) : list (list Z) :=
  map (filter (fun l => negb (Z.abs l =? v)))
      (filter (fun c => negb (existsb (made_true v b) c)) F).
Definition nonempty (c : list Z) : bool := match c with [] => false | _ => true end.

(* ---- restriction by a partial assignment (finite list of (variable, value)) ---- *)
Definition assigned_by (d : list (Z * bool)) (l : Z) : bool :=
  existsb (fun kv => fst kv =? Z.abs l) d.
Definition satisfied_by (d : list (Z * bool)) (l : Z) : bool :=
  existsb (fun kv => (fst kv =? Z.abs l) && Bool.eqb (snd kv) (0 <? l)) d.
Definition restrict_all (d : list (Z * bool)) (F : list (list Z)) : list (list Z) :=
  map (filter (fun l => negb (assigned_by d l)))
      (filter (fun c => negb (existsb (satisfied_by d) c)) F).

(* order on literals: by variable, the positive literal before the negative one *)
Definition lit_before (x y : Z) : Prop :=
  Z.abs x < Z.abs y \/ (Z.abs x = Z.abs y /\ 0 < x /\ y < 0).
