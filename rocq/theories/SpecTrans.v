(* SpecTrans.v -- vocabulary of the properties about random formulas and transformations. Definitions only. *)
From Coq Require Import String Ascii ZArith List Bool Sorted Permutation.
From Verif Require Import PyBase MText MCnf MFam MTrans SpecCnf SpecFam.
Import ListNotations.
Open Scope Z_scope.

(* ---- random formulas ---- *)
(* what the random module and sets promise *)
Record lawful (R : randomness) : Prop := mkLawful {
  lw_sample : forall t l k, (k <= List.length l)%nat -> NoDup l ->
    List.length (rnd_sample R t l k) = k /\ NoDup (rnd_sample R t l k) /\ incl (rnd_sample R t l k) l;
  lw_order : forall s, Permutation (rnd_order R s) s;
  lw_clauses : forall l m, (m <= List.length l)%nat ->
    List.length (rnd_clauses R l m) = m /\ exists rest, Permutation l (rnd_clauses R l m ++ rest)
}.
(* k literals over increasing variables among x_1 .. x_n, one of them made true by each planted assignment *)
Record k_clause (k n : Z) (planted : list partial) (cls : list (bool * text)) : Prop := mkKClause {
  kc_variables : exists l, StronglySorted Z.lt l /\ (forall i, In i l -> 1 <= i <= n) /\ Z.of_nat (List.length l) = k /\
    map snd cls = map (fun i => txt "x_" ++ str_Z i) l;
  kc_planted : forall asg, In asg planted -> exists p v, In (p, v) cls /\ asg v = Some p
}.
Fixpoint binomial (n k : nat) : Z :=
  match k, n with
  | O, _ => 1
  | S _, O => 0
  | S k', S n' => binomial n' k' + binomial n' k
  end.

(* ---- substitutions ---- *)
(* the i-th of the variables that replace v: prefix{v}^i *)
Definition new_variable (prefix v : text) (i : Z) : text := prefix ++ txt "{" ++ v ++ txt "}^" ++ str_Z i.
(* F replaces every variable v of the formula by the condition P on prefix{v}^0 .. prefix{v}^(rank-1): the assignments
   that satisfy F are those whose values, read through P, satisfy the formula *)
Record replaced_by (c : cnf) (prefix : text) (rank : Z) (P : (Z -> bool) -> Prop) (F : cnf) : Prop := mkReplaced {
  rb_made : made F;
  rb_names : forall w, In w (cn_names F) -> exists v i, In v (cn_names c) /\ 0 <= i < rank /\ w = new_variable prefix v i;
  rb_meaning : forall a f, (forall v, In v (cn_names c) -> (f v = true <-> P (fun i => a (new_variable prefix v i)))) ->
    (all_hold a (cnf_clauses F) <-> all_hold f (cnf_clauses c))
}.
(* and it can be undone: every new variable is there, and F has a model exactly when the formula has *)
Record faithful (c : cnf) (prefix : text) (rank : Z) (F : cnf) : Prop := mkFaithful {
  fa_names : forall v i, In v (cn_names c) -> 0 <= i < rank -> In (new_variable prefix v i) (cn_names F);
  fa_count : Z.of_nat (List.length (cn_names F)) = rank * Z.of_nat (List.length (cn_names c));
  fa_models : has_model (cnf_clauses F) <-> has_model (cnf_clauses c)
}.
(* how many of x 0 .. x (rank-1) are true *)
Definition trues (rank : Z) (x : Z -> bool) : Z := how_many x (range 0 rank).
(* the names Y_{u}; what the edges of the right vertex r say: an odd number, or at least half, of the Y_{u} with u
   adjacent to r are true *)
Definition compressed_variable (u : Z) : text := txt "Y_{" ++ str_Z u ++ txt "}".
Definition compressed_true (majority : bool) (b : bipartite) (a : text -> bool) (r : Z) : Prop :=
  let around := map fst (filter (fun e => snd e =? r) (b_edges b)) in
  let n := how_many (fun u => a (compressed_variable u)) around in
  if majority then Z.of_nat (List.length around) <= 2 * n else Z.Odd n.
(* the positive selector of a lifted variable *)
Definition selects (a : text -> bool) (rank : Z) (v : text) (s : Z) : Prop :=
  0 <= s < rank /\ forall i, 0 <= i < rank -> (a (new_variable (txt "Y_") v i) = true <-> i = s).

(* ---- shuffles ---- *)
(* the literal l with its polarity changed when the entry of its variable is -1 *)
Definition flipped (c : cnf) (flip : list Z) (l l' : bool * text) : Prop :=
  snd l' = snd l /\ exists i x, nth_error (cn_names c) i = Some (snd l) /\ nth_error flip i = Some x /\ (fst l' = fst l <-> x = 1).
