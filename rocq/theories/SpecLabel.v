(* SpecLabel.v -- vocabulary of the properties about the labels of the drawn graph (C97).  Definitions only. *)
From Coq Require Import String Ascii ZArith List Bool Permutation.
From Verif Require Import Spec PyBase MSet MSolver SpecRun SpecThief SpecReport.
Import ListNotations.
Open Scope Z_scope.

(* what a label tells: the clauses with their numbers; for each variable of the clauses a name (the first one is that of
   variable 1); for each name an input variable; the values given to input variables on the way here; a literal *)
Record shown := mkShown {
  sh_formula : list (list Z * Z);
  sh_names : list Z;
  sh_origin : list (Z * Z);
  sh_path : list (Z * bool);
  sh_most : Z
}.

(* how it is written *)
Definition line_end : text := ["092"%char; "n"%char].
Definition shown_clause (c : list Z * Z) : text :=
  txt "(" ++ join (txt " | ") (map str_Z (fst c)) ++ txt ")[" ++ str_Z (snd c) ++ txt "]".
Definition shown_formula (cs : list (list Z * Z)) : text := join (txt " & ") (map shown_clause cs).
Definition shown_pair (p : Z * Z) : text := str_Z (fst p) ++ txt ": " ++ str_Z (snd p).
Definition label_text (sh : shown) : text :=
  shown_formula (sh_formula sh) ++ line_end ++
  txt "fnm = [" ++ join (txt ", ") (map str_Z (sh_names sh)) ++ txt "]" ++ line_end ++
  txt "ov = {" ++ join (txt ", ") (map shown_pair (sh_origin sh)) ++ txt "}" ++ line_end ++
  txt "sol = " ++ shown_solution (sh_path sh) ++ txt ", highest occuring var = " ++ str_Z (sh_most sh).

Definition lits_of (sh : shown) : list (list Z) := map fst (sh_formula sh).
(* the clauses of a set and their numbers *)
Definition numbered_clauses (cs : list clause) : list (list Z * Z) := map (fun c => (raw c, initial_index c)) cs.

(* the input variable behind variable v of the label *)
Definition origin_of (sh : shown) (v : Z) : option Z :=
  match nth_error (sh_names sh) (Z.to_nat (v - 1)) with
  | Some n => option_map snd (find (fun p => fst p =? n) (sh_origin sh))
  | None => None
  end.
Definition origin (sh : shown) (v : Z) : Z := match origin_of sh v with Some x => x | None => v end.

(* a literal that no other one outnumbers *)
Definition most_frequent (lits : list Z) (h : Z) : Prop :=
  In h lits /\ forall l, (count_occ Z.eq_dec lits l <= count_occ Z.eq_dec lits h)%nat.

(* the label is about input F: no variable has two values; the variables of the clauses are different input variables without
   a value; and under the values given on the way here F is true just when the clauses shown are, each input variable under its
   name *)
Definition about (F : list (list Z)) (sh : shown) : Prop :=
  NoDup (map fst (sh_path sh)) /\
  (forall v, In v (fvars (lits_of sh)) -> exists x, origin_of sh v = Some x /\ In x (fvars F) /\ ~ In x (map fst (sh_path sh))) /\
  (forall v w, In v (fvars (lits_of sh)) -> In w (fvars (lits_of sh)) -> origin sh v = origin sh w -> v = w) /\
  (forall a, extends a (sh_path sh) -> (cnf_true a F <-> cnf_true (fun v => a (origin sh v)) (lits_of sh))).

(* clause by clause: the clauses shown are what is left of the input clauses not satisfied on the way here; when [kept] each
   has the number of the input clause that it comes from *)
Definition clauses_left (kept : bool) (cs : list clause) (sh : shown) : Prop :=
  exists origins : list clause,
    Permutation origins (open_clauses (sh_path sh) cs) /\
    Forall2 (fun c D => (kept = true -> snd c = initial_index D) /\
                        Permutation (map (rename_lit (origin sh)) (fst c)) (open_literals (sh_path sh) (raw D)))
            (sh_formula sh) origins.
