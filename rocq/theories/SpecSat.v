(* SpecSat.v -- what a SAT solver on the machine promises, and what an answer of the generator means.  Definitions only. *)
From Coq Require Import String Ascii ZArith List Bool.
From Verif Require Import Spec SpecInput SpecFile SpecTool PyBase MText MCnf MSat SpecCnf.
Import ListNotations.
Open Scope Z_scope.

(* a text that is a DIMACS file of the clauses F over n variables; the last line may lack its newline *)
Definition dimacs_text (t : text) (n : Z) (F : list (list Z)) : Prop :=
  exists lines h, Forall one_line lines /\ (t = ended lines \/ t ++ [nl] = ended lines) /\ over n F /\
    formula_file lines h (Some (n, Z.of_nat (List.length F))) (terminated F).
(* the two result files of minisat: UNSAT, or SAT and a line of literals ended by 0 *)
Definition unsat_file : text := chars "UNSAT" ++ [nl].
Definition sat_file (lits : list Z) : text := chars "SAT" ++ [nl] ++ join (chars " ") (map str_Z (lits ++ [0])) ++ [nl].
(* a correct minisat: UNSAT only for unsatisfiable clauses; otherwise literals of different variables, one in each clause *)
Definition right_minisat (run : text -> option text) : Prop :=
  forall t n F, dimacs_text t n F ->
    (run t = Some unsat_file /\ ~ satisfiable F) \/
    (exists lits, run t = Some (sat_file lits) /\ NoDup (map Z.abs lits) /\ (forall l, In l lits -> 1 <= Z.abs l <= n) /\
       forall cl, In cl F -> exists l, In l cl /\ In l lits).

(* an assignment agrees with a dictionary of names *)
Definition agrees (a : text -> bool) (w : list (option text * bool)) : Prop := forall v b, In (Some v, b) w -> a v = b.
(* the keys are different variables of the formula, and every assignment that agrees satisfies the formula *)
Definition good_witness (c : cnf) (w : list (option text * bool)) : Prop :=
  NoDup (map fst w) /\ (forall k b, In (k, b) w -> exists v, k = Some v /\ In v (cnf_variables c)) /\
  forall a, agrees a w -> all_hold a (cnf_clauses c).

(* the solvers called with the interface of minisat, and with the DIMACS conventions *)
Definition minisat_style : list text := [chars "minisat"].
Definition dimacs_style : list text :=
  map chars ["lingeling"%string; "plingeling"%string; "precosat"%string; "picosat"%string; "march"%string; "cryptominisat"%string; "glucose"%string; "sat4j"%string].
(* the solvers tried when no command is given, in this order *)
Definition solvers_in_order : list text :=
  map chars ["lingeling"%string; "plingeling"%string; "precosat"%string; "picosat"%string; "march"%string; "cryptominisat"%string; "minisat"%string;
             "glucose"%string; "sat4j"%string].
(* the first word of a text *)
Definition white (b : ascii) : Prop := In (nat_of_ascii b) [9; 10; 11; 12; 13; 28; 29; 30; 31; 32]%nat.
Definition first_word (w t : text) : Prop :=
  word w /\ exists pre post, Forall white pre /\ t = pre ++ w ++ post /\ (post = [] \/ exists b u, post = b :: u /\ white b).
(* the command [cmd] of the words [w :: ws] starts and is used with the interface of a solver of [style] *)
Definition called (m : machine) (cmd w : text) (ws : list text) (sameas : option text) (style : list text) : Prop :=
  several_words (w :: ws) cmd /\ mc_starts m w = true /\ ((sameas = None /\ In w style) \/ exists s, sameas = Some s /\ In s style).
