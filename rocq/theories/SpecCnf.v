(* SpecCnf.v -- what the bundled formula generator promises, in terms of the clauses it returns: literals are
   pairs (polarity, variable), a clause holds when one of its literals agrees with the assignment. *)
From Coq Require Import Ascii ZArith List Bool.
From Verif Require Import PyBase MText MCli MCnf.
Import ListNotations.
Open Scope Z_scope.

Section Clauses.
  Context {A : Type}.
  Definition clause_holds (a : A -> bool) (c : list (bool * A)) : Prop := exists p v, In (p, v) c /\ a v = p.
  Definition all_hold (a : A -> bool) (F : list (list (bool * A))) : Prop := forall c, In c F -> clause_holds a c.
  Definition has_model (F : list (list (bool * A))) : Prop := exists a, all_hold a F.
  (* how many of these variables are true, counted with repetitions *)
  Definition how_many (a : A -> bool) (vs : list A) : Z := Z.of_nat (List.length (filter a vs)).
End Clauses.

(* ---- the formula object ---- *)
(* names in order of first appearance: those known, then the new ones *)
Fixpoint with_new (known vs : list text) : list text :=
  match vs with
  | [] => known
  | v :: t => with_new (if in_dec (list_eq_dec ascii_dec) v known then known else known ++ [v]) t
  end.
(* no literal twice, no variable with both polarities *)
Definition repeats (cl : list (bool * text)) : Prop := ~ NoDup cl.
Definition contradicts (cl : list (bool * text)) : Prop := exists v, In (true, v) cl /\ In (false, v) cl.
(* the objects a user can obtain through the public methods *)
Inductive made : cnf -> Prop :=
| made_empty : made empty_cnf
| made_variable c v : made c -> made (add_variable v c)
| made_clause c r o av st cl c' : made c -> add_clause_with r o av st cl c = Ok c' -> made c'
| made_unsafe c cl c' : made c -> add_clause_unsafe cl c = Ok c' -> made c'.

(* the same command line of NDP on another DIMACS file *)
Definition on_dimacs (c : cli) (name content : text) : cli :=
  mkCli (c_v c) (c_vv c) (c_q c) (c_qn c) (c_line c) (c_line_file c) (Some (name, content)) (c_graph c) (c_solution_file c)
        (c_no_stats c) (c_threads c) (c_exit c) (c_verify c) (c_rdb c) (c_gdb c) (c_gnm c) (c_sort_by_size c) (c_thief c)
        (c_factorize c) (c_multiply c) (c_mode c).
