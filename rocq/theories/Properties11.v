(* Properties11.v -- generated by tools/genprops.py from PP11.v: property theorems, their
   assumptions, and examples showing that the hypotheses are met.  Proofs are in PP11.v. *)
From Coq Require Import String Ascii ZArith List Bool Lia Permutation Sorted.
From Verif Require Import Spec PyBase MSet MText MQueue MDb MSolver SpecRun SpecThief PLib PClause PRename PLo PNorm PEval
  PText PQueue PNode PStep PRun PStats PSolver PSolve PP1 PP2 PThief.
Import ListNotations.
From Verif Require Import PP11.
Open Scope Z_scope.

(* C50: every set met by the search is the input formula under the assignment of its path, clause by clause:
   its clauses stand for exactly the input clauses not yet satisfied, each once, and consist of the literals
   not yet assigned, under the names recorded with the set; without the runtime DB each clause carries
   the number of the input clause it comes from. *)
Theorem C50_provenance : forall hash o (root x : cset),
  root_ok root -> ~ In 0 (fvars (raws root)) -> searched hash o root x ->
  exists origins : list clause,
    Permutation origins (open_clauses (evaluated_vars x) (clauses root)) /\
    Forall2 (fun c D => (o_rdb o = false -> initial_index c = initial_index D) /\
                        Permutation (map (rename_lit (input_name x)) (raw c)) (open_literals (evaluated_vars x) (raw D)))
            (clauses x) origins.
Proof. exact p_C50_provenance. Qed.
Print Assumptions C50_provenance.

Example C50_example : root_ok sample /\ ~ In 0 (fvars (raws sample)) /\
  exists x y, searched (fun t => t) default_opts sample x /\ searched (fun t => t) default_opts sample y /\ evaluated_vars y <> [].
Proof.
  split; [exact sample_ok|]. split; [vm_compute; intuition discriminate|].
  do 2 eexists. split; [|split].
  - eapply (searched_root _ _ _ 40). vm_compute. reflexivity.
  - eapply (searched_child _ _ _ 40).
    + eapply (searched_root _ _ _ 40). vm_compute. reflexivity.
    + vm_compute. reflexivity.
    + left. reflexivity.
    + reflexivity.
    + vm_compute. reflexivity.
    + vm_compute. reflexivity.
  - discriminate.
Qed.

(* C51: the thief method, in the modes that do not sort by variable: the clauses of a normalised set come
   shortest first, and those of the same length in the order of the input.  -ls does not disturb this. *)
Theorem C51_thief_order : forall fuel m by_size (s s' : cset), m = MODE_LOU \/ m = MODE_NORMAL -> pre_lo s ->
  to_lo_condition fuel m by_size true s = Ok s' ->
  StronglySorted thief_before (clauses s').
Proof. exact p_C51_thief_order. Qed.
Print Assumptions C51_thief_order.

(* C51: so in a search with the thief method, modes lo, lou and normal, the next branching variable is taken
   from a shortest clause, the earliest one in the input among these (C50 gives the meaning of the numbers).
   In mode lo this holds below the root. *)
Theorem C51_search_order : forall hash o (root x : cset),
  root_ok root -> searched hash o root x -> o_thief o = true ->
  o_mode o = MODE_LO /\ evaluated_vars x <> evaluated_vars root \/ o_mode o = MODE_LOU \/ o_mode o = MODE_NORMAL ->
  StronglySorted thief_before (clauses x).
Proof. exact p_C51_search_order. Qed.
Print Assumptions C51_search_order.

(* C51: -ls, in the modes that do not sort by variable: shortest clauses first, clauses of the same length
   in the order they had; without -ls and thief method the order of the clauses is kept. *)
Theorem C51_size_order : forall fuel m thief (s s' : cset), m = MODE_LOU \/ m = MODE_NORMAL -> pre_lo s ->
  to_lo_condition fuel m true thief s = Ok s' ->
  StronglySorted (fun c d => (List.length (raw c) <= List.length (raw d))%nat) (clauses s') /\
  (thief = false -> forall n,
     map initial_index (filter (fun c => (List.length (raw c) =? n)%nat) (clauses s')) =
     map initial_index (filter (fun c => (List.length (raw c) =? n)%nat) (clauses s))).
Proof. exact p_C51_size_order. Qed.
Print Assumptions C51_size_order.

Theorem C51_order_kept : forall fuel m (s s' : cset), m = MODE_LOU \/ m = MODE_NORMAL -> pre_lo s ->
  to_lo_condition fuel m false false s = Ok s' ->
  map initial_index (clauses s') = map initial_index (clauses s) /\
  map (fun c => List.length (raw c)) (clauses s') = map (fun c => List.length (raw c)) (clauses s).
Proof. exact p_C51_order_kept. Qed.
Print Assumptions C51_order_kept.

Theorem C51_runtime_db_renumbers :
  exists out out', ends_with (fun t => t) no_fail (thief_opts false) renumbered [] out /\
    ends_with (fun t => t) no_fail (thief_opts true) renumbered [] out' /\
    List.length (out_children out) = 8%nat /\ List.length (out_children out') = 7%nat.
Proof. exact p_C51_runtime_db_renumbers. Qed.
Print Assumptions C51_runtime_db_renumbers.

Example C51_example : exists s s', pre_lo s /\ to_lo_condition 40 MODE_LOU false true s = Ok s' /\ map initial_index (clauses s') = [3; 1; 2; 4].
Proof.
  exists renumbered. eexists. split; [|split; [vm_compute; reflexivity|reflexivity]].
  split; [discriminate|]. split; [intros c H; vm_compute in H; repeat (destruct H as [<-|H]; [discriminate|]); destruct H|left; reflexivity].
Qed.
