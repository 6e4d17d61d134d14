(* Properties8.v -- generated by tools/genprops.py from PP8.v: property theorems, their
   assumptions, and examples showing that the hypotheses are met.  Proofs are in PP8.v. *)
From Coq Require Import String Ascii ZArith List Bool Lia Permutation Sorted.
From Verif Require Import Spec PyBase MSet MText MQueue MDb MSolver SpecRun PLib PClause PRename PLo PNorm PEval PText PQueue PNode PStep PRun PStats PSolver PSolve PSearch PDb PResume PReplay PResumed PP1 PP2.
Import ListNotations.
From Verif Require Import PP8.
Open Scope Z_scope.

(* C39: a child loaded from the global table carries no variable maps; unless it is a constant it cannot
   be branched: doing so raises an exception *)
Theorem C39_loaded_child : forall hash t h s, child_from_gdb hash t h = Some s ->
  evaluated_vars s = [] /\ original_values s = [] /\ final_names_map s = [] /\
  (svalue s = None -> raws s <> [] -> nonempty_clauses (raws s) -> evaluate s = Err IndexError).
Proof. exact p_C39_loaded_child. Qed.
Print Assumptions C39_loaded_child.

Example C39_loaded_example : exists t h s, child_from_gdb (fun t => t) t h = Some s /\ svalue s = None /\
  raws s = [[1; 2]; [-1; 3]] /\ evaluate s = Err IndexError.
Proof.
  exists [(txt "h", mkRow (txt "1|2&-1|3") (txt "T") (txt "F") 2 3 0 0 0 0)], (txt "h").
  eexists. split; [vm_compute; reflexivity|]. repeat split; vm_compute; reflexivity.
Qed.

(* C39: a run on the table left by a run interrupted after any number of steps either aborts with an
   exception or gives the right verdict; the solution it prints is either empty or correct *)
Theorem C39_resume_safe : forall hash insert_fails1 insert_fails2 o1 o2 root lf r p0 expanded p,
  root_ok root -> (forall h, insert_fails1 h = false) -> (forall h, insert_fails2 h = false) ->
  o_gdb o1 = true -> o_gdb o2 = true -> same_search o1 o2 -> constants_distinct hash o1 root ->
  prepare_root hash lf o1 root = Ok r -> start hash o1 r [] = Ok p0 ->
  exec hash insert_fails1 o1 [] lf (branch_mode o1) p0 expanded p ->
  (exists N, forall fuel lf', (N <= fuel)%nat -> (N <= lf')%nat ->
     solve_set hash insert_fails2 fuel lf' o2 root (p_db p) = Err IndexError) \/
  exists out, ends_with hash insert_fails2 o2 root (p_db p) out /\
    (out_sat out = true -> satisfiable (raws root)) /\
    (collision_free hash o2 root -> satisfiable (raws root) -> out_sat out = true) /\
    (out_sat out = false -> out_solution out = None) /\
    (forall sol, out_solution out = Some sol -> sol = [] \/ (forall a, extends a sol -> cnf_true a (raws root))).
Proof. exact p_C39_resume_safe. Qed.
Print Assumptions C39_resume_safe.

(* C39: when all branches of the root are in the table but the first run had not finished, the second run
   aborts with an exception *)
Theorem C39_resume_aborts : forall hash insert_fails1 insert_fails2 o1 o2 root lf r p0 expanded p,
  root_ok root -> (forall h, insert_fails1 h = false) ->
  o_gdb o1 = true -> o_gdb o2 = true -> same_search o1 o2 -> constants_distinct hash o1 root ->
  prepare_root hash lf o1 root = Ok r -> start hash o1 r [] = Ok p0 ->
  exec hash insert_fails1 o1 [] lf (branch_mode o1) p0 expanded p -> expanded <> [] ->
  incl (succs (p_children p) (sid r)) (dkeys (p_db p)) ->
  queue_is_empty (p_queue p) = false ->
  exists N, forall fuel lf', (N <= fuel)%nat -> (N <= lf')%nat ->
    solve_set hash insert_fails2 fuel lf' o2 root (p_db p) = Err IndexError.
Proof. exact p_C39_resume_aborts. Qed.
Print Assumptions C39_resume_aborts.

(* C39: on the complete table of a run stopped before its statistics were stored, the second run repeats
   verdict and graph, finds every node in the table, and prints an empty solution *)
Theorem C39_resume_complete : forall hash insert_fails1 insert_fails2 o1 o2 root lf r p0 expanded p,
  root_ok root -> (forall h, insert_fails1 h = false) ->
  o_gdb o1 = true -> o_gdb o2 = true -> same_search o1 o2 -> constants_distinct hash o1 root ->
  prepare_root hash lf o1 root = Ok r -> start hash o1 r [] = Ok p0 ->
  exec hash insert_fails1 o1 [] lf (branch_mode o1) p0 expanded p ->
  queue_is_empty (p_queue p) = true ->
  exists out, ends_with hash insert_fails2 o2 root (p_db p) out /\ out_sat out = p_sat p /\
    out_solution out = (if p_sat p then Some [] else None) /\ out_children out = p_children p /\
    out_found out = Z.of_nat (List.length expanded).
Proof. exact p_C39_resume_complete. Qed.
Print Assumptions C39_resume_complete.

Definition with_gdb : opts := mkOpts MODE_FLO false false false false true false false false.
(* the sample formula, interrupted after one and after three steps, and run to the end *)
Example C39_example : root_ok sample /\ same_search with_gdb with_gdb /\
  constants_distinct (fun t => t) with_gdb sample /\
  exists r p0, prepare_root (fun t => t) 40 with_gdb sample = Ok r /\ start (fun t => t) with_gdb r [] = Ok p0 /\
  (exists xs p, exec (fun t => t) no_fail with_gdb [] 40 (branch_mode with_gdb) p0 xs p /\ List.length xs = 1%nat /\
     exists out, ends_with (fun t => t) no_fail with_gdb sample (p_db p) out /\
       out_solution out = Some [(1, true); (3, true); (5, true)]) /\
  (exists xs p, exec (fun t => t) no_fail with_gdb [] 40 (branch_mode with_gdb) p0 xs p /\ List.length xs = 3%nat /\
     incl (succs (p_children p) (sid r)) (dkeys (p_db p)) /\ queue_is_empty (p_queue p) = false) /\
  (exists xs p, exec (fun t => t) no_fail with_gdb [] 40 (branch_mode with_gdb) p0 xs p /\
     queue_is_empty (p_queue p) = true /\ p_sat p = true).
Proof.
  split; [apply sample_ok|]. split; [repeat split|]. split; [apply distinct_constants, sample_ok|].
  eexists _, _. split; [vm_compute; reflexivity|]. split; [vm_compute; reflexivity|]. split; [|split].
  - eexists _, _. split; [apply (steps_exec _ _ _ _ _ 1); vm_compute; reflexivity|]. split; [reflexivity|].
    eexists. split; [exists 40%nat; intros fuel lf H1 H2; apply (solve_set_mono _ _ _ _ _ 40 fuel 40 lf H1 H2);
      vm_compute; reflexivity|reflexivity].
  - eexists _, _. split; [apply (steps_exec _ _ _ _ _ 3); vm_compute; reflexivity|]. split; [reflexivity|].
    split; [|reflexivity]. intros h Hh. vm_compute in Hh |- *. tauto.
  - eexists _, _. split; [apply (steps_exec _ _ _ _ _ 13); vm_compute; reflexivity|]. split; reflexivity.
Qed.
