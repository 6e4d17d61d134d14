(* Properties9.v -- generated by tools/genprops.py from PP9.v: property theorems, their
   assumptions, and examples showing that the hypotheses are met.  Proofs are in PP9.v. *)
From Coq Require Import String Ascii ZArith List Bool Lia Permutation Sorted.
From Verif Require Import Spec PyBase MSet MText MQueue MDb MSolver MProc SpecRun SpecProc PLib PClause PRename PLo
  PNorm PEval PText PQueue PNode PStep PRun PStats PSolver PSolve PSearch PGraph PP1 PP2
  PProc PProc2 PProc3 PProc4 PProc5 PProc6.
Import ListNotations.
From Verif Require Import PP9.
Open Scope Z_scope.

(* C34: with -t 1 no worker processes are used: the program is the single-process one. *)
Theorem C34_one_process : forall hash insert_fails worker_fails arrived fuel lf o root db cpus,
  max_threads cpus 1 = 0%nat /\
  solve_set_mp hash insert_fails (max_threads cpus 1) worker_fails arrived fuel lf o root db =
  solve_set hash insert_fails fuel lf o root db.
Proof. exact p_C34_one_process. Qed.
Print Assumptions C34_one_process.

(* C34: when no worker reports failure and every answer arrives at last, the program ends, whatever the
   number of workers and the order in which the answers arrive. *)
Theorem C34_ends : forall hash insert_fails max worker_fails arrived o root db,
  root_ok root -> o_gdb o = false -> o_no_mem o = false ->
  (forall k, worker_fails k = false) -> fair arrived ->
  exists out, ends_with_mp hash insert_fails max worker_fails arrived o root db out.
Proof. exact p_C34_ends. Qed.
Print Assumptions C34_ends.

(* C34: a reported solution is a solution of the input formula; 'not satisfiable' comes without one; the
   merged graph is closed. *)
Theorem C34_sound : forall hash insert_fails max worker_fails arrived o root db out,
  root_ok root -> o_gdb o = false -> o_no_mem o = false ->
  (forall k, worker_fails k = false) -> fair arrived ->
  ends_with_mp hash insert_fails max worker_fails arrived o root db out ->
  (out_sat out = true ->
     satisfiable (raws root) /\
     exists sol, out_solution out = Some sol /\ sol <> [] /\ NoDup (dkeys sol) /\ StronglySorted Z.lt (dkeys sol) /\
       (forall a, extends a sol -> cnf_true a (raws root)) /\
       incl (evaluated_vars root) sol /\
       (forall v, In v (dkeys sol) -> In v (fvars (raws root)) \/ In v (dkeys (evaluated_vars root)))) /\
  (out_sat out = false -> out_solution out = None) /\
  closed_graph (out_children out) /\
  (forall h, In h (dkeys (out_children out)) -> (List.length (succs (out_children out) h) <= 2)%nat).
Proof. exact p_C34_sound. Qed.
Print Assumptions C34_sound.

(* C34: without hash collisions the verdict is exact, and the outcome is that of the single-process run of
   the same options: same verdict; in full runs without thief ordering the same recorded graph (same nodes,
   same children of each) and, unless switched off, the same three reported counts. *)
Theorem C34_same_outcome : forall hash insert_fails max worker_fails arrived o root db out,
  root_ok root -> o_gdb o = false -> o_no_mem o = false ->
  (forall k, worker_fails k = false) -> fair arrived -> collision_free hash o root ->
  ends_with_mp hash insert_fails max worker_fails arrived o root db out ->
  (out_sat out = true <-> satisfiable (raws root)) /\
  forall insert_fails1 db1 single, ends_with hash insert_fails1 o root db1 single ->
    out_sat out = out_sat single /\
    (o_exit o = false -> o_thief o = false ->
       (forall h, dget text_eqb h (out_children out) = dget text_eqb h (out_children single)) /\
       (o_no_stats o = false ->
          out_uniques out = out_uniques single /\ out_redundants out = out_redundants single /\
          out_hits out = out_hits single)).
Proof. exact p_C34_same_outcome. Qed.
Print Assumptions C34_same_outcome.

(* three worker processes; the answers arrive in reverse order *)
Definition late : nat -> nat -> bool := fun t k => (20 - 5 * k <? t)%nat.
Example C34_example : root_ok sample /\ fair late /\ collision_free (fun t => t) default_opts sample /\
  exists p waiting, hands_out (fun t => t) no_fail 3 default_opts sample [] p waiting.
Proof.
  split; [exact sample_ok|]. split.
  { intros k. exists 21%nat. intros t H. apply Nat.ltb_lt. lia. }
  split; [apply never_collides|].
  do 2 eexists. exists 40%nat. do 3 eexists. split; [vm_compute; reflexivity|]. split; [vm_compute; reflexivity|].
  split; [|split; [|split; [|split]]].
  2:{ eapply exec_cons; [vm_compute; reflexivity|vm_compute; reflexivity|vm_compute; reflexivity|].
      eapply exec_cons; [vm_compute; reflexivity|vm_compute; reflexivity|vm_compute; reflexivity|].
      apply exec_nil. }
  - discriminate.
  - reflexivity.
  - repeat (eapply drains_cons; [vm_compute; reflexivity|]). apply drains_nil. reflexivity.
  - intros ys zs q E1 Hy Hz He. destruct ys as [|y1 [|y2 ys]]; [congruence| |].
    + injection E1 as E1 _. inversion He as [|? ? ? ? ? ? H1 H2 H3 H4]; subst.
      inversion H4; subst. vm_compute in H3. injection H3 as <-. discriminate.
    + injection E1 as _ _ E1. symmetry in E1. apply app_eq_nil in E1 as [_ E1]. congruence.
Qed.

(* C35: if one of the workers reports failure, the program never ends, under every schedule, unless
   exit-upon-solving is on and one of the sets given to a working worker is satisfiable. *)
Theorem C35_failure_blocks : forall hash insert_fails max worker_fails arrived o root db p waiting k,
  root_ok root -> o_gdb o = false -> o_no_mem o = false -> (0 < max)%nat ->
  hands_out hash insert_fails max o root db p waiting ->
  (k < max)%nat -> worker_fails k = true ->
  o_exit o = false \/ (forall j x, nth_error waiting j = Some x -> worker_fails j = false -> ~ satisfiable (raws x)) ->
  runs_forever_mp hash insert_fails max worker_fails arrived o root db.
Proof. exact p_C35_failure_blocks. Qed.
Print Assumptions C35_failure_blocks.

(* C35: if it ends although a worker reports failure, then by exit-upon-solving, with a solution of the
   input formula. *)
Theorem C35_ends_only_by_solution : forall hash insert_fails max worker_fails arrived o root db p waiting k out,
  root_ok root -> o_gdb o = false -> o_no_mem o = false -> (0 < max)%nat ->
  hands_out hash insert_fails max o root db p waiting ->
  (k < max)%nat -> worker_fails k = true ->
  ends_with_mp hash insert_fails max worker_fails arrived o root db out ->
  o_exit o = true /\ out_sat out = true /\
  exists sol, out_solution out = Some sol /\ (forall a, extends a sol -> cnf_true a (raws root)).
Proof. exact p_C35_ends_only_by_solution. Qed.
Print Assumptions C35_ends_only_by_solution.

(* C35: the exception is real: with exit-upon-solving, if a working worker got a satisfiable set, the program
   ends, however many of the others fail. *)
Theorem C35_solution_unblocks : forall hash insert_fails max worker_fails arrived o root db p waiting j x,
  root_ok root -> o_gdb o = false -> o_no_mem o = false -> (0 < max)%nat ->
  hands_out hash insert_fails max o root db p waiting ->
  fair arrived -> o_exit o = true -> collision_free hash o root ->
  nth_error waiting j = Some x -> worker_fails j = false -> satisfiable (raws x) ->
  exists out, ends_with_mp hash insert_fails max worker_fails arrived o root db out.
Proof. exact p_C35_solution_unblocks. Qed.
Print Assumptions C35_solution_unblocks.

(* worker 0 fails *)
Definition first_fails : nat -> bool := fun k => (k =? 0)%nat.
Example C35_blocks_example : root_ok sample /\ first_fails 0 = true /\ o_exit default_opts = false /\
  exists p waiting, hands_out (fun t => t) no_fail 3 default_opts sample [] p waiting.
Proof. split; [exact sample_ok|]. split; auto. split; auto. apply C34_example. Qed.
Definition exit_opts : opts := mkOpts MODE_LO false false true false false false false false.
Example C35_unblocks_example : first_fails 1 = false /\
  exists p waiting x, hands_out (fun t => t) no_fail 3 exit_opts sample [] p waiting /\
    nth_error waiting 1 = Some x /\ satisfiable (raws x).
Proof.
  split; auto. do 3 eexists. split; [|split].
  - exists 40%nat. do 3 eexists. split; [vm_compute; reflexivity|]. split; [vm_compute; reflexivity|].
    split; [|split; [|split; [|split]]].
    2:{ eapply exec_cons; [vm_compute; reflexivity|vm_compute; reflexivity|vm_compute; reflexivity|].
        eapply exec_cons; [vm_compute; reflexivity|vm_compute; reflexivity|vm_compute; reflexivity|].
        apply exec_nil. }
    + discriminate.
    + reflexivity.
    + repeat (eapply drains_cons; [vm_compute; reflexivity|]). apply drains_nil. reflexivity.
    + intros ys zs q E1 Hy Hz He. destruct ys as [|y1 [|y2 ys]]; [congruence| |].
      * injection E1 as E1 _. inversion He as [|? ? ? ? ? ? H1 H2 H3 H4]; subst.
        inversion H4; subst. vm_compute in H3. injection H3 as <-. discriminate.
      * injection E1 as _ _ E1. symmetry in E1. apply app_eq_nil in E1 as [_ E1]. congruence.
  - reflexivity.
  - exists (fun v => true). intros c H. vm_compute in H.
    repeat (destruct H as [<-|H]; [eexists; split; [left; reflexivity|reflexivity]|]). destruct H.
Qed.
