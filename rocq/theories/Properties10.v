(* Properties10.v -- generated by tools/genprops.py from PP10.v: property theorems, their
   assumptions, and examples showing that the hypotheses are met.  Proofs are in PP10.v. *)
From Coq Require Import String Ascii ZArith List Bool Lia Permutation Sorted.
From Verif Require Import Spec PyBase MSet MText MQueue MDb MSolver MProc MShare SpecRun SpecProc SpecShare PLib PClause
  PRename PLo PNorm PEval PText PQueue PNode PStep PRun PStats PSolver PSolve PSearch PGraph PDb PP1 PP2
  PProc PProc2 PProc3 PProc4 PProc5 PP9 PShare1 PShare2 PShare3 PShare4 PShare5 PShare6 PShare7.
Import ListNotations.
From Verif Require Import PP10.
Open Scope Z_scope.

(* C48: with -t 1 no worker processes are used: the program is the single-process one. *)
Theorem C48_one_process : forall hash insert_fails worker_fails sched linger fuel lf o root db cpus,
  solve_set_sh hash insert_fails (max_threads cpus 1) worker_fails sched linger fuel lf o root db =
  solve_set hash insert_fails fuel lf o root db.
Proof. exact p_C48_one_process. Qed.
Print Assumptions C48_one_process.

(* C48: whatever the number of workers and the order in which the processes move, the program ends. *)
Theorem C48_ends : forall hash insert_fails max worker_fails sched linger o root,
  (forall h, insert_fails h = false) -> root_ok root -> o_gdb o = true -> o_no_mem o = false ->
  (forall k, worker_fails k = false) -> fair_sched max sched ->
  exists out, ends_with_sh hash insert_fails max worker_fails sched linger o root [] out.
Proof. exact p_C48_ends. Qed.
Print Assumptions C48_ends.

(* C48: a reported solution is a solution of the input formula; 'not satisfiable' comes without one; the
   merged graph is closed. *)
Theorem C48_sound : forall hash insert_fails max worker_fails sched linger o root out,
  (forall h, insert_fails h = false) -> root_ok root -> o_gdb o = true -> o_no_mem o = false ->
  (forall k, worker_fails k = false) -> fair_sched max sched ->
  ends_with_sh hash insert_fails max worker_fails sched linger o root [] out ->
  (out_sat out = true ->
     satisfiable (raws root) /\
     exists sol, out_solution out = Some sol /\ sol <> [] /\ NoDup (dkeys sol) /\ StronglySorted Z.lt (dkeys sol) /\
       (forall a, extends a sol -> cnf_true a (raws root)) /\
       incl (evaluated_vars root) sol /\
       (forall v, In v (dkeys sol) -> In v (fvars (raws root)) \/ In v (dkeys (evaluated_vars root)))) /\
  (out_sat out = false -> out_solution out = None) /\
  closed_graph (out_children out) /\
  (forall h, In h (dkeys (out_children out)) -> (List.length (succs (out_children out) h) <= 2)%nat).
Proof. exact p_C48_sound. Qed.
Print Assumptions C48_sound.

(* C48: the table the workers leave behind has one row per set, never two, and each row is right: the text of
   a set met by the search under its hash, its clause count and the hashes of its two branches.  Also when
   exit-upon-solving ends the workers in the middle of their work. *)
Theorem C48_rows : forall hash insert_fails max worker_fails sched linger o root out,
  (forall h, insert_fails h = false) -> root_ok root -> o_gdb o = true -> o_no_mem o = false ->
  (forall k, worker_fails k = false) -> fair_sched max sched ->
  ends_with_sh hash insert_fails max worker_fails sched linger o root [] out ->
  let t := out_db out in
  NoDup (dkeys t) /\
  (o_exit o = false -> incl (dkeys t) (dkeys (out_children out))) /\
  (forall h r, In (h, r) t -> exists x left right, searched hash o root x /\
     h = hash (formula_text (raws x)) /\ r_body r = formula_text (raws x) /\
     r_num_clauses r = Z.of_nat (List.length (raws x)) /\
     evaluate (view (o_rdb o) x) = Ok (Some (left, right)) /\
     branch_hash hash o left (r_cid1 r) /\ branch_hash hash o right (r_cid2 r)).
Proof. exact p_C48_rows. Qed.
Print Assumptions C48_rows.

(* C48: without hash collisions the verdict is exact, and the outcome is that of the single-process run of
   the same options on an empty table: same verdict; in full runs without thief ordering the same recorded
   graph, the same three reported counts and the same table: under every hash the same row, with the same
   stored counts. *)
Theorem C48_same_outcome : forall hash insert_fails max worker_fails sched linger o root out,
  (forall h, insert_fails h = false) -> root_ok root -> o_gdb o = true -> o_no_mem o = false ->
  (forall k, worker_fails k = false) -> fair_sched max sched -> collision_free hash o root ->
  ends_with_sh hash insert_fails max worker_fails sched linger o root [] out ->
  (out_sat out = true <-> satisfiable (raws root)) /\
  forall single, ends_with hash insert_fails o root [] single ->
    out_sat out = out_sat single /\
    (o_exit o = false -> o_thief o = false ->
       (forall h, dget text_eqb h (out_children out) = dget text_eqb h (out_children single)) /\
       (forall h, dget text_eqb h (out_db out) = dget text_eqb h (out_db single)) /\
       (o_no_stats o = false ->
          out_uniques out = out_uniques single /\ out_redundants out = out_redundants single /\
          out_hits out = out_hits single)).
Proof. exact p_C48_same_outcome. Qed.
Print Assumptions C48_same_outcome.

(* three workers moving in turn; the queue of the sample reaches three sets after two steps, which are handed out *)
Example C48_example : root_ok sample /\ fair_sched 3 (round_robin 3) /\ o_gdb gdb_opts = true /\ o_no_mem gdb_opts = false /\
  collision_free (fun t => t) gdb_opts sample /\
  exists p waiting, hands_out (fun t => t) no_fail 3 gdb_opts sample [] p waiting.
Proof.
  split; [exact sample_ok|]. split; [apply round_robin_fair|]. split; auto. split; auto. split; [apply never_collides|].
  do 2 eexists. exists 40%nat. do 3 eexists. split; [vm_compute; reflexivity|]. split; [vm_compute; reflexivity|].
  split; [|split; [|split; [|split]]].
  2:{ eapply exec_cons; [vm_compute; reflexivity|vm_compute; reflexivity|vm_compute; reflexivity|].
      eapply exec_cons; [vm_compute; reflexivity|vm_compute; reflexivity|vm_compute; reflexivity|].
      apply exec_nil. }
  - discriminate.
  - reflexivity.
  - repeat (eapply drains_cons; [vm_compute; reflexivity|]). apply drains_nil. reflexivity.
  - intros ys zs q E1 Hy Hz He. destruct ys as [|y1 [|y2 ys]]; [congruence| |].
    + injection E1 as E1 _. inversion He as [|? ? ? ? ? ? H1 H2 H3 H4]; subst.
      inversion H4; subst. vm_compute in H3. injection H3 as <-. discriminate.
    + injection E1 as _ _ E1. symmetry in E1. apply app_eq_nil in E1 as [_ E1]. congruence.
Qed.

(* C49: once a worker process is gone without an answer (an exception outside the set-up ends it so), the main
   process polls for its answer for ever, whatever the other processes do, unless exit-upon-solving is on. *)
Theorem C49_dead_worker_blocks : forall hash insert_fails o seen sched linger lf m t c v,
  o_exit o = false ->
  In v (pl_workers (cr_poll c)) -> w_reply v = None -> nth_error (cr_procs c) (w_no v) = Some None ->
  (forall w, In w (pl_workers (cr_poll c)) -> w_reply w <> Some Failed) ->
  forall fuel, share_loop hash insert_fails o seen sched linger fuel lf m t c = OutOfFuel.
Proof. exact p_C49_dead_worker_blocks. Qed.
Print Assumptions C49_dead_worker_blocks.

(* C49: if a worker process reports that it could not set up its database access, its set goes back into the
   queue of the main process, which however keeps waiting for it: once the sets are handed out no run without
   exit-upon-solving ends, under any schedule of the processes, with and without -gnm. *)
Theorem C49_setup_failure_blocks : forall hash insert_fails max worker_fails sched linger o root p waiting k,
  o_exit o = false -> hands_out hash insert_fails max o root [] p waiting ->
  (k < max)%nat -> worker_fails k = true ->
  forall fuel lf out, solve_set_sh hash insert_fails max worker_fails sched linger fuel lf o root [] <> Ok out.
Proof. exact p_C49_setup_failure_blocks. Qed.
Print Assumptions C49_setup_failure_blocks.

Example C49_setup_example : exists p waiting, hands_out (fun t => t) no_fail 3 gdb_opts sample [] p waiting /\
  o_exit gdb_opts = false.
Proof. destruct C48_example as (_ & _ & _ & _ & _ & p & w & H). exists p, w. auto. Qed.

(* C49: with -gdb -gnm a worker can overtake another one in the table, read back children whose variable names
   the table does not keep, and die on them: the formula 4|-6|2&3|2|4&6|1&6|-1|-3, solved by one process,
   keeps two worker processes and the main process busy for ever under a fair schedule. *)
Theorem C49_no_mem_hangs :
  root_ok racing /\ fair_sched 2 overtaking /\
  (exists out, ends_with (fun t => t) no_fail no_mem_opts racing [] out /\ out_sat out = true) /\
  (forall linger, runs_forever_sh (fun t => t) no_fail 2 (fun _ => false) overtaking linger no_mem_opts racing []).
Proof. exact p_C49_no_mem_hangs. Qed.
Print Assumptions C49_no_mem_hangs.
