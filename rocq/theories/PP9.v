(* PP9.v -- properties of the multi-process solver (C34, C35): statements and proofs. *)
From Coq Require Import String Ascii ZArith List Bool Lia Permutation Sorted.
From Verif Require Import Spec PyBase MSet MText MQueue MDb MSolver MProc SpecRun SpecProc PLib PClause PRename PLo
  PNorm PEval PText PQueue PNode PStep PRun PStats PSolver PSolve PSearch PGraph PP1 PP2
  PProc PProc2 PProc3 PProc4 PProc5 PProc6.
Import ListNotations.
Open Scope Z_scope.

Lemma ends_with_mp_unique hash ifl max wf arr o root db out1 out2 :
  ends_with_mp hash ifl max wf arr o root db out1 -> ends_with_mp hash ifl max wf arr o root db out2 -> out1 = out2.
Proof.
  intros [N1 H1] [N2 H2]. specialize (H1 (Nat.max N1 N2) (Nat.max N1 N2) (Nat.le_max_l _ _) (Nat.le_max_l _ _)).
  specialize (H2 (Nat.max N1 N2) (Nat.max N1 N2) (Nat.le_max_r _ _) (Nat.le_max_r _ _)). congruence.
Qed.
Lemma child_ids_fun hash m z b G l1 l2 : child_ids hash m z b G l1 -> child_ids hash m z b G l2 -> l1 = l2.
Proof.
  intros [[D ->]|(H & C & ->)] [[D' ->]|(H' & C' & ->)]; auto.
  - destruct C' as (A & B & _). destruct D; contradiction.
  - destruct C as (A & B & _). destruct D'; contradiction.
  - destruct C as (A & B & C). destruct C' as (_ & _ & C'). do 2 f_equal. f_equal.
    eapply normal_form_fun; [exact A| |exact C|exact C']. intros e He ->. auto.
Qed.
Lemma mp_facts hash ifl max wf arr o root db out : root_ok root -> o_gdb o = false -> o_no_mem o = false ->
  (forall k, wf k = false) -> fair arr -> ends_with_mp hash ifl max wf arr o root db out ->
  exists r p0 pf, mp_start hash o root db r p0 /\ mp_result hash o root r pf /\
    out_sat out = p_sat pf /\ out_solution out = p_solution pf /\ out_children out = p_children pf /\
    (o_no_stats o = false -> stat_row (p_children pf) (sid r) (out_uniques out, out_redundants out, out_hits out)).
Proof.
  intros RO Hg Hn Hw Hf E. destruct (mp_all hash ifl o root db RO Hg max wf arr Hw Hf) as (r & p0 & pf & N & A & B & C).
  destruct (mp_ends hash ifl o root db RO Hg Hn max wf arr r p0 pf N A (mr_sound _ _ _ _ _ B) C) as (out' & E' & F).
  assert (out' = out) as -> by (eapply ends_with_mp_unique; eauto). exists r, p0, pf. auto.
Qed.

(* C34: with -t 1 no worker processes are used: the program is the single-process one. *)
Lemma p_C34_one_process : forall hash insert_fails worker_fails arrived fuel lf o root db cpus,
  max_threads cpus 1 = 0%nat /\
  solve_set_mp hash insert_fails (max_threads cpus 1) worker_fails arrived fuel lf o root db =
  solve_set hash insert_fails fuel lf o root db.
Proof. intros. split; [reflexivity|]. apply solve_set_mp_single. Qed.

(* C34: when no worker reports failure and every answer arrives at last, the program ends, whatever the
   number of workers and the order in which the answers arrive. *)
Lemma p_C34_ends : forall hash insert_fails max worker_fails arrived o root db,
  root_ok root -> o_gdb o = false -> o_no_mem o = false ->
  (forall k, worker_fails k = false) -> fair arrived ->
  exists out, ends_with_mp hash insert_fails max worker_fails arrived o root db out.
Proof.
  intros hash ifl max wf arr o root db RO Hg Hn Hw Hf.
  destruct (mp_all hash ifl o root db RO Hg max wf arr Hw Hf) as (r & p0 & pf & N & A & B & C).
  destruct (mp_ends hash ifl o root db RO Hg Hn max wf arr r p0 pf N A (mr_sound _ _ _ _ _ B) C) as (out & E & _). eauto.
Qed.

(* C34: a reported solution is a solution of the input formula; 'not satisfiable' comes without one; the
   merged graph is closed. *)
Lemma p_C34_sound : forall hash insert_fails max worker_fails arrived o root db out,
  root_ok root -> o_gdb o = false -> o_no_mem o = false ->
  (forall k, worker_fails k = false) -> fair arrived ->
  ends_with_mp hash insert_fails max worker_fails arrived o root db out ->
  (out_sat out = true ->
     satisfiable (raws root) /\
     exists sol, out_solution out = Some sol /\ sol <> [] /\ NoDup (dkeys sol) /\ StronglySorted Z.lt (dkeys sol) /\
       (forall a, extends a sol -> cnf_true a (raws root)) /\
       incl (evaluated_vars root) sol /\
       (forall v, In v (dkeys sol) -> In v (fvars (raws root)) \/ In v (dkeys (evaluated_vars root)))) /\
  (out_sat out = false -> out_solution out = None) /\
  closed_graph (out_children out) /\
  (forall h, In h (dkeys (out_children out)) -> (List.length (succs (out_children out) h) <= 2)%nat).
Proof.
  intros hash ifl max wf arr o root db out RO Hg Hn Hw Hf E.
  destruct (mp_facts _ _ _ _ _ _ _ _ _ RO Hg Hn Hw Hf E) as (r & p0 & pf & A & B & -> & -> & -> & _).
  destruct (mr_sound _ _ _ _ _ B) as (S1 & S2 & S3 & S4). split; [|split; [|exact S3]].
  - intros Hs. rewrite S1 in Hs. destruct (p_solution pf) as [sol|]; [|discriminate].
    destruct (S2 sol eq_refl) as (B1 & B2 & B3 & B4 & B5 & B6). rewrite (ms_ev _ _ _ _ _ _ A) in B4, B5.
    split. { destruct (exists_model sol B2) as (a & Ha). exists a. apply B1. exact Ha. }
    exists sol. split; auto. split; auto. split; auto. split; auto. split; auto. split; auto.
    intros v Hv. destruct (B5 v Hv); auto.
  - intros Hs. rewrite S1 in Hs. destruct (p_solution pf) as [[|]|]; auto; [|discriminate].
    destruct (S2 [] eq_refl) as (_ & _ & Q & _). congruence.
Qed.

(* C34: without hash collisions the verdict is exact, and the outcome is that of the single-process run of
   the same options: same verdict; in full runs without thief ordering the same recorded graph (same nodes,
   same children of each) and, unless switched off, the same three reported counts. *)
Lemma p_C34_same_outcome : forall hash insert_fails max worker_fails arrived o root db out,
  root_ok root -> o_gdb o = false -> o_no_mem o = false ->
  (forall k, worker_fails k = false) -> fair arrived -> collision_free hash o root ->
  ends_with_mp hash insert_fails max worker_fails arrived o root db out ->
  (out_sat out = true <-> satisfiable (raws root)) /\
  forall insert_fails1 db1 single, ends_with hash insert_fails1 o root db1 single ->
    out_sat out = out_sat single /\
    (o_exit o = false -> o_thief o = false ->
       (forall h, dget text_eqb h (out_children out) = dget text_eqb h (out_children single)) /\
       (o_no_stats o = false ->
          out_uniques out = out_uniques single /\ out_redundants out = out_redundants single /\
          out_hits out = out_hits single)).
Proof.
  intros hash ifl max wf arr o root db out RO Hg Hn Hw Hf CF E.
  destruct (p_C34_sound _ _ _ _ _ _ _ _ _ RO Hg Hn Hw Hf E) as (Hsound & _).
  destruct (mp_facts _ _ _ _ _ _ _ _ _ RO Hg Hn Hw Hf E) as (r & p0 & pf & A & B & Es & Eo & Ec & Est).
  pose proof (ms_prep _ _ _ _ _ _ A _ (le_n _)) as Hp.
  pose proof (collision_free_no hash o root _ r RO (le_n _) Hp CF) as NC.
  assert (Hv : out_sat out = true <-> satisfiable (raws root)).
  { split; intros H; [apply Hsound; auto|]. rewrite Es. apply (mr_verdict _ _ _ _ _ B NC).
    apply (ms_eq _ _ _ _ _ _ A). exact H. }
  split; auto. intros ifl1 db1 single E1.
  assert (FD : fresh_db o ifl1 db1) by (split; congruence).
  split.
  { apply eq_iff_eq_true. rewrite Hv. symmetry. eapply p_C22_verdict_exact; eauto. }
  intros Hx Ht.
  destruct (ends_solved hash ifl1 o root db1 RO FD single E1) as (r' & p & done & pend & S).
  pose proof (sv_inv _ _ _ _ _ _ _ _ _ _ _ S) as I.
  pose proof (sv_prep _ _ _ _ _ _ _ _ _ _ _ S) as Hp'. rewrite Hp in Hp'. injection Hp' as <-.
  assert (pend = []) as ->.
  { pose proof (sv_done _ _ _ _ _ _ _ _ _ _ _ S) as Hl. unfold loop_done in Hl.
    rewrite Hx, andb_false_r, orb_false_r, (inv_empty _ _ _ _ _ _ _ _ _ _ _ _ _ I) in Hl.
    destruct pend; [auto|discriminate]. }
  destruct (mr_graph _ _ _ _ _ B NC Hx Ht) as (E2 & C2 & K2 & G2).
  pose proof (inv_cover hash o _ _ _ _ _ _ _ _ _ _ I) as C1.
  destruct (inv_graph hash ifl1 o _ _ _ _ _ _ _ _ _ _ I) as [K1 G1].
  destruct (cover_graph _ _ _ _ _ _ _ _ (le_n _) Ht _ _ _ C1 NC K1 G1) as [X1 Y1].
  destruct (cover_graph _ _ _ _ _ _ _ _ (le_n _) Ht _ _ _ C2 NC K2 G2) as [X2 Y2].
  assert (Hget : forall h, dget text_eqb h (out_children out) = dget text_eqb h (out_children single)).
  { intros h. rewrite Ec, (sv_children _ _ _ _ _ _ _ _ _ _ _ S).
    destruct (in_dec text_dec h (dkeys (p_children pf))) as [Hi|Hi].
    - apply X2 in Hi as (G & HG & ->). destruct (Y2 G HG) as (l2 & r2 & L2 & R2 & ->).
      destruct (Y1 G HG) as (l1 & r1 & L1 & R1 & ->). f_equal. f_equal; eapply child_ids_fun; eauto.
    - assert (Hi' : ~ In h (dkeys (p_children p))) by (rewrite X1; rewrite X2 in Hi; exact Hi).
      rewrite (proj2 (dget_None _ tspec _ _) Hi), (proj2 (dget_None _ tspec _ _) Hi'). reflexivity. }
  split; auto. intros Hst.
  pose proof (Est Hst) as S2.
  destruct (sv_stats _ _ _ _ _ _ _ _ _ _ _ S Hst) as (_ & _ & _ & _ & _ & S1 & _).
  eapply stat_row_ext; [|exact S2|exact S1].
  intros h. unfold succs. rewrite <- Ec, <- (sv_children _ _ _ _ _ _ _ _ _ _ _ S), Hget. reflexivity.
Qed.

(*EX
(* three worker processes; the answers arrive in reverse order *)
Definition late : nat -> nat -> bool := fun t k => (20 - 5 * k <? t)%nat.
Example C34_example : root_ok sample /\ fair late /\ collision_free (fun t => t) default_opts sample /\
  exists p waiting, hands_out (fun t => t) no_fail 3 default_opts sample [] p waiting.
Proof.
  split; [exact sample_ok|]. split.
  { intros k. exists 21%nat. intros t H. apply Nat.ltb_lt. lia. }
  split; [apply never_collides|].
  do 2 eexists. exists 40%nat. do 3 eexists. split; [vm_compute; reflexivity|]. split; [vm_compute; reflexivity|].
  split; [|split; [|split; [|split]]].
  2:{ eapply exec_cons; [vm_compute; reflexivity|vm_compute; reflexivity|vm_compute; reflexivity|].
      eapply exec_cons; [vm_compute; reflexivity|vm_compute; reflexivity|vm_compute; reflexivity|].
      apply exec_nil. }
  - discriminate.
  - reflexivity.
  - repeat (eapply drains_cons; [vm_compute; reflexivity|]). apply drains_nil. reflexivity.
  - intros ys zs q E1 Hy Hz He. destruct ys as [|y1 [|y2 ys]]; [congruence| |].
    + injection E1 as E1 _. inversion He as [|? ? ? ? ? ? H1 H2 H3 H4]; subst.
      inversion H4; subst. vm_compute in H3. injection H3 as <-. discriminate.
    + injection E1 as _ _ E1. symmetry in E1. apply app_eq_nil in E1 as [_ E1]. congruence.
Qed.
EX*)

(* C35: if one of the workers reports failure, the program never ends, under every schedule, unless
   exit-upon-solving is on and one of the sets given to a working worker is satisfiable. *)
Lemma p_C35_failure_blocks : forall hash insert_fails max worker_fails arrived o root db p waiting k,
  root_ok root -> o_gdb o = false -> o_no_mem o = false -> (0 < max)%nat ->
  hands_out hash insert_fails max o root db p waiting ->
  (k < max)%nat -> worker_fails k = true ->
  o_exit o = false \/ (forall j x, nth_error waiting j = Some x -> worker_fails j = false -> ~ satisfiable (raws x)) ->
  runs_forever_mp hash insert_fails max worker_fails arrived o root db.
Proof. intros. eapply fails_forever; eauto. Qed.

(* C35: if it ends although a worker reports failure, then by exit-upon-solving, with a solution of the
   input formula. *)
Lemma p_C35_ends_only_by_solution : forall hash insert_fails max worker_fails arrived o root db p waiting k out,
  root_ok root -> o_gdb o = false -> o_no_mem o = false -> (0 < max)%nat ->
  hands_out hash insert_fails max o root db p waiting ->
  (k < max)%nat -> worker_fails k = true ->
  ends_with_mp hash insert_fails max worker_fails arrived o root db out ->
  o_exit o = true /\ out_sat out = true /\
  exists sol, out_solution out = Some sol /\ (forall a, extends a sol -> cnf_true a (raws root)).
Proof.
  intros hash ifl max wf arr o root db p waiting k out RO Hg Hn Hm HO Hk Hw E.
  destruct (ends_by_solution hash ifl o root db RO Hg Hn max Hm wf arr p waiting HO k out Hk Hw E)
    as (A & B & r & p0 & sol & _ & C & D). split; auto. split; auto. exists sol. split; auto. apply D.
Qed.

(* C35: the exception is real: with exit-upon-solving, if a working worker got a satisfiable set, the program
   ends, however many of the others fail. *)
Lemma p_C35_solution_unblocks : forall hash insert_fails max worker_fails arrived o root db p waiting j x,
  root_ok root -> o_gdb o = false -> o_no_mem o = false -> (0 < max)%nat ->
  hands_out hash insert_fails max o root db p waiting ->
  fair arrived -> o_exit o = true -> collision_free hash o root ->
  nth_error waiting j = Some x -> worker_fails j = false -> satisfiable (raws x) ->
  exists out, ends_with_mp hash insert_fails max worker_fails arrived o root db out.
Proof. intros. eapply solution_ends; eauto. Qed.

(*EX
(* worker 0 fails *)
Definition first_fails : nat -> bool := fun k => (k =? 0)%nat.
Example C35_blocks_example : root_ok sample /\ first_fails 0 = true /\ o_exit default_opts = false /\
  exists p waiting, hands_out (fun t => t) no_fail 3 default_opts sample [] p waiting.
Proof. split; [exact sample_ok|]. split; auto. split; auto. apply C34_example. Qed.
Definition exit_opts : opts := mkOpts MODE_LO false false true false false false false false.
Example C35_unblocks_example : first_fails 1 = false /\
  exists p waiting x, hands_out (fun t => t) no_fail 3 exit_opts sample [] p waiting /\
    nth_error waiting 1 = Some x /\ satisfiable (raws x).
Proof.
  split; auto. do 3 eexists. split; [|split].
  - exists 40%nat. do 3 eexists. split; [vm_compute; reflexivity|]. split; [vm_compute; reflexivity|].
    split; [|split; [|split; [|split]]].
    2:{ eapply exec_cons; [vm_compute; reflexivity|vm_compute; reflexivity|vm_compute; reflexivity|].
        eapply exec_cons; [vm_compute; reflexivity|vm_compute; reflexivity|vm_compute; reflexivity|].
        apply exec_nil. }
    + discriminate.
    + reflexivity.
    + repeat (eapply drains_cons; [vm_compute; reflexivity|]). apply drains_nil. reflexivity.
    + intros ys zs q E1 Hy Hz He. destruct ys as [|y1 [|y2 ys]]; [congruence| |].
      * injection E1 as E1 _. inversion He as [|? ? ? ? ? ? H1 H2 H3 H4]; subst.
        inversion H4; subst. vm_compute in H3. injection H3 as <-. discriminate.
      * injection E1 as _ _ E1. symmetry in E1. apply app_eq_nil in E1 as [_ E1]. congruence.
  - reflexivity.
  - exists (fun v => true). intros c H. vm_compute in H.
    repeat (destruct H as [<-|H]; [eexists; split; [left; reflexivity|reflexivity]|]). destruct H.
Qed.
EX*)
