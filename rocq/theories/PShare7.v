(* PShare7.v -- a worker process that could not set up its database access keeps the main process waiting. *)
From Coq Require Import String Ascii ZArith List Bool Lia.
From Verif Require Import Spec PyBase MSet MText MQueue MDb MSolver MProc MShare SpecRun SpecProc SpecShare PLib
  PNode PStep PSolver PP2 PShare6.
Import ListNotations.
Open Scope Z_scope.

Section Blocked.
  Variable hash : text -> digest.
  Variable insert_fails : digest -> bool.
  Variable o : opts.
  Variable seen : list digest.
  Variable max : nat.
  Variable wf : nat -> bool.
  Variable sched : nat -> action.
  Variable linger : nat.
  Hypothesis Hx : o_exit o = false.

  (* a worker that is waited for, has not answered with a result and will not do so *)
  Definition blocked (c : crew) : Prop :=
    exists v, In v (pl_workers (cr_poll c)) /\ (w_reply v = None \/ w_reply v = Some Failed) /\
      forall p, nth_error (cr_procs c) (w_no v) <> Some (Some p).

  Lemma blocked_work lf m k c : blocked c -> blocked (work hash insert_fails o seen lf m k c).
  Proof.
    intros H. unfold work. destruct (nth_error (cr_procs c) k) as [[p|]|] eqn:Ek; auto.
    destruct H as (v & Iv & Rv & Dv).
    assert (Hne : w_no v <> k) by (intros E0; rewrite <- E0 in Ek; exact (Dv _ Ek)).
    destruct (loop_done o p).
    - exists v. cbn [cr_poll cr_procs pl_workers deliver]. split; [|split; auto].
      + apply in_map_iff. exists v. split; auto. apply Nat.eqb_neq in Hne. rewrite Hne. auto.
      + intros p' H. rewrite set_nth_other in H by auto. exact (Dv _ H).
    - assert (G : forall t x, blocked (mkCrew t (set_nth k x (cr_procs c)) (cr_poll c))).
      { intros t x. exists v. cbn [cr_poll cr_procs]. split; auto. split; auto.
        intros p' H. rewrite set_nth_other in H by auto. exact (Dv _ H). }
      destruct (step _ _ _ _ _ _ _); apply G.
  Qed.
  Lemma set_nth_in {A} (y : A) : forall l i w, nth_error l i = Some w -> In y (set_nth i y l) /\ forall v, In v l -> v <> w -> In v (set_nth i y l).
  Proof.
    induction l as [|a l IH]; intros [|i] w H; simpl in H; try discriminate; cbn [set_nth].
    - injection H as ->. split; [left; auto|]. intros v [->|Hv] Hn; [congruence|right; auto].
    - destruct (IH i w H) as [A1 A2]. split; [right; auto|]. intros v [->|Hv] Hn; [left; auto|right; auto].
  Qed.
  Lemma blocked_poll c pl stop : blocked c -> poll_step (o_exit o) (fun _ => true) (cr_poll c) = Ok (pl, stop) ->
    stop = false /\ blocked (mkCrew (cr_table c) (cr_procs c) pl).
  Proof.
    intros (v & Iv & Rv & Dv) E. unfold poll_step in E. rewrite Hx in E.
    set (i := (pl_i (cr_poll c) mod List.length (pl_workers (cr_poll c)))%nat) in E.
    destruct (nth_error (pl_workers (cr_poll c)) i) as [w|] eqn:Ei; [|discriminate].
    destruct (w_reply w) as [[|s ch sol]|] eqn:Er.
    - apply bind_ok in E as (q & _ & E). injection E as <- <-. split; auto. unfold blocked. cbn [cr_poll cr_procs pl_workers].
      destruct (set_nth_in (mkWorker (w_no w) (w_node w) None) _ _ _ Ei) as [A1 A2].
      destruct (Nat.eq_dec (w_no v) (w_no w)) as [En|En].
      + eexists. split; [exact A1|]. split; [left; reflexivity|]. cbn [w_no]. rewrite <- En. auto.
      + exists v. split; [|auto]. apply A2; auto. congruence.
    - rewrite andb_false_r in E. injection E as <- <-. split; auto. exists v. cbn [cr_poll cr_procs pl_workers].
      split; [|auto]. eapply pop_nth_keeps; eauto. intros ->. destruct Rv; congruence.
    - injection E as <- <-. split; auto. exists v. auto.
  Qed.
  Lemma blocked_loop : forall fuel lf m t c c', blocked c ->
    share_loop hash insert_fails o seen sched linger fuel lf m t c <> Ok c'.
  Proof.
    induction fuel; intros lf m t c c' H E; cbn [share_loop] in E;
      (assert (Hw : pl_workers (cr_poll c) <> []) by (destruct H as (v & Iv & _); destruct (pl_workers (cr_poll c)); [destruct Iv|discriminate]);
       destruct (pl_workers (cr_poll c)) eqn:Ew; [congruence|]; clear Hw Ew); [discriminate|].
    destruct (sched t) as [k|].
    - eapply IHfuel; [|exact E]. apply blocked_work, H.
    - apply bind_ok in E as ([pl stop] & E1 & E). destruct (blocked_poll c pl stop H E1) as [-> H']. eapply IHfuel; eauto.
  Qed.

  Lemma pop_n_len : forall k q xs q', pop_n k q = Ok (xs, q') -> List.length xs = k.
  Proof.
    induction k; intros q xs q' E; cbn [pop_n] in E; [injection E as <- _; auto|].
    apply bind_ok in E as ([x q1] & _ & E). apply bind_ok in E as ([ys q2] & E1 & E). injection E as <- _. cbn. f_equal. eauto.
  Qed.
  Lemma enter_nth : forall nodes k j db, (j < List.length nodes)%nat -> wf (k + j)%nat = true ->
    nth_error (enter_all hash o wf k nodes db) j = Some None /\
    exists w, In w (threads k nodes (enter_all hash o wf k nodes db)) /\ w_no w = (k + j)%nat /\ w_reply w = Some Failed.
  Proof.
    induction nodes as [|x nodes IH]; intros k j db Hj Hw; [cbn in Hj; lia|]. cbn [enter_all threads].
    destruct j as [|j].
    - rewrite Nat.add_0_r in *. unfold enter. rewrite Hw. split; [reflexivity|]. eexists. split; [left; reflexivity|]. split; auto.
    - cbn in Hj. destruct (IH (Datatypes.S k) j db ltac:(lia)) as (A & w & B & C & D); [rewrite <- Hw; f_equal; lia|].
      split; [exact A|]. exists w. split; [right; exact B|]. split; [lia|auto].
  Qed.
  Lemma split_blocked k fuel lf m p p' : (k < max)%nat -> wf k = true ->
    split_sh hash insert_fails o seen max wf sched linger fuel lf m p <> Ok p'.
  Proof.
    intros Hk Hw E. unfold split_sh in E. apply bind_ok in E as ([nodes q] & E1 & E). cbv zeta in E.
    apply bind_ok in E as (c & E2 & _). revert E2. apply blocked_loop.
    apply pop_n_len in E1. destruct (enter_nth nodes 0 k (p_db p) ltac:(lia) Hw) as (A & w & B & C & D).
    exists w. cbn [cr_poll pl_workers cr_procs]. split; auto. split; auto. rewrite C. cbn [plus]. intros p0 Q. congruence.
  Qed.

  Lemma run_blocked k m lf : (k < max)%nat -> wf k = true -> forall p0 xs p, exec hash insert_fails o seen lf m p0 xs p ->
    xs <> [] -> queue_size (p_queue p) = max ->
    (forall ys zs q, xs = ys ++ zs -> ys <> [] -> zs <> [] ->
       exec hash insert_fails o seen lf m p0 ys q -> queue_size (p_queue q) <> max) ->
    forall fuel lf' p', run_sh hash insert_fails o seen max wf sched linger fuel lf' m true p0 <> Ok p'.
  Proof.
    intros Hk Hw. assert (Hm : (0 <? max)%nat = true) by (apply Nat.ltb_lt; lia).
    induction 1 as [|p0 x q p1 xs p D Q St Ex IH]; intros Hne Hs Hfirst fuel lf' p' E; [congruence|].
    destruct fuel as [|f]; cbn [run_sh] in E; rewrite D in E; [discriminate|].
    apply bind_ok in E as (p1' & St' & E).
    assert (p1' = p1) as ->.
    { pose proof (step_mono hash insert_fails o seen lf (Nat.max lf lf') (Nat.le_max_l _ _) m p0 _ St).
      pose proof (step_mono hash insert_fails o seen lf' (Nat.max lf lf') (Nat.le_max_r _ _) m p0 _ St'). congruence. }
    rewrite Hm in E. cbn [andb] in E. destruct (max =? queue_size (p_queue p1))%nat eqn:Es.
    - apply bind_ok in E as (p2 & E & _). revert E. eapply split_blocked; eauto.
    - destruct xs as [|y xs].
      + inversion Ex; subst. rewrite Nat.eqb_refl in Es. discriminate.
      + revert E. apply IH; auto; [discriminate|]. intros ys zs q' Exs Hy Hz He. apply (Hfirst (x :: ys) zs).
        * cbn. f_equal. auto.
        * discriminate.
        * auto.
        * econstructor; eauto.
  Qed.
End Blocked.

Lemma setup_failure_blocks hash ifl max wf sched linger o root p waiting k : o_exit o = false ->
  hands_out hash ifl max o root [] p waiting -> (k < max)%nat -> wf k = true ->
  forall fuel lf out, solve_set_sh hash ifl max wf sched linger fuel lf o root [] <> Ok out.
Proof.
  intros Hx (lf0 & r & p0 & xs & E1 & E2 & Hne & Ex & Hs & _ & Hf) Hk Hw fuel lf out E.
  unfold solve_set_sh in E. apply bind_ok in E as (tp & _ & E). apply bind_ok in E as (r' & E1' & E).
  assert (r' = r) as ->.
  { pose proof (prepare_root_mono hash o root lf0 (Nat.max lf0 lf) r (Nat.le_max_l _ _) E1).
    pose proof (prepare_root_mono hash o root lf (Nat.max lf0 lf) r' (Nat.le_max_r _ _) E1'). congruence. }
  cbv zeta in E. destruct (is_set_solved _ _ _ _); [cbn in E; discriminate|].
  rewrite E2 in E. cbn [bind] in E. apply bind_ok in E as (pf & E & _).
  rewrite (proj2 (Nat.ltb_lt 0 max)) in E by lia.
  assert (Hsn : loaded_seen o [] (Z.of_nat (List.length (clauses r))) = []).
  { unfold loaded_seen. destruct (o_gdb o && negb (o_no_mem o)); reflexivity. }
  rewrite Hsn in E. revert E. eapply run_blocked; eauto.
Qed.
