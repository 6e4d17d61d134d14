(* PShare6.v -- a worker process that has died keeps the main process waiting for ever. *)
From Coq Require Import String Ascii ZArith List Bool Lia.
From Verif Require Import Spec PyBase MSet MText MQueue MDb MSolver MProc MShare SpecRun SpecProc SpecShare PLib
  PNode PStep PSolver PP2.
Import ListNotations.
Open Scope Z_scope.

Section Stuck.
  Variable hash : text -> digest.
  Variable insert_fails : digest -> bool.
  Variable o : opts.
  Variable seen : list digest.
  Variable max : nat.
  Variable sched : nat -> action.
  Variable linger : nat.
  Hypothesis Hx : o_exit o = false.

  (* worker v is still waited for, but its process is gone; the other workers have not failed *)
  Definition has_dead (c : crew) : Prop :=
    (exists v, In v (pl_workers (cr_poll c)) /\ w_reply v = None /\
       forall p, nth_error (cr_procs c) (w_no v) <> Some (Some p)) /\
    (forall v, In v (pl_workers (cr_poll c)) -> w_reply v <> Some Failed).

  Lemma set_nth_same {A} (x : A) : forall l k y, nth_error (set_nth k x l) k = Some y -> y = x.
  Proof. induction l; intros [|k] y H; simpl in H; try discriminate; try congruence; eauto. Qed.
  Lemma set_nth_other {A} (x : A) : forall l k j, j <> k -> nth_error (set_nth k x l) j = nth_error l j.
  Proof. induction l; intros [|k] [|j] H; simpl; auto; try congruence. Qed.

  Lemma dead_work lf m k c : has_dead c -> has_dead (work hash insert_fails o seen lf m k c).
  Proof.
    intros H. unfold work. destruct (nth_error (cr_procs c) k) as [[p|]|] eqn:Ek; auto.
    destruct H as [(v & Iv & Rv & Dv) Hf].
    assert (Hne : w_no v <> k) by (intros E0; rewrite <- E0 in Ek; exact (Dv _ Ek)).
    destruct (loop_done o p).
    - split; cbn [cr_poll cr_procs pl_workers deliver].
      + exists v. split; [|split; auto].
        * apply in_map_iff. exists v. split; auto. apply Nat.eqb_neq in Hne. rewrite Hne. auto.
        * intros p' H. rewrite set_nth_other in H by auto. exact (Dv _ H).
      + intros w Hw. apply in_map_iff in Hw as (w0 & <- & Hw). destruct (w_no w0 =? k)%nat; auto. discriminate.
    - assert (G : forall t x, has_dead (mkCrew t (set_nth k x (cr_procs c)) (cr_poll c))).
      { intros t x. split; cbn [cr_poll cr_procs]; auto. exists v. split; auto. split; auto.
        intros p' H. rewrite set_nth_other in H by auto. exact (Dv _ H). }
      destruct (step _ _ _ _ _ _ _); apply G.
  Qed.
  Lemma pop_nth_incl {A} : forall (l : list A) i x, In x (pop_nth i l) -> In x l.
  Proof. induction l; intros [|i] x H; simpl in *; auto. destruct H; auto. right. eauto. Qed.
  Lemma pop_nth_keeps {A} : forall (l : list A) i x y, nth_error l i = Some y -> In x l -> x <> y -> In x (pop_nth i l).
  Proof.
    induction l; intros [|i] x y H Hi Hn; simpl in *; try discriminate.
    - destruct Hi as [->|]; auto. congruence.
    - destruct Hi as [->|]; auto. right. eauto.
  Qed.
  Lemma dead_poll c : has_dead c -> exists pl, poll_step (o_exit o) (fun _ => true) (cr_poll c) = Ok (pl, false) /\
    has_dead (mkCrew (cr_table c) (cr_procs c) pl).
  Proof.
    intros [(v & Iv & Rv & Dv) Hf]. unfold poll_step. rewrite Hx.
    set (i := (pl_i (cr_poll c) mod List.length (pl_workers (cr_poll c)))%nat).
    destruct (nth_error (pl_workers (cr_poll c)) i) as [w|] eqn:Ei.
    2:{ exfalso. apply nth_error_None in Ei. assert (List.length (pl_workers (cr_poll c)) <> 0%nat) by (destruct (pl_workers (cr_poll c)); [destruct Iv|discriminate]).
        pose proof (Nat.mod_upper_bound (pl_i (cr_poll c)) _ H). lia. }
    destruct (w_reply w) as [[|s ch sol]|] eqn:Er.
    - exfalso. apply nth_error_In in Ei. exact (Hf w Ei Er).
    - rewrite andb_false_r. eexists. split; [reflexivity|]. split; cbn [cr_poll cr_procs pl_workers].
      + exists v. split; [|auto]. eapply pop_nth_keeps; eauto. intros ->. congruence.
      + intros x H. apply Hf. eapply pop_nth_incl; eauto.
    - eexists. split; [reflexivity|]. split; cbn [cr_poll cr_procs pl_workers]; auto. exists v. auto.
  Qed.
  Lemma dead_stuck : forall fuel lf m t c, has_dead c ->
    share_loop hash insert_fails o seen sched linger fuel lf m t c = OutOfFuel.
  Proof.
    induction fuel; intros lf m t c H; cbn [share_loop].
    - destruct H as [(v & Iv & _) _]. destruct (pl_workers (cr_poll c)); [destruct Iv|auto].
    - assert (Hw : pl_workers (cr_poll c) <> []) by (destruct H as [(v & Iv & _) _]; destruct (pl_workers (cr_poll c)); [destruct Iv|discriminate]).
      destruct (pl_workers (cr_poll c)) eqn:Ew; [congruence|]. clear Hw Ew. destruct (sched t) as [k|].
      + apply IHfuel, dead_work, H.
      + destruct (dead_poll c H) as (pl & -> & H'). cbn [bind]. auto.
  Qed.

  (* a move without an exception does not depend on a large enough bound of the inner loops *)
  Definition calm (lf : nat) (m : mode) (k : nat) (c : crew) : bool :=
    match nth_error (cr_procs c) k with
    | Some (Some p) => if loop_done o p then true
        else match step hash insert_fails o seen lf m (with_db p (cr_table c)) with Ok _ => true | _ => false end
    | _ => true end.
  Lemma calm_work lf lf' m k c : (lf <= lf')%nat -> calm lf m k c = true ->
    work hash insert_fails o seen lf' m k c = work hash insert_fails o seen lf m k c.
  Proof.
    intros H. unfold calm, work. destruct (nth_error (cr_procs c) k) as [[p|]|]; auto. destruct (loop_done o p); auto.
    pose proof (step_mono hash insert_fails o seen lf lf' H m (with_db p (cr_table c))) as M.
    destruct (step _ _ _ _ lf _ _) eqn:E; try discriminate. intros _. rewrite (M _ eq_refl). auto.
  Qed.
  Fixpoint moves (lf : nat) (m : mode) (ks : list nat) (c : crew) : option crew :=
    match ks with
    | [] => Some c
    | k :: t => match pl_workers (cr_poll c) with [] => None | _ =>
        if calm lf m k c then moves lf m t (work hash insert_fails o seen lf m k c) else None end
    end.
  Lemma moves_loop lf lf' m : (lf <= lf')%nat -> forall ks c c' t f, moves lf m ks c = Some c' ->
    (forall j k, nth_error ks j = Some k -> sched (t + j) = Work k) ->
    share_loop hash insert_fails o seen sched linger (List.length ks + f) lf' m t c =
    share_loop hash insert_fails o seen sched linger f lf' m (t + List.length ks) c'.
  Proof.
    intros H. induction ks as [|k ks IH]; intros c c' t f E Hs; cbn [moves] in E.
    - injection E as <-. cbn [List.length]. rewrite Nat.add_0_r. reflexivity.
    - cbn [List.length plus share_loop]. destruct (pl_workers (cr_poll c)) eqn:Ew; [discriminate|].
      pose proof (Hs 0%nat k eq_refl) as Hs0. rewrite Nat.add_0_r in Hs0. rewrite Hs0.
      destruct (calm lf m k c) eqn:Ec; [|discriminate]. rewrite (calm_work lf lf' m k c H Ec).
      rewrite (IH _ c' (Datatypes.S t) f E).
      + f_equal. lia.
      + intros j k' Hj. replace (Datatypes.S t + j)%nat with (t + Datatypes.S j)%nat by lia. apply Hs. exact Hj.
  Qed.
End Stuck.

Lemma hang_general hash ifl o max wf sched linger (Hx : o_exit o = false) root db lf0 ks k r tp p0 p1 nodes q c1 p v :
  to_pretty root = Ok tp -> prepare_root hash lf0 o root = Ok r ->
  is_set_solved o (loaded_solved o db (Z.of_nat (List.length (clauses r)))) (sid r) db = false ->
  start hash o r db = Ok p0 -> loop_done o p0 = false ->
  step hash ifl o (loaded_seen o db (Z.of_nat (List.length (clauses r)))) lf0 (input_mode o) p0 = Ok p1 ->
  (0 < max)%nat -> queue_size (p_queue p1) = max -> pop_n max (p_queue p1) = Ok (nodes, q) ->
  (let ps := enter_all hash o wf 0 nodes (p_db p1) in
   moves hash ifl o (loaded_seen o db (Z.of_nat (List.length (clauses r)))) lf0 (input_mode o) ks
     (mkCrew (p_db p1) ps (mkPoll (threads 0 nodes ps) 0 (with_queue p1 q)))) = Some c1 ->
  (forall j k, nth_error ks j = Some k -> sched j = Work k) -> sched (List.length ks) = Work k ->
  nth_error (cr_procs c1) k = Some (Some p) -> loop_done o p = false ->
  (forall lf, exists e, step hash ifl o (loaded_seen o db (Z.of_nat (List.length (clauses r)))) lf (input_mode o) (with_db p (cr_table c1)) = Err e) ->
  In v (pl_workers (cr_poll c1)) -> w_no v = k -> w_reply v = None ->
  (forall w, In w (pl_workers (cr_poll c1)) -> w_reply w <> Some Failed) ->
  runs_forever_sh hash ifl max wf sched linger o root db.
Proof.
  intros E1 E2 E3 E4 E5 E6 Hm E7 E8 E9 Hs Hk E10 E11 E12 Iv Nv Rv Hf.
  exists (lf0 + List.length ks + 3)%nat. intros fuel lf F1 F2. unfold solve_set_sh. rewrite E1. cbn [bind].
  rewrite (prepare_root_mono hash o root lf0 lf r) by (auto; lia). cbn [bind]. rewrite E3, E4. cbn [bind].
  destruct fuel as [|f]; [lia|]. cbn [run_sh]. rewrite E5.
  rewrite (step_mono hash ifl o _ lf0 lf ltac:(lia) (input_mode o) p0 _ E6). cbn [bind]. rewrite E7, Nat.eqb_refl.
  assert (Hm' : (0 <? max)%nat = true) by (apply Nat.ltb_lt; auto). rewrite Hm'. cbn [andb]. unfold split_sh. rewrite E8. cbn [bind].
  cbv zeta in E9. destruct (Nat.le_exists_sub (List.length ks + 1) f ltac:(lia)) as (g & Eg & _).
  replace f with (List.length ks + Datatypes.S g)%nat by lia.
  rewrite (moves_loop hash ifl o _ sched linger lf0 lf (input_mode o) ltac:(lia) ks _ c1 0 (Datatypes.S g) E9 Hs).
  cbn [plus share_loop]. destruct (pl_workers (cr_poll c1)) as [|w0 ws] eqn:Ew; [destruct Iv|]. rewrite Hk.
  rewrite dead_stuck; auto. unfold work. rewrite E10, E11. destruct (E12 lf) as (e & ->).
  split; cbn [cr_poll cr_procs]; rewrite Ew; auto. exists v. split; auto. split; auto.
  intros p' H. rewrite Nv in H. apply set_nth_same in H. discriminate.
Qed.
