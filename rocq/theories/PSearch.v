(* PSearch.v -- the order of expansion, comparison of runs, the recorded graph as a graph of formulas. *)
From Coq Require Import String Ascii ZArith List Bool Lia Permutation Sorted.
From Verif Require Import Spec PyBase MSet MText MQueue MDb MSolver SpecRun PLib PClause PRename PLo PNorm PEval PText PQueue PNode PStep PRun PStats PSolver PSolve.
Import ListNotations.
Open Scope Z_scope.


Lemma qrep_drains rdb : forall xs q ever ys, qrep rdb q ever xs -> drains q ys -> ys = map (view rdb) xs.
Proof.
  induction xs as [|x xs IH]; intros q ever ys Q D.
  - inv D; auto. rewrite (qrep_pop_empty _ _ _ Q) in H. discriminate.
  - destruct (qrep_pop _ _ _ _ _ Q) as (q1 & E & Q1). inv D.
    + rewrite (qrep_empty _ _ _ _ Q) in H. discriminate.
    + rewrite E in H. inv H. simpl. f_equal. eapply IH; eauto.
Qed.
Lemma drains_total rdb : forall xs q ever, qrep rdb q ever xs -> drains q (map (view rdb) xs).
Proof.
  induction xs as [|x xs IH]; intros q ever Q; simpl.
  - constructor. rewrite (qrep_empty _ _ _ _ Q); auto.
  - destruct (qrep_pop _ _ _ _ _ Q) as (q1 & E & Q1). econstructor; eauto.
Qed.

Section Exec.
  Variable hash : text -> digest.
  Variable insert_fails : digest -> bool.
  Variable o : opts.
  Variable seen_sets : list digest.
  Hypothesis Hgdb : o_gdb o = true -> seen_sets = [] /\ forall h, insert_fails h = false.
  Variable F : list (list Z).
  Variables n L K lf : nat.
  Variable m : mode.
  Hypothesis Hlf : (lo_bound n L K <= lf)%nat.
  Variable db0 : table.
  Hypothesis Hdb0 : o_gdb o = true -> db0 = [].
  Notation INV := (Inv hash o F n L K lf m db0).

  Lemma exec_inv r p xs p' : exec hash insert_fails o seen_sets lf m p xs p' ->
    forall done pend, INV r p done pend ->
    exists done' pend', INV r p' (done ++ done') pend' /\ xs = map (fun e => view (o_rdb o) (e_node e)) done'.
  Proof.
    induction 1 as [p|p x q p1 xs p' Hl Hp Hs He IH]; intros done pend I.
    - exists [], pend. rewrite app_nil_r; auto.
    - destruct pend as [|y ys].
      { rewrite (qrep_pop_empty _ _ _ (i_queue _ _ _ _ _ _ _ _ _ _ _ _ _ I)) in Hp. discriminate. }
      destruct (qrep_pop _ _ _ _ _ (i_queue _ _ _ _ _ _ _ _ _ _ _ _ _ I)) as (q1 & E & _).
      rewrite E in Hp; inv Hp.
      destruct (step_inv hash insert_fails o seen_sets Hgdb F n L K lf m Hlf db0 Hdb0 r p done y ys I)
        as (p2 & k1 & k2 & E2 & I' & _). rewrite Hs in E2; inv E2.
      destruct (IH _ _ I') as (d' & pe & I2 & Ex). exists ((y, k1, k2) :: d'), pe.
      rewrite <- app_assoc in I2. split; [exact I2|]. simpl. f_equal; auto.
  Qed.
End Exec.

Lemma depth_view rdb x : depth (view rdb x) = depth x. Proof. apply view_ev_len. Qed.

Section ExecFacts.
  Variable hash : text -> digest.
  Variable insert_fails : digest -> bool.
  Variable o : opts.
  Variable root : cset.
  Variable db : table.
  Hypothesis RO : root_ok root.
  Hypothesis FD : fresh_db o insert_fails db.
  (* all facts about the expansion order at once *)
  Lemma exec_facts lf r p0 xs p ps :
    (root_bound root <= lf)%nat -> prepare_root hash lf o root = Ok r -> start hash o r db = Ok p0 ->
    exec hash insert_fails o [] lf (input_mode o) p0 xs p -> drains (p_queue p) ps ->
    NoDup (map sid (xs ++ ps)) /\ dkeys (p_children p) = map sid (xs ++ ps) /\
    StronglySorted le (map depth (xs ++ ps)) /\
    (forall x y, In x ps -> In y (xs ++ ps) -> (depth y <= S (depth x))%nat).
  Proof.
    intros Hlf Hp Hs He Hd.
    destruct (prepare_root_spec hash o lf (root_L root) root RO (root_below root) Hlf)
      as (r0 & Ep & N & Hsd & Hc & W & Hev & Heq). rewrite Hp in Ep; inv Ep.
    destruct (start_inv hash o (raws root) (root_n root) (root_L root) (root_K root) lf (input_mode o) db r0
                N Hsd (or_intror Hc) W) as (p1 & Es & I0). rewrite Hs in Es; inv Es.
    assert (Er : set_hash r0 (Some (sid r0)) = r0) by (rewrite <- Hc; destruct r0; auto). rewrite Er in I0.
    destruct (exec_inv hash insert_fails o [] (fun Hg => conj eq_refl (proj2 (proj1 FD Hg))) _ _ _ _ lf _ Hlf db
               (fun Hg => proj1 (proj1 FD Hg)) r0 _ _ _ He _ _ I0) as (done & pend & I & Ex).
    cbn [app] in I. pose proof (qrep_drains _ _ _ _ _ (i_queue _ _ _ _ _ _ _ _ _ _ _ _ _ I) Hd) as ->.
    assert (Eall : xs ++ map (view (o_rdb o)) pend = map (view (o_rdb o)) (ys done pend)).
    { unfold ys. rewrite map_app, map_map. subst xs. auto. }
    assert (Eid : map sid (map (view (o_rdb o)) (ys done pend)) = map sid (ys done pend)).
    { rewrite map_map. apply map_ext. intros; apply view_sid. }
    assert (Edp : map depth (map (view (o_rdb o)) (ys done pend)) = map depth (ys done pend)).
    { rewrite map_map. apply map_ext. intros; apply depth_view. }
    rewrite Eall, Eid, Edp. split; [apply I|]. split; [apply I|]. split; [apply I|].
    intros x y Hx Hy. apply in_map_iff in Hx as (x' & <- & Hx). apply in_map_iff in Hy as (y' & <- & Hy).
    rewrite !depth_view. apply (i_depth _ _ _ _ _ _ _ _ _ _ _ _ _ I); auto.
  Qed.
End ExecFacts.

(* ---- two runs that visit the same sets ---- *)
Definition kn (keys : list digest) (k : kid) : list cset :=
  match k with KNode c => if existsb (text_eqb (sid c)) keys then [] else [c] | _ => [] end.
Definition nn (keys : list digest) (k1 k2 : kid) : list cset :=
  kn keys k1 ++ kn (keys ++ map sid (kn keys k1)) k2.
Lemma dmem_keys {V} h (d : list (digest * V)) : dmem text_eqb h d = existsb (text_eqb h) (dkeys d).
Proof.
  destruct (existsb (text_eqb h) (dkeys d)) eqn:E.
  - apply existsb_exists in E as (x & Hx & Ex). apply text_eqb_eq in Ex as <-. apply (dmem_In _ tspec); auto.
  - apply (dmem_false _ tspec). intros Hi. assert (existsb (text_eqb h) (dkeys d) = true); [|congruence].
    apply existsb_exists. exists h; split; auto. apply text_eqb_refl.
Qed.
Lemma new_nodes_nn o pid k1 k2 p : In pid (dkeys (p_children p)) ->
  new_nodes o pid k1 k2 p = nn (dkeys (p_children p)) k1 k2.
Proof.
  intros Hp.
  assert (G : forall k pp, (match k with KNode c => if is_new k pp then [c] else [] | _ => [] end) = kn (dkeys (p_children pp)) k).
  { intros k pp. destruct k as [|c]; auto. unfold is_new, kn. rewrite dmem_keys. destruct (existsb _ _); auto. }
  unfold new_nodes, nn. rewrite !G. f_equal. f_equal. rewrite upd_keys by auto. f_equal.
  unfold kn. destruct k1 as [|c]; auto.
  unfold is_new. rewrite dmem_keys. destruct (existsb _ _); auto.
Qed.
Lemma assoc_ext {V} (d d' : list (digest * V)) : dkeys d = dkeys d' -> NoDup (dkeys d) ->
  (forall k, In k (dkeys d) -> dget text_eqb k d = dget text_eqb k d') -> d = d'.
Proof.
  revert d'. induction d as [|[k v] d IH]; intros [|[k' v'] d'] E ND H; try discriminate; auto.
  simpl in E. injection E as <- E. inv ND.
  assert (v = v').
  { specialize (H k (or_introl eq_refl)). simpl in H. rewrite text_eqb_refl in H. congruence. }
  subst. f_equal. apply IH; auto. intros h Hh. specialize (H h (or_intror Hh)). simpl in H.
  destruct (text_eqb_spec h k); [subst; contradiction|auto].
Qed.

Section Lock.
  Variable hash : text -> digest.
  Variables if1 if2 : digest -> bool.
  Variables o1 o2 : opts.
  Variables s1 s2 : list digest.
  Hypothesis Hg1 : o_gdb o1 = true -> s1 = [] /\ forall h, if1 h = false.
  Hypothesis Hg2 : o_gdb o2 = true -> s2 = [] /\ forall h, if2 h = false.
  Variable F : list (list Z).
  Variables n L K lf : nat.
  Variable m : mode.
  Hypothesis Hlf : (lo_bound n L K <= lf)%nat.
  Variables d1 d2 : table.
  Hypothesis Hd1 : o_gdb o1 = true -> d1 = [].
  Hypothesis Hd2 : o_gdb o2 = true -> d2 = [].
  Hypothesis Erdb : o_rdb o1 = o_rdb o2.
  Hypothesis Ez : o_sort_by_size o1 = o_sort_by_size o2.
  Hypothesis Et : o_thief o1 = o_thief o2.
  Notation INV1 := (Inv hash o1 F n L K lf m d1).
  Notation INV2 := (Inv hash o2 F n L K lf m d2).

  Lemma prepared_lock c k : prepared hash o1 lf m c k -> prepared hash o2 lf m c k.
  Proof. intros P. inv P; [constructor; auto|]. constructor; auto. rewrite <- Ez, <- Et. auto. Qed.
  Lemma expands_lock x k1 k2 : expands hash o1 lf m x k1 k2 -> expands hash o2 lf m x k1 k2.
  Proof.
    intros (l & r & E & P1 & P2). exists l, r. rewrite <- Erdb. split; auto. split; apply prepared_lock; auto.
  Qed.
  Lemma step_lock r p1 p2 done x xs : INV1 r p1 done (x :: xs) -> INV2 r p2 done (x :: xs) ->
    exists p1' p2' e pend', step hash if1 o1 s1 lf m p1 = Ok p1' /\ step hash if2 o2 s2 lf m p2 = Ok p2' /\
      INV1 r p1' (done ++ [e]) pend' /\ INV2 r p2' (done ++ [e]) pend'.
  Proof.
    intros I1 I2.
    destruct (step_inv hash if1 o1 s1 Hg1 F n L K lf m Hlf d1 Hd1 r p1 done x xs I1) as (p1' & a1 & a2 & E1 & J1 & X1).
    destruct (step_inv hash if2 o2 s2 Hg2 F n L K lf m Hlf d2 Hd2 r p2 done x xs I2) as (p2' & b1 & b2 & E2 & J2 & X2).
    destruct (expands_fun _ _ _ _ _ _ _ _ _ (expands_lock _ _ _ X1) X2) as [<- <-].
    assert (Hx : In (sid x) (map sid (ys done (x :: xs)))) by (apply in_map, in_app_iff; simpl; auto).
    assert (Hn : new_nodes o1 (sid x) a1 a2 p1 = new_nodes o2 (sid x) a1 a2 p2).
    { rewrite !new_nodes_nn.
      - rewrite (i_keys _ _ _ _ _ _ _ _ _ _ _ _ _ I1), (i_keys _ _ _ _ _ _ _ _ _ _ _ _ _ I2). auto.
      - rewrite (i_keys _ _ _ _ _ _ _ _ _ _ _ _ _ I2). auto.
      - rewrite (i_keys _ _ _ _ _ _ _ _ _ _ _ _ _ I1). auto. }
    rewrite <- Hn in J2. exists p1', p2', (x, a1, a2), (xs ++ new_nodes o1 (sid x) a1 a2 p1). auto.
  Qed.
  Lemma lock_done r p1 p2 done pend : INV1 r p1 done pend -> INV2 r p2 done pend -> o_exit o1 = o_exit o2 ->
    loop_done o1 p1 = loop_done o2 p2.
  Proof.
    intros I1 I2 Ee. unfold loop_done.
    rewrite (inv_empty _ _ _ _ _ _ _ _ _ _ _ _ _ I1), (inv_empty _ _ _ _ _ _ _ _ _ _ _ _ _ I2).
    rewrite (i_sol _ _ _ _ _ _ _ _ _ _ _ _ _ I1), (i_sol _ _ _ _ _ _ _ _ _ _ _ _ _ I2), Ee. auto.
  Qed.
  Lemma run_lock : o_exit o1 = o_exit o2 -> forall f1 f2 r p1 p2 p1' p2' done pend,
    INV1 r p1 done pend -> INV2 r p2 done pend ->
    run hash if1 o1 s1 f1 lf m p1 = Ok p1' -> run hash if2 o2 s2 f2 lf m p2 = Ok p2' ->
    exists done' pend', INV1 r p1' done' pend' /\ INV2 r p2' done' pend'.
  Proof.
    intros Ee. induction f1 as [|f1 IH]; intros f2 r p1 p2 p1' p2' done pend I1 I2 R1 R2.
    - cbn [run] in R1. destruct (loop_done o1 p1) eqn:El; [|discriminate]. inv R1.
      rewrite (lock_done _ _ _ _ _ I1 I2 Ee) in El. destruct f2; cbn [run] in R2; rewrite El in R2; inv R2; eauto.
    - cbn [run] in R1. pose proof (lock_done _ _ _ _ _ I1 I2 Ee) as El. destruct (loop_done o1 p1) eqn:El1.
      + inv R1. destruct f2; cbn [run] in R2; rewrite <- El in R2; inv R2; eauto.
      + destruct f2 as [|f2]; cbn [run] in R2; rewrite <- El in R2; [discriminate|].
        destruct pend as [|x xs].
        { unfold loop_done in El1. rewrite (inv_empty _ _ _ _ _ _ _ _ _ _ _ _ _ I1) in El1. discriminate. }
        destruct (step_lock r p1 p2 done x xs I1 I2) as (q1 & q2 & e & pe & E1 & E2 & J1 & J2).
        rewrite E1 in R1; rewrite E2 in R2; cbn [bind] in *. eapply IH; eauto.
  Qed.
  (* o1 does not stop early; o2 may *)
  Lemma run_early : o_exit o1 = false -> forall f2 f1 r p1 p2 p1' p2' done pend,
    INV1 r p1 done pend -> INV2 r p2 done pend ->
    run hash if1 o1 s1 f1 lf m p1 = Ok p1' -> run hash if2 o2 s2 f2 lf m p2 = Ok p2' ->
    exists done' pend' more, INV2 r p2' done' pend' /\ INV1 r p1' (done' ++ more) [] /\ loop_done o2 p2' = true /\
      (exists added, ys (done' ++ more) [] = ys done' pend' ++ added) /\ (pend' = [] -> more = []).
  Proof.
    intros Ee.
    assert (Stop : forall f1 r p1 p2 p1' done pend, loop_done o2 p2 = true ->
      INV1 r p1 done pend -> INV2 r p2 done pend ->
      run hash if1 o1 s1 f1 lf m p1 = Ok p1' -> 
      exists done' pend' more, INV2 r p2 done' pend' /\ INV1 r p1' (done' ++ more) [] /\ loop_done o2 p2 = true /\
        (exists added, ys (done' ++ more) [] = ys done' pend' ++ added) /\ (pend' = [] -> more = [])).
    { intros f1 r p1 p2 p1' done pend Hl I1 I2 R1.
      destruct pend as [|x0 xs0].
      { assert (El1 : loop_done o1 p1 = true).
        { unfold loop_done. rewrite (inv_empty _ _ _ _ _ _ _ _ _ _ _ _ _ I1). auto. }
        exists done, [], []. rewrite app_nil_r.
        assert (p1' = p1) by (destruct f1; cbn [run] in R1; rewrite El1 in R1; congruence). subst p1'.
        split; auto. split; auto. split; auto. split; auto. exists []. rewrite app_nil_r. auto. }
      destruct (run_ok hash if1 o1 s1 Hg1 F n L K lf m Hlf d1 Hd1 f1 r p1 p1' done (x0 :: xs0) I1 R1)
        as (more & pe & J & Hl1 & ad & Had).
      assert (pe = []).
      { unfold loop_done in Hl1. rewrite Ee, andb_false_r, orb_false_r in Hl1.
        rewrite (inv_empty _ _ _ _ _ _ _ _ _ _ _ _ _ J) in Hl1. destruct pe; [auto|discriminate]. }
      subst. exists done, (x0 :: xs0), more. split; auto. split; auto. split; auto. split; eauto. discriminate. }
    induction f2 as [|f2 IH]; intros f1 r p1 p2 p1' p2' done pend I1 I2 R1 R2; cbn [run] in R2;
      destruct (loop_done o2 p2) eqn:El; try discriminate.
    - inv R2. eauto.
    - inv R2. eauto.
    - destruct pend as [|x xs].
      { unfold loop_done in El. rewrite (inv_empty _ _ _ _ _ _ _ _ _ _ _ _ _ I2) in El. discriminate. }
      assert (El1 : loop_done o1 p1 = false).
      { unfold loop_done. rewrite (inv_empty _ _ _ _ _ _ _ _ _ _ _ _ _ I1), Ee, andb_false_r. auto. }
      destruct f1 as [|f1]; cbn [run] in R1; rewrite El1 in R1; [discriminate|].
      destruct (step_lock r p1 p2 done x xs I1 I2) as (q1 & q2 & e & pe & E1 & E2 & J1 & J2).
      rewrite E1 in R1; rewrite E2 in R2; cbn [bind] in *. eapply IH; eauto.
  Qed.
  Lemma lock_children r p1 p2 done pend : INV1 r p1 done pend -> INV2 r p2 done pend ->
    p_children p1 = p_children p2.
  Proof.
    intros I1 I2. apply assoc_ext.
    - rewrite (i_keys _ _ _ _ _ _ _ _ _ _ _ _ _ I1), (i_keys _ _ _ _ _ _ _ _ _ _ _ _ _ I2). auto.
    - rewrite (i_keys _ _ _ _ _ _ _ _ _ _ _ _ _ I1). apply I1.
    - rewrite (i_keys _ _ _ _ _ _ _ _ _ _ _ _ _ I1). intros k Hk.
      apply in_map_iff in Hk as (y & <- & Hy). apply in_app_iff in Hy as [Hy|Hy].
      + apply in_map_iff in Hy as (e & <- & He).
        destruct (i_done _ _ _ _ _ _ _ _ _ _ _ _ _ I1 e He) as [A _].
        destruct (i_done _ _ _ _ _ _ _ _ _ _ _ _ _ I2 e He) as [B _].
        exact (eq_trans A (eq_sym B)).
      + pose proof (i_pend _ _ _ _ _ _ _ _ _ _ _ _ _ I1 y Hy) as A.
        pose proof (i_pend _ _ _ _ _ _ _ _ _ _ _ _ _ I2 y Hy) as B. exact (eq_trans A (eq_sym B)).
  Qed.
End Lock.
