(* PShare2.v -- workers on a shared table: the joint invariant. *)
From Coq Require Import String Ascii ZArith List Bool Lia Permutation Sorted.
From Verif Require Import Spec PyBase MSet MText MQueue MDb MSolver MProc MShare SpecRun SpecProc SpecShare PLib PClause
  PRename PLo PNorm PEval PText PQueue PNode PStep PRun PStats PSolver PSolve PSearch PGraph PDb PProc PProc2 PProc3 PProc4 PShare1.
Import ListNotations.
Open Scope Z_scope.

(* ghost record of a worker *)
Record wk := mkWk { wk_x : cset; wk_p : pstate; wk_done : list entry; wk_pend : list cset; wk_over : bool }.
Definition proc (w : wk) : option pstate := if wk_over w then None else Some (wk_p w).

Definition sim (o : opts) (c z : cset) : Prop :=
  (satisfiable (raws c) <-> satisfiable (raws z)) /\ nvars (raws c) = nvars (raws z) /\
  (o_thief o = false -> raws c = raws z).
Lemma sim_raws o c z : raws c = raws z -> sim o c z.
Proof. intros E. unfold sim. rewrite E. tauto. Qed.
Lemma sim_trans o a b c : sim o a b -> sim o b c -> sim o a c.
Proof. intros (A1 & A2 & A3) (B1 & B2 & B3). split; [tauto|]. split; [lia|]. intros H. rewrite A3, B3; auto. Qed.
Lemma sim_sym o a b : sim o a b -> sim o b a.
Proof. intros (A1 & A2 & A3). split; [tauto|]. split; [lia|]. intros H. rewrite A3; auto. Qed.

Definition kid_sim (o : opts) (k j : kid) : Prop :=
  match k, j with
  | KLeaf v _, KLeaf v' _ => v = v'
  | KNode c, KNode c' => sim o c c'
  | _, _ => False
  end.

(* two expansions of the same formula *)
Lemma same_expand hash o F lf m x y k1 k2 j1 j2 : node F x -> node F y -> raws x = raws y ->
  expands hash o lf m x k1 k2 -> expands hash o lf m y j1 j2 -> kid_sim o k1 j1 /\ kid_sim o k2 j2.
Proof.
  intros Nx Ny Er EX EY. pose proof EX as EX0. pose proof EY as EY0.
  destruct EX as (l & r & E & P1 & P2), EY as (l' & r' & E' & Q1 & Q2).
  destruct (node_evaluate F (view (o_rdb o) x) (node_view F _ _ Nx)) as (l0 & r0 & po & E0 & _ & _ & _ & _ & _ & C1 & C2).
  rewrite E in E0; inv E0.
  destruct (node_evaluate F (view (o_rdb o) y) (node_view F _ _ Ny)) as (l1 & r1 & po' & E1 & _ & _ & _ & _ & _ & D1 & D2).
  rewrite E' in E1; inv E1.
  assert (G : forall b c d k j, child_of (view (o_rdb o) x) (pivot_of (view (o_rdb o) x)) po b c ->
    child_of (view (o_rdb o) y) (pivot_of (view (o_rdb o) y)) po' b d ->
    prepared hash o lf m c k -> prepared hash o lf m d j ->
    (o_thief o = false -> kid_of o m b (raws x) k /\ kid_of o m b (raws x) j) -> kid_sim o k j).
  { intros b c d k j C D P Q HT.
    pose proof (ch_value _ _ _ _ _ C) as Hv. pose proof (ch_value _ _ _ _ _ D) as Hw.
    pose proof (ch_raws _ _ _ _ _ C) as Hr. pose proof (ch_raws _ _ _ _ _ D) as Hs.
    unfold pivot_of in *. rewrite !view_raws in *. rewrite <- Er in Hw, Hs. rewrite <- Hv in Hw. rewrite <- Hr in Hs.
    inv P; inv Q; cbn [kid_sim]; try congruence.
    destruct (to_lo_spec _ _ _ _ _ _ (child_pre_lo _ _ _ _ _ C H) H0) as (f & NM & R & _).
    destruct (to_lo_spec _ _ _ _ _ _ (child_pre_lo _ _ _ _ _ D H1) H2) as (f' & NM' & R' & _).
    apply norm_sat in NM. apply norm_sat in NM'. apply ready_nvars in R. apply ready_nvars in R'.
    unfold sim. rewrite !finish_raws. rewrite Hs in *. split; [tauto|]. split; [congruence|].
    intros Ht. destruct (HT Ht) as ((A1 & A2 & A3) & (_ & _ & B3)). rewrite !finish_raws in *.
    eapply normal_form_fun; [exact A1| |exact A3|exact B3]. intros e He0 ->. auto. }
  assert (HT : o_thief o = false -> (kid_of o m true (raws x) k1 /\ kid_of o m true (raws x) j1) /\
    (kid_of o m false (raws x) k2 /\ kid_of o m false (raws x) j2)).
  { intros Ht. destruct (expands_formula hash o Ht lf m F x k1 k2 Nx EX0).
    destruct (expands_formula hash o Ht lf m F y j1 j2 Ny EY0) as [B1 B2]. rewrite <- Er in B1, B2. auto. }
  split; [eapply (G true)|eapply (G false)]; eauto; intros Ht; apply HT; auto.
Qed.

Section Joint.
  Variable hash : text -> digest.
  Variable insert_fails : digest -> bool.
  Hypothesis Hif : forall h, insert_fails h = false.
  Variable o : opts.
  Hypothesis Hg : o_gdb o = true.
  Hypothesis Hnm : o_no_mem o = false.
  Variable F : list (list Z).
  Variables n L K lf : nat.
  Variable m : mode.
  Hypothesis Hlf : (lo_bound n L K <= lf)%nat.
  Variable r : cset.
  Notation NODE := (is_node hash F n L K).
  Notation REACH := (reach hash o lf m).
  Notation EXPANDS := (expands hash o lf m).
  Notation STEP := (step hash insert_fails o []).
  Notation WI_ := (WI hash o F n L K lf m r).
  Variables (p1 : pstate) (done1 : list entry) (pend1 : list cset).
  Hypothesis I1 : Inv hash o F n L K lf m [] r p1 done1 pend1.

  Lemma Nr : NODE r.
  Proof. eapply inv_root_node; eauto. Qed.

  Definition dall (W : list wk) : list entry := done1 ++ flat_map wk_done W.
  Lemma in_dall e W : In e (dall W) <-> In e done1 \/ exists w, In w W /\ In e (wk_done w).
  Proof. unfold dall. rewrite in_app_iff, in_flat_map. tauto. Qed.

  Definition wi (w : wk) : Prop := WI_ (wk_x w) (wk_p w) (wk_done w) (wk_pend w) /\
    (wk_over w = true -> loop_done o (wk_p w) = true).
  (* sets that must be taken care of *)
  Definition due (W : list wk) (c : cset) : Prop :=
    c = r \/ In c pend1 \/ exists y k1 k2, In (y, k1, k2) (dall W) /\ (k1 = KNode c \/ k2 = KNode c).
  Definition held (Won : list entry) (W : list wk) (z : cset) : Prop :=
    In z (map e_node Won) \/ exists w, In w W /\ In z (wk_pend w).

  Record core (Won : list entry) (T : table) (W : list wk) : Prop := mkCore {
    co_roots : map wk_x W = pend1;
    co_wi : forall w, In w W -> wi w;
    co_table : T = map (row_of_entry hash) Won;
    co_nodup : NoDup (ids Won);
    co_sub : incl Won (dall W);
    co_ids : incl (ids (dall W)) (ids Won);
    co_cov : no_collision hash o lf m r -> forall c, due W c -> exists z, sim o c z /\ held Won W z
  }.

  (* facts about all entries *)
  Lemma dall_entry Won T W y k1 k2 : core Won T W -> In (y, k1, k2) (dall W) ->
    NODE y /\ EXPANDS y k1 k2 /\ kid_ok hash F n L K (view (o_rdb o) y) true k1 /\
    kid_ok hash F n L K (view (o_rdb o) y) false k2 /\ twin hash o lf m r y.
  Proof.
    intros C H. apply in_dall in H as [H|(w & Hw & H)].
    - destruct (i_exp _ _ _ _ _ _ _ _ _ _ _ _ _ I1 y k1 k2 H) as (A1 & A2 & A3).
      destruct (i_nodes _ _ _ _ _ _ _ _ _ _ _ _ _ I1 y) as (B1 & B2).
      { apply in_app_iff; left. apply in_map_iff. exists (y, k1, k2); auto. }
      repeat (split; auto). exists y; auto.
    - destruct (co_wi _ _ _ C w Hw) as [I _]. destruct (w_exp _ _ _ _ _ _ _ _ _ _ _ _ _ I y k1 k2 H) as (A1 & A2 & A3).
      destruct (w_nodes _ _ _ _ _ _ _ _ _ _ _ _ _ I y) as (B1 & B2).
      { apply in_app_iff; left. apply in_map_iff. exists (y, k1, k2); auto. }
      repeat (split; auto).
  Qed.
  Lemma twin_same y z : no_collision hash o lf m r -> NODE y -> NODE z -> twin hash o lf m r y -> twin hash o lf m r z ->
    sid y = sid z -> raws y = raws z.
  Proof.
    intros NC Ny Nz (y0 & R1 & E1 & _) (z0 & R2 & E2 & _) Es. rewrite <- E1, <- E2.
    pose proof (reach_node hash o F n L K lf m r y0 Nr Hlf R1) as N1.
    pose proof (reach_node hash o F n L K lf m r z0 Nr Hlf R2) as N2.
    eapply same_id_same; eauto.
    destruct N1 as (_ & -> & _), N2 as (_ & -> & _). rewrite E1, E2.
    destruct Ny as (_ & <- & _), Nz as (_ & <- & _). auto.
  Qed.
  Lemma twin_kid y k1 k2 c : twin hash o lf m r y -> EXPANDS y k1 k2 -> k1 = KNode c \/ k2 = KNode c -> REACH r c.
  Proof.
    intros (y0 & R0 & _ & V0) EX Hc. eapply reach_step; [exact R0| |exact Hc]. eapply expands_view; [|exact EX]. auto.
  Qed.
  Lemma pend1_ok x : In x pend1 -> NODE x /\ REACH r x.
  Proof. intros H. apply (i_nodes _ _ _ _ _ _ _ _ _ _ _ _ _ I1). apply in_app_iff; auto. Qed.
  Lemma due_ok Won T W c : core Won T W -> due W c -> NODE c /\ twin hash o lf m r c.
  Proof.
    intros C [->|[H|(y & k1 & k2 & H & Hk)]].
    - split; [apply Nr|]. exists r. split; auto. constructor.
    - destruct (pend1_ok c H). split; auto. exists c; auto.
    - destruct (dall_entry _ _ _ _ _ _ C H) as (N & EX & _ & _ & Tw).
      assert (R : REACH r c) by (eapply twin_kid; eauto). split; [|exists c; auto].
      apply (reach_node hash o F n L K lf m r c Nr Hlf R).
  Qed.
  Lemma table_keys Won T W : core Won T W -> dkeys T = ids Won.
  Proof. intros C. rewrite (co_table _ _ _ C). unfold dkeys, ids. rewrite map_map. apply map_ext. intros [[x k1] k2]; reflexivity. Qed.

  Lemma in_mid {A} (a b : list A) x y : In y (a ++ x :: b) <-> y = x \/ In y (a ++ b).
  Proof. rewrite !in_app_iff. simpl. intuition. Qed.
  Lemma dall_mid Wa w w' Wb e : wk_done w' = wk_done w ++ [e] ->
    forall e', In e' (dall (Wa ++ w' :: Wb)) <-> In e' (dall (Wa ++ w :: Wb)) \/ e' = e.
  Proof.
    intros E e'. unfold dall. rewrite !flat_map_app. cbn [flat_map]. rewrite E, !in_app_iff. simpl. intuition.
  Qed.

  (* a worker whose loop condition fails *)
  Lemma core_finish Won T Wa w Wb : core Won T (Wa ++ w :: Wb) -> loop_done o (wk_p w) = true ->
    core Won T (Wa ++ mkWk (wk_x w) (wk_p w) (wk_done w) (wk_pend w) true :: Wb).
  Proof.
    intros C Hl. set (w' := mkWk _ _ _ _ _).
    assert (Ed : dall (Wa ++ w' :: Wb) = dall (Wa ++ w :: Wb)) by (unfold dall; rewrite !flat_map_app; reflexivity).
    destruct C as [A1 A2 A3 A4 A5 A6 A7]. constructor; auto.
    - rewrite <- A1, !map_app. reflexivity.
    - intros v Hv. apply in_mid in Hv as [->|Hv].
      + destruct (A2 w) as [B _]; [apply in_mid; auto|]. split; auto.
      + apply A2, in_mid; auto.
    - rewrite Ed. auto.
    - rewrite Ed. auto.
    - intros NC c Hc. destruct (A7 NC c) as (z & Hz & Hh).
      + unfold due in *. rewrite Ed in Hc. exact Hc.
      + exists z. split; auto. destruct Hh as [Hh|(v & Hv & Hh)]; [left; auto|right].
        apply in_mid in Hv as [->|Hv]; [exists w'|exists v]; rewrite in_mid; auto.
  Qed.

  (* one iteration *)
  Lemma core_step Won T Wa w Wb : core Won T (Wa ++ w :: Wb) -> wk_over w = false -> loop_done o (wk_p w) = false ->
    exists p' done' pend' Won', let w' := mkWk (wk_x w) p' done' pend' false in
      (forall lf', (lf <= lf')%nat -> STEP lf' m (with_db (wk_p w) T) = Ok p') /\
      core Won' (p_db p') (Wa ++ w' :: Wb) /\ (weight pend' < weight (wk_pend w))%nat.
  Proof.
    intros C Ho Hl. assert (Hw : In w (Wa ++ w :: Wb)) by (apply in_mid; auto).
    destruct (co_wi _ _ _ C w Hw) as [I _].
    destruct (wk_pend w) as [|y xs] eqn:Ep.
    { unfold loop_done in Hl. rewrite (wi_empty _ _ _ _ _ _ _ _ _ _ _ _ _ I) in Hl. discriminate. }
    destruct (worker_step hash insert_fails Hif o Hg Hnm F n L K lf m Hlf r (wk_x w) (wk_p w) (wk_done w) y xs T I)
      as (p' & k1 & k2 & new & Es & EX & K1 & K2 & Hwt & I' & Hcase).
    set (e := (y, k1, k2)) in *. set (w' := mkWk (wk_x w) p' (wk_done w ++ [e]) (xs ++ new) false).
    pose proof (dall_mid Wa w w' Wb e eq_refl) as Dm.
    destruct (w_nodes _ _ _ _ _ _ _ _ _ _ _ _ _ I y) as (Ny & Ty). { apply in_app_iff; right; simpl; auto. }
    assert (Hwt' : (weight (xs ++ new) < weight (y :: xs))%nat).
    { rewrite weight_app. cbn [weight fold_right]. fold (weight xs). lia. }
    assert (Wi' : forall v, In v (Wa ++ w' :: Wb) -> wi v).
    { intros v Hv. apply in_mid in Hv as [->|Hv].
      - split; [exact I'|]. cbn. discriminate.
      - apply (co_wi _ _ _ C). apply in_mid; auto. }
    assert (Hroots : map wk_x (Wa ++ w' :: Wb) = pend1).
    { rewrite <- (co_roots _ _ _ C), !map_app. reflexivity. }
    assert (Duemono : forall c, due (Wa ++ w' :: Wb) c -> due (Wa ++ w :: Wb) c \/ k1 = KNode c \/ k2 = KNode c).
    { intros c [->|[H|(a & j1 & j2 & H & Hk)]]; [left; left; auto|left; right; left; auto|].
      apply Dm in H as [H|H]; [left; right; right; eauto 6|]. inv H. auto. }
    assert (Dueold : forall c, due (Wa ++ w :: Wb) c -> due (Wa ++ w' :: Wb) c).
    { intros c [->|[H|(a & j1 & j2 & H & Hk)]]; [left; auto|right; left; auto|]. right; right. exists a, j1, j2. rewrite Dm. auto. }
    assert (Heldold : forall Won' z, incl Won Won' -> (In z xs -> In z (xs ++ new)) -> held Won (Wa ++ w :: Wb) z -> z = y \/ held Won' (Wa ++ w' :: Wb) z).
    { intros Won' z Hi Hx [Hz|(v & Hv & Hz)].
      - right; left. apply in_map_iff in Hz as (e0 & <- & He0). apply in_map; auto.
      - apply in_mid in Hv as [->|Hv].
        + rewrite Ep in Hz. destruct Hz as [<-|Hz]; auto. right; right. exists w'. rewrite in_mid. split; auto.
        + right; right. exists v. rewrite in_mid. auto. }
    destruct Hcase as [(Hnt & Hdb & Hk)|(Hit & Hdb & Hnew)].
    - exists p', (wk_done w ++ [e]), (xs ++ new), (Won ++ [e]). cbn zeta. fold w'. split; auto. split; [|auto].
      constructor; auto.
      + rewrite Hdb, (co_table _ _ _ C), map_app. reflexivity.
      + unfold ids. rewrite map_app. cbn [map]. apply NoDup_app_intro; [apply C|repeat constructor; auto|].
        intros h H1 [<-|[]]. apply Hnt. rewrite (table_keys _ _ _ C). exact H1.
      + intros e' He'. apply Dm. apply in_app_iff in He' as [He'|[<-|[]]]; auto. left. exact (co_sub _ _ _ C e' He').
      + intros h Hh. unfold ids in *. rewrite map_app, in_app_iff. cbn [map In]. apply in_map_iff in Hh as (e' & <- & He').
        apply Dm in He' as [He'|He']; [left; apply (co_ids _ _ _ C); apply in_map_iff; eauto|subst; auto].
      + intros NC.
        assert (Cov0 : forall c, due (Wa ++ w :: Wb) c -> exists z, sim o c z /\ held (Won ++ [e]) (Wa ++ w' :: Wb) z).
        { intros c Hc. destruct (co_cov _ _ _ C NC c Hc) as (z & Hz & Hh).
          destruct (Heldold (Won ++ [e]) z) as [->|Hh']; auto.
          - intros e' He'; apply in_app_iff; auto.
          - intros; apply in_app_iff; auto.
          - exists y. split; auto. left. rewrite map_app, in_app_iff. right; simpl; auto.
          - exists z; auto. }
        intros c Hc. destruct (Duemono c Hc) as [Hc'|Hkc]; auto.
        assert (Rc : REACH r c) by (eapply twin_kid; eauto).
        assert (Nc : NODE c) by (apply (reach_node hash o F n L K lf m r c Nr Hlf Rc)).
        assert (Tc : twin hash o lf m r c) by (exists c; auto).
        assert (Hnewin : forall c', In c' new -> held (Won ++ [e]) (Wa ++ w' :: Wb) c').
        { intros c' Hc'. right. exists w'. rewrite in_mid. split; auto. cbn. apply in_app_iff; auto. }
        assert (Old : forall d, due (Wa ++ w :: Wb) d -> sid d = sid c -> exists z, sim o c z /\ held (Won ++ [e]) (Wa ++ w' :: Wb) z).
        { intros d Hd Esd. destruct (due_ok _ _ _ _ C Hd) as [Nd Td]. destruct (Cov0 d Hd) as (z & Hz & Hh). exists z. split; auto.
          eapply sim_trans; [|exact Hz]. apply sim_raws. eapply twin_same; eauto. }
        destruct (Hk c Hkc) as [Hin|[Hin|(c' & Hin & Es')]].
        * exists c. split; [apply sim_raws; auto|auto].
        * destruct (w_conn _ _ _ _ _ _ _ _ _ _ _ _ _ I (sid c) Hin) as [Ex|((( a & j1) & j2) & He0 & Hkk)].
          -- apply (Old (wk_x w)); auto. right; left. rewrite <- (co_roots _ _ _ C). apply in_map; auto.
          -- unfold e_kids in Hkk. cbn [fst snd] in Hkk. apply in_app_iff in Hkk.
             assert (Hd : exists d, sid d = sid c /\ (j1 = KNode d \/ j2 = KNode d)).
             { destruct Hkk as [Hkk|Hkk]; [destruct j1|destruct j2]; cbn [kid_ids In] in Hkk; destruct Hkk as []; eauto; contradiction. }
             destruct Hd as (d & Ed & Hd). apply (Old d); auto. right; right. exists a, j1, j2. split; auto.
             apply in_dall. right. exists w; auto.
        * exists c'. split; auto. apply sim_raws.
          destruct (w_nodes _ _ _ _ _ _ _ _ _ _ _ _ _ I' c') as (Nc' & Tc'). { apply in_app_iff; right. apply in_app_iff; auto. }
          eapply twin_same; eauto.
    - subst new. exists p', (wk_done w ++ [e]), (xs ++ []), Won. cbn zeta. fold w'. split; auto. split; [|auto].
      rewrite Hdb.
      assert (Hwin : exists y' j1 j2, In (y', j1, j2) Won /\ sid y' = sid y).
      { rewrite (table_keys _ _ _ C) in Hit. apply in_map_iff in Hit as ([[y' j1] j2] & Ey & Hy'). eauto. }
      destruct Hwin as (y' & j1 & j2 & Hy' & Esy).
      destruct (dall_entry _ _ _ _ _ _ C (co_sub _ _ _ C _ Hy')) as (Ny' & EX' & _ & _ & Ty').
      constructor; auto.
      + apply C.
      + apply C.
      + intros e' He'. apply Dm. left. exact (co_sub _ _ _ C e' He').
      + intros h Hh. apply in_map_iff in Hh as (e' & <- & He').
        apply Dm in He' as [He'|He']; [apply (co_ids _ _ _ C); apply in_map_iff; eauto|subst].
        cbn [e_node fst e]. rewrite <- Esy. apply in_map_iff. exists (y', j1, j2); auto.
      + intros NC. assert (Er : raws y = raws y') by (eapply twin_same; eauto).
        assert (Cov0 : forall c, due (Wa ++ w :: Wb) c -> exists z, sim o c z /\ held Won (Wa ++ w' :: Wb) z).
        { intros c Hc. destruct (co_cov _ _ _ C NC c Hc) as (z & Hz & Hh).
          destruct (Heldold Won z) as [->|Hh']; auto.
          - apply incl_refl.
          - intros; apply in_app_iff; auto.
          - exists y'. split; [eapply sim_trans; [exact Hz|apply sim_raws; auto]|]. left. apply in_map_iff. exists (y', j1, j2); auto.
          - exists z; auto. }
        intros c Hc. destruct (Duemono c Hc) as [Hc'|Hkc]; auto.
        destruct (same_expand hash o F lf m y y' k1 k2 j1 j2 (proj1 Ny) (proj1 Ny') Er EX EX') as [S1 S2].
        assert (Hc' : exists c', sim o c c' /\ (j1 = KNode c' \/ j2 = KNode c')).
        { destruct Hkc as [->| ->]; [destruct j1|destruct j2]; cbn [kid_sim] in *; try contradiction; eauto. }
        destruct Hc' as (c' & Hs & Hj). destruct (Cov0 c') as (z & Hz & Hh).
        { right; right. exists y', j1, j2. split; auto. apply (co_sub _ _ _ C); auto. }
        exists z. split; auto. eapply sim_trans; eauto.
  Qed.
End Joint.
