(* PReplay.v -- lock-step comparison of a second run with the uninterrupted one. *)
From Coq Require Import String Ascii ZArith List Bool Lia Permutation Sorted.
From Verif Require Import Spec PyBase MSet MText MQueue MDb MSolver SpecRun PLib PClause PRename PLo PNorm PEval PText PQueue PNode PStep PRun PStats PSolver PSolve PSearch PDb PResume.
Import ListNotations.
Open Scope Z_scope.

(* ---- lock-step comparison with the uninterrupted run ---- *)
Lemma exec_inv_ext hash insert_fails o seen_sets F n L K lf m db0 :
  (o_gdb o = true -> seen_sets = [] /\ forall h, insert_fails h = false) ->
  (lo_bound n L K <= lf)%nat -> (o_gdb o = true -> db0 = []) ->
  forall r p xs p', exec hash insert_fails o seen_sets lf m p xs p' ->
  forall done pend, Inv hash o F n L K lf m db0 r p done pend ->
  exists done' pend' added, Inv hash o F n L K lf m db0 r p' (done ++ done') pend' /\
    xs = map (fun e => view (o_rdb o) (e_node e)) done' /\ ys (done ++ done') pend' = ys done pend ++ added.
Proof.
  intros Hgdb Hlf Hdb0 r p xs p' H.
  induction H as [p|p x q p1 xs p' Hl Hp Hs He IH]; intros done pend I.
  - exists [], pend, []. rewrite !app_nil_r; auto.
  - destruct pend as [|y zs].
    { rewrite (qrep_pop_empty _ _ _ (i_queue _ _ _ _ _ _ _ _ _ _ _ _ _ I)) in Hp. discriminate. }
    destruct (qrep_pop _ _ _ _ _ (i_queue _ _ _ _ _ _ _ _ _ _ _ _ _ I)) as (q1 & E & _).
    rewrite E in Hp; inv Hp.
    destruct (step_inv hash insert_fails o seen_sets Hgdb F n L K lf m Hlf db0 Hdb0 r p done y zs I)
      as (p2 & k1 & k2 & E2 & I' & _). rewrite Hs in E2; inv E2.
    destruct (IH _ _ I') as (d' & pe & ad & I2 & Ex & Ey). exists ((y, k1, k2) :: d'), pe, (new_nodes o (sid y) k1 k2 p ++ ad).
    rewrite <- app_assoc in I2, Ey. split; [exact I2|]. split; [simpl; f_equal; auto|].
    cbn [app] in Ey. etransitivity; [exact Ey|]. unfold ys. rewrite map_app, <- !app_assoc. reflexivity.
Qed.

(* the parts of the state that the two runs share *)
Record core (p1 p2 : pstate) : Prop := mkCore {
  co_children : p_children p2 = p_children p1;
  co_sat : p_sat p2 = p_sat p1;
  co_sol : p_solution p2 = p_solution p1 \/ (p_solution p1 <> None /\ p_solution p2 = Some []);
  co_uniq : p_uniques p2 = p_uniques p1;
  co_hits : p_hits p2 = p_hits p1
}.
Definition klike (k k' : kid) : Prop :=
  match k, k' with
  | KLeaf v d, KLeaf v' d' => v = v' /\ (d' = d \/ d' = [])
  | KNode c, KNode c' => sid c = sid c'
  | _, _ => False
  end.
Lemma klike_refl k : klike k k. Proof. destruct k; simpl; auto. Qed.
Lemma klike_leaves k1 k2 k1' k2' : klike k1 k1' -> klike k2 k2' -> both_leaves k1' k2' = both_leaves k1 k2.
Proof. destruct k1, k2, k1', k2'; simpl; tauto. Qed.
Lemma upd_uniqs o pid k p : p_uniques (upd o pid k p) = p_uniques p + (if is_new k p then 1 else 0).
Proof. exact (upd_uniq o 0 0 0 (lo_bound 0 0 0) (le_n _) pid k p). Qed.
Lemma upd_hit o pid k p : p_uniques (upd o pid k p) + p_hits (upd o pid k p) =
    p_uniques p + p_hits p + Z.of_nat (List.length (kid_ids k)).
Proof. exact (upd_hits o 0 0 0 (lo_bound 0 0 0) (le_n _) pid k p). Qed.
Lemma upd_core o1 o2 pid k k' p1 p2 : core p1 p2 -> klike k k' -> core (upd o1 pid k p1) (upd o2 pid k' p2).
Proof.
  intros [C1 C2 C3 C4 C5] HK.
  assert (Hn : is_new k' p2 = is_new k p1).
  { destruct k, k'; simpl in *; try tauto. rewrite HK, C1; auto. }
  pose proof (upd_uniqs o1 pid k p1) as U1. pose proof (upd_uniqs o2 pid k' p2) as U2. rewrite Hn, C4, <- U1 in U2.
  constructor; auto.
  - rewrite !upd_p_children, C1. destruct k, k'; simpl in *; try tauto. rewrite HK; auto.
  - rewrite !upd_sat, C2. destruct k as [[] d|], k' as [v' d'|]; simpl in *; try tauto; destruct HK as [<- _]; auto.
  - rewrite !upd_sol. destruct C3 as [->|[C3 ->]].
    + destruct (p_solution p1); auto. destruct k as [[] d|], k' as [v' d'|]; simpl in *; try tauto;
        destruct HK as [<- HK]; simpl; auto. destruct HK as [->| ->]; auto. right. split; [discriminate|auto].
    + right. destruct (p_solution p1); [split; [discriminate|auto]|congruence].
  - pose proof (upd_hit o1 pid k p1) as H1. pose proof (upd_hit o2 pid k' p2) as H2.
    assert (Hi : List.length (kid_ids k') = List.length (kid_ids k)) by (destruct k, k'; simpl in *; tauto).
    rewrite Hi, C4, C5 in H2. rewrite U2 in H2. lia.
Qed.

Lemma nn_like keys k1 k2 k1' k2' (R : cset -> cset -> Prop) : klike k1 k1' -> klike k2 k2' ->
  (forall c c', k1 = KNode c -> k1' = KNode c' -> In c (nn keys k1 k2) -> R c c') ->
  (forall c c', k2 = KNode c -> k2' = KNode c' -> In c (nn keys k1 k2) -> R c c') ->
  Forall2 R (nn keys k1 k2) (nn keys k1' k2').
Proof.
  intros H1 H2 R1 R2. unfold nn in *.
  assert (Hk : map sid (kn keys k1') = map sid (kn keys k1)).
  { clear - H1. destruct k1 as [|c], k1' as [|c']; simpl in *; try contradiction; [reflexivity|]. rewrite <- H1.
    destruct (existsb (text_eqb (sid c)) keys); simpl; rewrite ?H1; auto. }
  rewrite Hk. set (keys2 := keys ++ map sid (kn keys k1)) in *.
  apply Forall2_app.
  - destruct k1 as [|c], k1' as [|c']; simpl in *; try contradiction; [constructor|]. rewrite <- H1.
    destruct (existsb (text_eqb (sid c)) keys); constructor; [|constructor].
    apply R1; auto. simpl. auto.
  - destruct k2 as [|c], k2' as [|c']; simpl in *; try contradiction; [constructor|]. rewrite <- H2.
    destruct (existsb (text_eqb (sid c)) keys2); constructor; [|constructor].
    apply R2; auto. apply in_app_iff. simpl. auto.
Qed.

Lemma core_field p1 p2 p1' p2' : core p1 p2 ->
  p_children p1' = p_children p1 -> p_sat p1' = p_sat p1 -> p_solution p1' = p_solution p1 ->
  p_uniques p1' = p_uniques p1 -> p_hits p1' = p_hits p1 ->
  p_children p2' = p_children p2 -> p_sat p2' = p_sat p2 -> p_solution p2' = p_solution p2 ->
  p_uniques p2' = p_uniques p2 -> p_hits p2' = p_hits p2 -> core p1' p2'.
Proof. intros [C1 C2 C3 C4 C5] A1 A2 A3 A4 A5 B1 B2 B3 B4 B5. constructor; rewrite ?A1, ?A2, ?A3, ?A4, ?A5, ?B1, ?B2, ?B3, ?B4, ?B5; auto. Qed.
Lemma aft_field hash o {A} (f : pstate -> A) x k1 k2 p q :
  (forall p q, f (with_queue p q) = f p) -> (forall p t, f (with_db p t) = f p) ->
  (forall p i, f (add_leaf p i) = f p) ->
  f (after hash o x k1 k2 p q) = f (upd o (sid x) k2 (upd o (sid x) k1 p)).
Proof. exact (after_field hash (fun _ => false) o [] (fun _ => conj eq_refl (fun _ => eq_refl)) [] (fun _ => eq_refl) f x k1 k2 p q). Qed.
Lemma aft_db hash o x k1 k2 p q : p_db (after hash o x k1 k2 p q) =
  if o_gdb o then p_db p ++ [row_of hash x k1 k2] else p_db p.
Proof. exact (after_db hash (fun _ => false) o [] (fun _ => conj eq_refl (fun _ => eq_refl)) [] (fun _ => eq_refl) x k1 k2 p q). Qed.
Lemma aft_queue hash o x k1 k2 p q : p_queue (after hash o x k1 k2 p q) = q.
Proof. unfold after. destruct (both_leaves k1 k2); reflexivity. Qed.
Lemma pull_queue o x k1 k2 p q : p_queue (after_pull o x k1 k2 p q) = q.
Proof. unfold after_pull. destruct (both_leaves k1 k2); reflexivity. Qed.
Lemma core_after hash o1 o2 x k1 k2 k1' k2' p1 p2 q1 q2 : core p1 p2 -> klike k1 k1' -> klike k2 k2' ->
  core (after hash o1 x k1 k2 p1 q1) (after hash o2 x k1' k2' p2 q2).
Proof.
  intros C L1 L2. eapply core_field; [eapply upd_core; [eapply upd_core; [exact C|exact L1]|exact L2]|..];
    solve [apply (aft_field hash); auto | symmetry; apply (aft_field hash); auto].
Qed.
Lemma core_pull hash o1 o2 x k1 k2 k1' k2' p1 p2 q1 q2 : core p1 p2 -> klike k1 k1' -> klike k2 k2' ->
  core (after hash o1 x k1 k2 p1 q1) (after_pull o2 x k1' k2' p2 q2).
Proof.
  intros C L1 L2.
  assert (C' : core p1 (add_found p2)) by (eapply core_field; [exact C|..]; reflexivity).
  eapply core_field; [eapply upd_core; [eapply upd_core; [exact C'|exact L1]|exact L2]|..];
    try (apply (aft_field hash); auto; fail); unfold after_pull; destruct (both_leaves k1' k2'); reflexivity.
Qed.

Section Resume.
  Variable hash : text -> digest.
  Variables if1 if2 : digest -> bool.
  Variables o1 o2 : opts.
  Variable seen : list digest.
  Variable F : list (list Z).
  Variables n L K lf : nat.
  Variable m : mode.
  Variable r : cset.
  Variable pT : pstate.
  Variable doneT : list entry.
  Variable pendT : list cset.
  Notation INV := (Inv hash o1 F n L K lf m []).
  Notation T := (p_db pT).
  Notation EXEC := (exec hash if1 o1 [] lf m).
  Notation STEP2 := (step hash if2 o2 seen lf m).
  Hypothesis H1g : o_gdb o1 = true.
  Hypothesis H1e : o_exit o1 = false.
  Hypothesis NF1 : forall h, if1 h = false.
  Hypothesis H2g : o_gdb o2 = true.
  Hypothesis NF2 : forall h, if2 h = false.
  Hypothesis Erdb : o_rdb o1 = o_rdb o2.
  Hypothesis Ez : o_sort_by_size o1 = o_sort_by_size o2.
  Hypothesis Et : o_thief o1 = o_thief o2.
  Hypothesis Hlf : (lo_bound n L K <= lf)%nat.
  Hypothesis IT : INV r pT doneT pendT.
  Hypothesis HTF : hash (txt "T") <> hash (txt "F").
  Hypothesis Hconst : forall x, reach hash o1 lf m r x -> sid x <> hash (txt "T") /\ sid x <> hash (txt "F").
  Hypothesis Hseen : o_no_mem o2 = false -> forall h, existsb (text_eqb h) seen = true <-> In h (dkeys T).

  Let Hg1 : o_gdb o1 = true -> @nil digest = [] /\ forall h, if1 h = false := fun _ => conj eq_refl NF1.
  Let Hd1 : o_gdb o1 = true -> @nil (digest * row) = [] := fun _ => eq_refl.

  Lemma db_rows p done pend : INV r p done pend -> p_db p = map (row_of_entry hash) done.
  Proof. intros I. rewrite (i_db _ _ _ _ _ _ _ _ _ _ _ _ _ I), H1g. reflexivity. Qed.
  Lemma db_keys p done pend : INV r p done pend -> dkeys (p_db p) = map sid (map e_node done).
  Proof.
    intros I. rewrite (db_rows _ _ _ I). unfold dkeys. rewrite !map_map. apply map_ext. intros e; reflexivity.
  Qed.
  Lemma db_nodup p done pend : INV r p done pend -> NoDup (dkeys (p_db p)).
  Proof.
    intros I. rewrite (db_keys _ _ _ I). pose proof (i_nodup _ _ _ _ _ _ _ _ _ _ _ _ _ I) as ND.
    unfold ys in ND. rewrite map_app in ND. eapply NoDup_app_left; eauto.
  Qed.
  Lemma db_get p done pend e : INV r p done pend -> In e done ->
    dget text_eqb (sid (e_node e)) (p_db p) = Some (snd (row_of_entry hash e)).
  Proof.
    intros I He. apply (dget_In_NoDup _ tspec); [eapply db_nodup; eauto|].
    rewrite (db_rows _ _ _ I). apply in_map_iff. exists e; split; auto.
  Qed.
  Lemma db_back p done pend h : INV r p done pend -> In h (dkeys (p_db p)) ->
    exists e, In e done /\ sid (e_node e) = h.
  Proof.
    intros I Hh. rewrite (db_keys _ _ _ I) in Hh. apply in_map_iff in Hh as (x & <- & Hx).
    apply in_map_iff in Hx as (e & <- & He). eauto.
  Qed.
  Lemma pending_fresh p done pend x : INV r p done pend -> In x pend -> ~ In (sid x) (dkeys (p_db p)).
  Proof.
    intros I Hx Hi. rewrite (db_keys _ _ _ I) in Hi. pose proof (i_nodup _ _ _ _ _ _ _ _ _ _ _ _ _ I) as ND.
    unfold ys in ND. rewrite map_app in ND. apply in_split in Hx as (a & b & ->).
    rewrite map_app in ND. cbn [map] in ND. rewrite app_assoc in ND. apply NoDup_remove_2 in ND.
    apply ND. rewrite <- app_assoc. apply in_app_iff. auto.
  Qed.
  Lemma inv_same_sid p done pend x y : INV r p done pend -> In x (ys done pend) -> In y (ys done pend) ->
    sid x = sid y -> x = y.
  Proof.
    intros I Hx Hy E. pose proof (i_nodup _ _ _ _ _ _ _ _ _ _ _ _ _ I) as ND.
    revert Hx Hy E ND. generalize (ys done pend). clear. intros l. induction l as [|a l IH]; simpl; [tauto|].
    intros Hx Hy E ND. inv ND. destruct Hx as [->|Hx], Hy as [->|Hy]; auto.
    - exfalso. apply H1. rewrite E. apply in_map; auto.
    - exfalso. apply H1. rewrite <- E. apply in_map; auto.
  Qed.

  (* the first run expanded x later on *)
  Lemma T_entry p1 zs done x xs : INV r p1 done (x :: xs) -> EXEC p1 zs pT -> In (sid x) (dkeys T) ->
    exists p1' k1 k2 zs', step hash if1 o1 [] lf m p1 = Ok p1' /\
      INV r p1' (done ++ [(x, k1, k2)]) (xs ++ new_nodes o1 (sid x) k1 k2 p1) /\ expands hash o1 lf m x k1 k2 /\
      EXEC p1' zs' pT /\ zs = view (o_rdb o1) x :: zs' /\ dget text_eqb (sid x) T = Some (snd (row_of hash x k1 k2)) /\
      (forall c, In c (new_nodes o1 (sid x) k1 k2 p1) -> In (sid c) (dkeys T) ->
         exists e, In e doneT /\ sid (e_node e) = sid c /\ raws (e_node e) = raws c).
  Proof.
    intros I He Hin.
    assert (Hx : In x (ys done (x :: xs))) by (apply in_app_iff; simpl; auto).
    inv He.
    { exfalso. eapply pending_fresh; [exact I|simpl; eauto|exact Hin]. }
    destruct (step_inv hash if1 o1 [] Hg1 F n L K lf m Hlf [] Hd1 r p1 done x xs I)
      as (p2 & k1 & k2 & E2 & I' & X). rewrite H1 in E2; inv E2.
    destruct (qrep_pop _ _ _ _ _ (i_queue _ _ _ _ _ _ _ _ _ _ _ _ _ I)) as (q1 & E & _). rewrite H0 in E; inv E.
    exists p2, k1, k2, xs0. split; auto. split; auto. split; auto. split; auto. split; auto.
    destruct (exec_inv_ext hash if1 o1 [] F n L K lf m [] Hg1 Hlf Hd1 r _ _ _ H2 _ _ I')
      as (d' & pe & ad & I2 & _ & Ey).
    split.
    - exact (db_get _ _ _ (x, k1, k2) I2 ltac:(apply in_app_iff; left; apply in_app_iff; simpl; auto)).
    - intros c Hc Hk. destruct (db_back _ _ _ _ IT Hk) as (e & He & Es).
      exists e. split; auto. split; auto.
      destruct (db_back _ _ _ _ I2 Hk) as (e2 & He2 & Es2).
      assert (Ec : e_node e2 = c).
      { apply (inv_same_sid _ _ _ _ _ I2); auto.
        - apply in_app_iff. left. apply in_map; auto.
        - rewrite Ey. apply in_app_iff. left. apply in_app_iff. right. apply in_app_iff. auto. }
      pose proof (db_get _ _ _ e IT He) as G1. pose proof (db_get _ _ _ e2 I2 He2) as G2.
      rewrite Es in G1. rewrite Es2 in G2. change digest with text in *. rewrite G1 in G2. injection G2 as G2 _ _ _ _.
      assert (N1 : node F (e_node e)).
      { destruct (i_nodes _ _ _ _ _ _ _ _ _ _ _ _ _ IT (e_node e)) as [[N1 _] _]; auto.
        apply in_app_iff; left; apply in_map; auto. }
      assert (N2 : node F (e_node e2)).
      { destruct (i_nodes _ _ _ _ _ _ _ _ _ _ _ _ _ I2 (e_node e2)) as [[N2 _] _]; auto.
        apply in_app_iff; left; apply in_map; auto. }
      destruct (node_nonempty F _ N1), (node_nonempty F _ N2).
      apply formula_text_inj in G2; auto. rewrite <- Ec. exact G2.
  Qed.

  (* what loading a branch of x gives *)
  Lemma load_kid x k1 k2 k : reach hash o1 lf m r x -> expands hash o1 lf m x k1 k2 -> k = k1 \/ k = k2 ->
    (incl (kid_ids k) (dkeys T) -> exists a k', child_from_gdb hash T (kid_hash hash k) = Some a /\ pulled a k' /\ klike k k' /\
       (forall c c', k = KNode c -> k' = KNode c' -> exists e, In e doneT /\ sid (e_node e) = sid c /\ c' = dead (e_node e)) /\
       (forall v d, k' = KLeaf v d -> d = [])) /\
    (~ incl (kid_ids k) (dkeys T) -> child_from_gdb hash T (kid_hash hash k) = None).
  Proof.
    intros Rx EX Hk. destruct k as [v d|c].
    - split; [|intros H; exfalso; apply H; intros h []]. intros _.
      exists (set_value empty_set (Some v)), (KLeaf v []). unfold child_from_gdb, TRUE_SET_HASH, FALSE_SET_HASH.
      split; [|split; [constructor|split; [simpl; auto|split; [discriminate|congruence]]]].
      destruct v; cbn [kid_hash]; [rewrite text_eqb_refl; auto|].
      destruct (text_eqb_spec (hash (txt "F")) (hash (txt "T"))); [exfalso; apply HTF; auto|].
      rewrite text_eqb_refl; auto.
    - assert (Rc : reach hash o1 lf m r c) by (eapply reach_step; eauto; destruct Hk; auto).
      destruct (Hconst c Rc) as [C1 C2]. cbn [kid_hash kid_ids]. unfold child_from_gdb, TRUE_SET_HASH, FALSE_SET_HASH.
      destruct (text_eqb_spec (sid c) (hash (txt "T"))); [contradiction|].
      destruct (text_eqb_spec (sid c) (hash (txt "F"))); [contradiction|].
      split.
      + intros Hi. destruct (db_back _ _ _ _ IT (Hi (sid c) (or_introl eq_refl))) as (e & He & Es).
        pose proof (db_get _ _ _ e IT He) as G. unfold gs_get_set_data.
        assert (N1 : node F (e_node e)).
        { destruct (i_nodes _ _ _ _ _ _ _ _ _ _ _ _ _ IT (e_node e)) as [[N1 _] _]; auto.
          apply in_app_iff; left; apply in_map; auto. }
        rewrite Es in G. change digest with text in *. rewrite G.
        exists (set_hash (set_of_text (formula_text (raws (e_node e)))) (Some (sid (e_node e)))), (KNode (dead (e_node e))).
        split; [|split; [econstructor; eauto|split; [simpl; auto|split]]].
        * cbn [row_of_entry row_of snd r_body]. rewrite Es. reflexivity.
        * intros c0 c' E1 E2. inv E1. inv E2. eauto.
        * discriminate.
      + intros Hn. unfold gs_get_set_data. rewrite (proj2 (dget_None _ tspec _ _)); auto.
        intros Hi. apply Hn. intros h [<-|[]]; auto.
  Qed.

  Definition Sim (p1 : pstate) (done : list entry) (pend : list cset) (p2 : pstate) (pend2 : list cset) : Prop :=
    INV r p1 done pend /\ core p1 p2 /\ qrep (o_rdb o2) (p_queue p2) (dkeys (p_children p2)) pend2 /\
    Forall2 alike pend pend2.

  (* in the first phase the second run only sees rows of the first one *)
  Lemma in_gdb_T p2 h : p_db p2 = T -> is_set_in_gdb o2 seen h (p_db p2) = true <-> In h (dkeys T).
  Proof.
    intros E. unfold is_set_in_gdb. rewrite E. destruct (o_no_mem o2) eqn:En; [|apply Hseen; auto].
    apply (dmem_In _ tspec).
  Qed.
  Lemma get_children_T x k1 k2 : reach hash o1 lf m r x -> expands hash o1 lf m x k1 k2 ->
    dget text_eqb (sid x) T = Some (snd (row_of hash x k1 k2)) ->
    (incl (kid_ids k1 ++ kid_ids k2) (dkeys T) -> exists a b k1' k2', get_children_from_gdb hash T (sid x) = Some (a, b) /\
       pulled a k1' /\ pulled b k2' /\ klike k1 k1' /\ klike k2 k2' /\
       (forall k k', (k = k1 /\ k' = k1') \/ (k = k2 /\ k' = k2') -> forall c c', k = KNode c -> k' = KNode c' ->
          exists e, In e doneT /\ sid (e_node e) = sid c /\ c' = dead (e_node e)) /\
       (forall v d, k1' = KLeaf v d \/ k2' = KLeaf v d -> d = [])) /\
    (~ incl (kid_ids k1 ++ kid_ids k2) (dkeys T) -> get_children_from_gdb hash T (sid x) = None).
  Proof.
    intros Rx EX G. unfold get_children_from_gdb, gs_get_children. change digest with text in *. rewrite G.
    cbn [row_of snd r_cid1 r_cid2].
    destruct (load_kid x k1 k2 k1 Rx EX (or_introl eq_refl)) as [A1 A2].
    destruct (load_kid x k1 k2 k2 Rx EX (or_intror eq_refl)) as [B1 B2].
    split.
    - intros Hi. apply incl_app_inv in Hi as [Hi1 Hi2].
      destruct (A1 Hi1) as (a & k1' & E1 & P1 & L1 & S1 & V1). destruct (B1 Hi2) as (b & k2' & E2 & P2 & L2 & S2 & V2).
      rewrite E1, E2. exists a, b, k1', k2'. repeat (split; auto).
      + intros k k' [[-> ->]|[-> ->]]; auto.
      + intros v d [->| ->]; eauto.
    - intros Hn.
      assert (D : forall l, {incl l (dkeys T)} + {~ incl l (dkeys T)}).
      { intros l. destruct (forallb (fun h => existsb (text_eqb h) (dkeys T)) l) eqn:E.
        - left. rewrite forallb_forall in E. intros h Hh. specialize (E h Hh). apply existsb_exists in E as (h' & Hi & Eh).
          apply text_eqb_eq in Eh. rewrite Eh. exact Hi.
        - right. intros Hi. assert (forallb (fun h => existsb (text_eqb h) (dkeys T)) l = true); [|congruence].
          apply forallb_forall. intros h Hh. apply existsb_exists. exists h. split; [auto|apply text_eqb_refl]. }
      destruct (D (kid_ids k1)) as [D1|D1]; [|rewrite (A2 D1); auto].
      destruct (D (kid_ids k2)) as [D2|D2].
      + exfalso. apply Hn. intros h Hh. apply in_app_iff in Hh as [Hh|Hh]; auto.
      + rewrite (B2 D2). destruct (child_from_gdb hash T (kid_hash hash k1)); auto.
  Qed.

  Lemma step1_after p1 done x xs k1 k2 p1' : INV r p1 done (x :: xs) -> expands hash o1 lf m x k1 k2 ->
    step hash if1 o1 [] lf m p1 = Ok p1' -> exists q, p1' = after hash o1 x k1 k2 p1 q.
  Proof.
    intros I EX Hs.
    assert (Hx : In x (ys done (x :: xs))) by (apply in_app_iff; simpl; auto).
    destruct (i_nodes _ _ _ _ _ _ _ _ _ _ _ _ _ I x Hx) as [(N & Hi & Hc & W) Hr].
    destruct (expand_total hash o1 F n L K lf m x N W Hlf) as (a1 & a2 & E & K1 & K2).
    destruct (expands_fun _ _ _ _ _ _ _ _ _ EX E) as [<- <-].
    assert (Hin : In (sid x) (dkeys (p_children p1))).
    { rewrite (i_keys _ _ _ _ _ _ _ _ _ _ _ _ _ I); apply in_map; auto. }
    destruct (step_spec hash if1 o1 [] Hg1 F n L K lf m p1 (p_queue p1) _ x xs k1 k2
                N Hi Hc E K1 K2 eq_refl (i_queue _ _ _ _ _ _ _ _ _ _ _ _ _ I) eq_refl Hin) as (q' & Es & Q').
    { intros _. eapply pending_fresh; [exact I|simpl; auto]. }
    exists q'. congruence.
  Qed.

  Definition unsolved (p : pstate) : Prop := p_solution p = None \/ p_solution p = Some [].

  Lemma sim_pull p1 done x xs p2 y ys2 zs : Sim p1 done (x :: xs) p2 (y :: ys2) ->
    EXEC p1 zs pT -> p_db p2 = T -> In (sid x) (dkeys T) ->
    exists p1' k1 k2 zs', step hash if1 o1 [] lf m p1 = Ok p1' /\
      INV r p1' (done ++ [(x, k1, k2)]) (xs ++ new_nodes o1 (sid x) k1 k2 p1) /\ expands hash o1 lf m x k1 k2 /\
      EXEC p1' zs' pT /\ zs = view (o_rdb o1) x :: zs' /\
      (~ incl (kid_ids k1 ++ kid_ids k2) (dkeys T) -> get_children_from_gdb hash (p_db p2) (sid x) = None) /\
      (incl (kid_ids k1 ++ kid_ids k2) (dkeys T) -> exists p2', STEP2 p2 = Ok p2' /\
         Sim p1' (done ++ [(x, k1, k2)]) (xs ++ new_nodes o1 (sid x) k1 k2 p1) p2'
             (ys2 ++ map dead (new_nodes o1 (sid x) k1 k2 p1)) /\
         p_db p2' = T /\ p_found p2' = p_found p2 + 1 /\ (unsolved p2 -> unsolved p2')).
  Proof.
    intros (I & C & Q & AL) He Hdb Hin.
    destruct (T_entry p1 zs done x xs I He Hin) as (p1' & k1 & k2 & zs' & Es & I' & EX & He' & Ez' & Hget & Hnew).
    exists p1', k1, k2, zs'. do 5 (split; auto).
    assert (Hx : In x (ys done (x :: xs))) by (apply in_app_iff; simpl; auto).
    destruct (i_nodes _ _ _ _ _ _ _ _ _ _ _ _ _ I x Hx) as [(N & Hi & Hc & W) Hr].
    destruct (get_children_T x k1 k2 Hr EX Hget) as [GA GB]. rewrite Hdb. split; auto.
    intros Hall. destruct (GA Hall) as (a & b & k1' & k2' & Gc & P1 & P2 & L1 & L2 & Sd & Lv).
    inv AL. assert (ST : stands x y) by (eapply alike_stands; eauto).
    assert (Hkey : In (sid x) (dkeys (p_children p2))).
    { rewrite (co_children _ _ C), (i_keys _ _ _ _ _ _ _ _ _ _ _ _ _ I); apply in_map; auto. }
    destruct (step_pull hash o2 if2 seen H2g F lf m p2 _ x y ys2 a b k1' k2' N Hi ST Q eq_refl Hkey
                (proj2 (in_gdb_T p2 _ Hdb) Hin)) as (q2 & E2 & Q2).
    { rewrite Hdb; auto. } { auto. } { auto. }
    destruct (step1_after p1 done x xs k1 k2 p1' I EX Es) as (q1 & ->).
    assert (HN : Forall2 (fun c c' => c' = dead c) (new_nodes o1 (sid x) k1 k2 p1) (new_nodes o2 (sid x) k1' k2' p2)).
    { rewrite (new_nodes_nn o1) by (rewrite (i_keys _ _ _ _ _ _ _ _ _ _ _ _ _ I); apply in_map; auto).
      rewrite (new_nodes_nn o2) by auto. rewrite (co_children _ _ C).
      assert (Hd : forall k k', (k = k1 /\ k' = k1') \/ (k = k2 /\ k' = k2') -> forall c c', k = KNode c -> k' = KNode c' ->
                 In c (nn (dkeys (p_children p1)) k1 k2) -> c' = dead c).
      { intros k k' Hkk c c' E1 E3 Hc0. destruct (Sd k k' Hkk c c' E1 E3) as (e & He0 & Ese & ->).
        destruct (Hnew c) as (e' & He1 & Ese' & Er').
        - rewrite (new_nodes_nn o1) by (rewrite (i_keys _ _ _ _ _ _ _ _ _ _ _ _ _ I); apply in_map; auto). auto.
        - apply Hall. apply in_app_iff. destruct Hkk as [[-> ->]|[-> ->]]; [left|right]; rewrite E1; simpl; auto.
        - assert (Ee : e_node e = e_node e').
          { apply (inv_same_sid _ _ _ _ _ IT); [apply in_app_iff; left; apply in_map; auto..|congruence]. }
          unfold dead. rewrite Ee, Er', Ese'. reflexivity. }
      apply nn_like; auto.
      - intros c c' E1 E3 Hc0. eapply (Hd k1 k1'); eauto.
      - intros c c' E1 E3 Hc0. eapply (Hd k2 k2'); eauto. }
    assert (EN : new_nodes o2 (sid x) k1' k2' p2 = map dead (new_nodes o1 (sid x) k1 k2 p1)).
    { clear - HN. induction HN; simpl; congruence. }
    eexists. split; [exact E2|]. split; [|split; [|split]].
    - split; [exact I'|]. split; [apply core_pull; auto|]. rewrite <- EN. split; [rewrite pull_queue; exact Q2|].
      rewrite EN. apply Forall2_app; auto.
      clear. induction (new_nodes o1 (sid x) k1 k2 p1); constructor; auto. right; auto.
    - unfold after_pull. destruct (both_leaves k1' k2'); cbn [add_leaf with_queue p_db]; rewrite !upd_db; auto.
    - unfold after_pull. destruct (both_leaves k1' k2'); cbn [add_leaf with_queue p_found]; rewrite !upd_found; auto.
    - unfold unsolved. intros U.
      assert (E3 : p_solution (after_pull o2 x k1' k2' p2 q2) = p_solution (upd o2 (sid x) k2' (upd o2 (sid x) k1' (add_found p2))))
        by (unfold after_pull; destruct (both_leaves k1' k2'); reflexivity).
      rewrite E3, !upd_sol. change (p_solution (add_found p2)) with (p_solution p2).
      destruct U as [->| ->]; auto.
      destruct k1' as [[] d1|]; [rewrite (Lv true d1) by auto; simpl; auto|..]; simpl.
      + destruct k2' as [[] d2|]; [rewrite (Lv true d2) by auto; simpl; auto|..]; simpl; auto.
      + destruct k2' as [[] d2|]; [rewrite (Lv true d2) by auto; simpl; auto|..]; simpl; auto.
  Qed.

  Definition stuck (p : pstate) : Prop :=
    loop_done o2 p = false /\ forall lf', step hash if2 o2 seen lf' m p = Err IndexError.

  (* where the rows seen by the second run come from *)
  Definition phase (p1 p2 : pstate) : Prop :=
    (exists zs, EXEC p1 zs pT /\ p_db p2 = T) \/
    (p_db p2 = p_db p1 /\ incl (dkeys T) (dkeys (p_db p1))).

  Lemma sim_step p1 done x xs p2 y ys2 : Sim p1 done (x :: xs) p2 (y :: ys2) -> phase p1 p2 ->
    (y = dead x /\ forall lf', step hash if2 o2 seen lf' m p2 = Err IndexError) \/
    exists p1' p2' k1 k2 new pend2', step hash if1 o1 [] lf m p1 = Ok p1' /\ STEP2 p2 = Ok p2' /\
      Sim p1' (done ++ [(x, k1, k2)]) (xs ++ new) p2' pend2' /\ phase p1' p2' /\
      (weight new < 3 ^ nvars (raws x))%nat.
  Proof.
    intros SM PH. pose proof SM as (I & C & Q & AL).
    assert (Hx : In x (ys done (x :: xs))) by (apply in_app_iff; simpl; auto).
    destruct (i_nodes _ _ _ _ _ _ _ _ _ _ _ _ _ I x Hx) as [(N & Hi & Hc & W) Hr].
    assert (ALx : alike x y) by (inv AL; auto). assert (AL' : Forall2 alike xs ys2) by (inv AL; auto).
    pose proof (alike_stands F x y N Hc ALx) as ST.
    assert (Hkey1 : In (sid x) (dkeys (p_children p1))).
    { rewrite (i_keys _ _ _ _ _ _ _ _ _ _ _ _ _ I); apply in_map; auto. }
    assert (Hkey : In (sid x) (dkeys (p_children p2))) by (rewrite (co_children _ _ C); auto).
    assert (Wt : forall k1 k2 p1', INV r p1' (done ++ [(x, k1, k2)]) (xs ++ new_nodes o1 (sid x) k1 k2 p1) ->
              (weight (new_nodes o1 (sid x) k1 k2 p1) < 3 ^ nvars (raws x))%nat).
    { intros k1 k2 p1' I'. destruct (i_exp _ _ _ _ _ _ _ _ _ _ _ _ _ I' x k1 k2) as (_ & A & B).
      { apply in_app_iff; simpl; auto. } eapply new_weight; eauto. }
    assert (NNx : forall k1 k2, new_nodes o2 (sid x) k1 k2 p2 = new_nodes o1 (sid x) k1 k2 p1).
    { intros k1 k2. rewrite !new_nodes_nn by auto. rewrite (co_children _ _ C). auto. }
    assert (ALr : forall l, Forall2 alike l l) by (intros l; induction l; constructor; auto; left; auto).
    (* evaluating a live node *)
    assert (EV : forall k1 k2, expands hash o1 lf m x k1 k2 -> expands hash o2 lf m x k1 k2).
    { intros k1 k2 E. eapply expands_lock; eauto. }
    destruct (existsb (text_eqb (sid x)) (dkeys T)) eqn:Eb.
    - (* stored by the first run *)
      assert (HinT : In (sid x) (dkeys T)).
      { apply existsb_exists in Eb as (h & Hh & Eh). apply text_eqb_eq in Eh. rewrite Eh. exact Hh. }
      destruct PH as [(zs & He & Hdb)|[Hdb Hincl]].
      2: { exfalso. eapply pending_fresh; [exact I|simpl; eauto|]. apply Hincl; exact HinT. }
      destruct (sim_pull p1 done x xs p2 y ys2 zs SM He Hdb HinT)
        as (p1' & k1 & k2 & zs' & Es & I' & EX & He' & _ & GN & GP).
      destruct (in_dec text_dec (sid x) []) as [[]|_].
      destruct (forallb (fun h => existsb (text_eqb h) (dkeys T)) (kid_ids k1 ++ kid_ids k2)) eqn:Ea.
      + assert (Hall : incl (kid_ids k1 ++ kid_ids k2) (dkeys T)).
        { rewrite forallb_forall in Ea. intros h Hh. specialize (Ea h Hh). apply existsb_exists in Ea as (h' & Hh' & Eh).
          apply text_eqb_eq in Eh. rewrite Eh. exact Hh'. }
        destruct (GP Hall) as (p2' & E2 & SM' & Hdb' & _). right.
        exists p1', p2', k1, k2, (new_nodes o1 (sid x) k1 k2 p1), (ys2 ++ map dead (new_nodes o1 (sid x) k1 k2 p1)).
        split; auto. split; auto. split; auto. split; [left; eauto|eauto].
      + assert (Hn : get_children_from_gdb hash (p_db p2) (sid x) = None).
        { apply GN. intros Hi2. assert (forallb (fun h => existsb (text_eqb h) (dkeys T)) (kid_ids k1 ++ kid_ids k2) = true); [|congruence].
          apply forallb_forall. intros h Hh. apply existsb_exists. exists h. split; [auto|apply text_eqb_refl]. }
        destruct ALx as [->| ->].
        * right. destruct (expand_total hash o1 F n L K lf m x N W Hlf) as (a1 & a2 & E & K1 & K2).
          destruct (expands_fun _ _ _ _ _ _ _ _ _ EX E) as [<- <-]. rewrite Erdb in K1, K2.
          destruct (step_stored hash o2 if2 seen H2g F n L K lf m p2 _ x ys2 k1 k2 N Hi Hc (EV _ _ EX) K1 K2 Q eq_refl Hkey
                      (proj2 (in_gdb_T p2 _ Hdb) HinT) Hn) as (q2 & E2 & Q2).
          destruct (step1_after p1 done x xs k1 k2 p1' I EX Es) as (q1 & ->).
          eexists _, _, k1, k2, (new_nodes o1 (sid x) k1 k2 p1), (ys2 ++ new_nodes o1 (sid x) k1 k2 p1).
          split; [exact Es|]. split; [exact E2|]. split; [|split; [left; exists zs'; split; auto|eauto]].
          -- split; [exact I'|]. split; [apply core_after; auto using klike_refl|].
             rewrite <- (NNx k1 k2). split; [rewrite aft_queue; exact Q2|]. rewrite NNx. apply Forall2_app; auto.
          -- rewrite aft_db. cbn [off o_gdb]. auto.
        * left. split; auto. intros lf'. eapply (step_dead hash o2 if2 seen H2g F); eauto.
    - (* not stored by the first run *)
      assert (HinT : ~ In (sid x) (dkeys T)).
      { intros Hh. assert (existsb (text_eqb (sid x)) (dkeys T) = true); [|congruence].
        apply existsb_exists. exists (sid x). split; [exact Hh|apply text_eqb_refl]. }
      assert (PH2 : p_db p2 = p_db p1 /\ incl (dkeys T) (dkeys (p_db p1))).
      { destruct PH as [(zs & He & Hdb)|PH]; auto. inv He; [split; auto; apply incl_refl|]. exfalso.
        destruct (step_inv hash if1 o1 [] Hg1 F n L K lf m Hlf [] Hd1 r p1 done x xs I)
          as (p3 & k1 & k2 & E2 & I' & X). rewrite H1 in E2; inv E2.
        destruct (exec_inv_ext hash if1 o1 [] F n L K lf m [] Hg1 Hlf Hd1 r _ _ _ H2 _ _ I')
          as (d' & pe & ad & I2 & _ & Ey).
        apply HinT. rewrite (db_keys _ _ _ I2). apply in_map. apply in_map_iff. exists (x, k1, k2). split; auto.
        apply in_app_iff. left. apply in_app_iff. simpl; auto. }
      destruct PH2 as [Hdb Hincl].
      assert (Hfresh : ~ In (sid x) (dkeys (p_db p2))).
      { rewrite Hdb. eapply pending_fresh; [exact I|simpl; auto]. }
      assert (Hnin : is_set_in_gdb o2 seen (sid x) (p_db p2) = false).
      { unfold is_set_in_gdb. destruct (o_no_mem o2) eqn:En.
        - apply (dmem_false _ tspec); auto.
        - destruct (existsb (text_eqb (sid x)) seen) eqn:E; auto. exfalso. apply HinT. apply Hseen; auto. }
      destruct ALx as [->| ->].
      + right. destruct (step_inv hash if1 o1 [] Hg1 F n L K lf m Hlf [] Hd1 r p1 done x xs I)
          as (p1' & k1 & k2 & Es & I' & EX).
        destruct (expand_total hash o1 F n L K lf m x N W Hlf) as (a1 & a2 & E & K1 & K2).
        destruct (expands_fun _ _ _ _ _ _ _ _ _ EX E) as [<- <-]. rewrite Erdb in K1, K2.
        destruct (step_spec hash if2 o2 [] (fun _ => conj eq_refl NF2) F n L K lf m p2 (p_queue p2) _ x ys2 k1 k2
                    N Hi Hc (EV _ _ EX) K1 K2 eq_refl Q eq_refl Hkey (fun _ => Hfresh)) as (q2 & E2 & Q2).
        destruct (step1_after p1 done x xs k1 k2 p1' I EX Es) as (q1 & ->).
        eexists _, _, k1, k2, (new_nodes o1 (sid x) k1 k2 p1), (ys2 ++ new_nodes o1 (sid x) k1 k2 p1).
        split; [exact Es|]. split.
        { rewrite (step_fresh hash o2 if2 seen H2g F x x ys2 lf m p2 _ N Hi ST Q Hnin Hfresh). exact E2. }
        split; [|split; [right|eauto]].
        * split; [exact I'|]. split; [apply core_after; auto using klike_refl|].
          rewrite <- (NNx k1 k2). split; [rewrite aft_queue; exact Q2|]. rewrite NNx. apply Forall2_app; auto.
        * rewrite !aft_db, H1g, H2g, Hdb. split; auto. unfold dkeys in *. rewrite map_app.
          apply incl_appl. exact Hincl.
      + left. split; auto. intros lf'. eapply (step_dead hash o2 if2 seen H2g F); eauto. intros E; congruence.
  Qed.

  Notation EXEC2 := (exec hash if2 o2 seen lf m).
  Lemma exec2_cons p2 y ys2 q2 p2' xs p3 : loop_done o2 p2 = false -> qrep (o_rdb o2) (p_queue p2) q2 (y :: ys2) ->
    STEP2 p2 = Ok p2' -> EXEC2 p2' xs p3 -> exists xs', EXEC2 p2 xs' p3 /\ List.length xs' = S (List.length xs).
  Proof.
    intros Hl Q Hs He. destruct (qrep_pop _ _ _ _ _ Q) as (q & Ep & _).
    exists (view (o_rdb o2) y :: xs). split; [econstructor; eauto|reflexivity].
  Qed.
  Lemma sim_live p1 done pend p2 pend2 : Sim p1 done pend p2 pend2 ->
    queue_is_empty (p_queue p2) = match pend with [] => true | _ => false end.
  Proof. intros (I & C & Q & AL). rewrite (qrep_empty _ _ _ _ Q). inv AL; auto. Qed.

  (* the second run, to its end *)
  Lemma sim_exec : forall w p1 done pend p2 pend2, Sim p1 done pend p2 pend2 -> phase p1 p2 -> (weight pend <= w)%nat ->
    exists xs1 xs2 p1' p2' done' pend' pend2', EXEC p1 xs1 p1' /\ EXEC2 p2 xs2 p2' /\
      Sim p1' (done ++ done') pend' p2' pend2' /\ (loop_done o2 p2' = true \/ stuck p2').
  Proof.
    induction w as [|w IH]; intros p1 done pend p2 pend2 SM PH Hw.
    - destruct pend as [|x xs].
      + exists [], [], p1, p2, [], [], pend2. rewrite app_nil_r. split; [constructor|]. split; [constructor|]. split; auto.
        left. unfold loop_done. rewrite (sim_live _ _ _ _ _ SM). auto.
      + simpl in Hw. pose proof (pow3_pos (nvars (raws x))). lia.
    - destruct (loop_done o2 p2) eqn:El.
      { exists [], [], p1, p2, [], pend, pend2. rewrite app_nil_r. split; [constructor|]. split; [constructor|]. split; auto. }
      destruct pend as [|x xs].
      { unfold loop_done in El. rewrite (sim_live _ _ _ _ _ SM) in El. discriminate. }
      pose proof SM as (I & C & Q & AL). destruct pend2 as [|y ys2]; [inv AL|].
      destruct (sim_step p1 done x xs p2 y ys2 SM PH) as [[-> Hs]|(p1' & p2' & k1 & k2 & new & pend2' & E1 & E2 & SM' & PH' & Hn)].
      + exists [], [], p1, p2, [], (x :: xs), (dead x :: ys2). rewrite app_nil_r. split; [constructor|]. split; [constructor|].
        split; auto. right. split; auto.
      + destruct (IH _ _ _ _ _ SM' PH') as (xs1 & xs2 & p1'' & p2'' & d' & pe & pe2 & A1 & A2 & A3 & A4).
        { rewrite weight_app. simpl in Hw. lia. }
        destruct (qrep_pop _ _ _ _ _ (i_queue _ _ _ _ _ _ _ _ _ _ _ _ _ I)) as (q & Ep & _).
        destruct (exec2_cons p2 y ys2 _ p2' xs2 p2'' El Q E2 A2) as (xs2' & A2' & _).
        exists (view (o_rdb o1) x :: xs1), xs2', p1'', p2'', ((x, k1, k2) :: d'), pe, pe2.
        split; [|split; [exact A2'|split; [|exact A4]]].
        * econstructor; eauto. unfold loop_done. rewrite (inv_empty _ _ _ _ _ _ _ _ _ _ _ _ _ I), H1e, andb_false_r. auto.
        * rewrite <- app_assoc in A3. exact A3.
  Qed.

  (* once every waiting set was loaded from the table *)
  Lemma dead_exec : forall zs p1 done pend p2, EXEC p1 zs pT -> Sim p1 done pend p2 (map dead pend) ->
    p_db p2 = T -> unsolved p2 ->
    exists xs2 p2' done', EXEC2 p2 xs2 p2' /\
      ((stuck p2' /\ queue_is_empty (p_queue pT) = false) \/
       (loop_done o2 p2' = true /\ queue_is_empty (p_queue pT) = true /\ Sim pT (done ++ done') [] p2' [] /\
        unsolved p2' /\ p_db p2' = T /\ p_found p2' = p_found p2 + Z.of_nat (List.length zs))).
  Proof.
    intros zs. induction zs as [|z zs IH]; intros p1 done pend p2 He SM Hdb U.
    - inv He. pose proof SM as (I & C & Q & AL). exists [], p2, []. split; [constructor|]. rewrite app_nil_r.
      destruct pend as [|x xs].
      + right. unfold loop_done. rewrite (sim_live _ _ _ _ _ SM), (inv_empty _ _ _ _ _ _ _ _ _ _ _ _ _ I).
        cbn [List.length Z.of_nat]. rewrite Z.add_0_r. cbn [map] in SM. repeat (split; auto).
      + left. rewrite (inv_empty _ _ _ _ _ _ _ _ _ _ _ _ _ I). split; auto. split.
        * unfold loop_done. rewrite (sim_live _ _ _ _ _ SM). destruct U as [->| ->]; auto.
        * intros lf'. assert (Hx : In x (ys done (x :: xs))) by (apply in_app_iff; simpl; auto).
          destruct (i_nodes _ _ _ _ _ _ _ _ _ _ _ _ _ I x Hx) as [(N & Hi & Hc & W) Hr].
          eapply (step_dead hash o2 if2 seen H2g F); eauto. intros E. exfalso.
          apply (in_gdb_T p2 _ Hdb) in E. eapply pending_fresh; [exact I|simpl; eauto|exact E].
    - pose proof SM as (I & C & Q & AL).
      destruct pend as [|x xs].
      { inversion He as [|? x0 q1 p3 xs0 p4 Hl Hp Hs He']; subst.
        rewrite (qrep_pop_empty _ _ _ (i_queue _ _ _ _ _ _ _ _ _ _ _ _ _ I)) in Hp. discriminate. }
      assert (Hx : In x (ys done (x :: xs))) by (apply in_app_iff; simpl; auto).
      destruct (i_nodes _ _ _ _ _ _ _ _ _ _ _ _ _ I x Hx) as [(N & Hi & Hc & W) Hr].
      assert (HinT : In (sid x) (dkeys T)).
      { inversion He as [|? x0 q1 p3 xs0 p4 Hl Hp Hs He']; subst.
        destruct (step_inv hash if1 o1 [] Hg1 F n L K lf m Hlf [] Hd1 r p1 done x xs I)
          as (p3' & k1 & k2 & E2 & I' & X). rewrite Hs in E2; inv E2.
        destruct (exec_inv_ext hash if1 o1 [] F n L K lf m [] Hg1 Hlf Hd1 r _ _ _ He' _ _ I')
          as (d' & pe & ad & I2 & _ & Ey).
        rewrite (db_keys _ _ _ I2). apply in_map. apply in_map_iff. exists (x, k1, k2). split; auto.
        apply in_app_iff. left. apply in_app_iff. simpl; auto. }
      assert (El : loop_done o2 p2 = false).
      { unfold loop_done. rewrite (sim_live _ _ _ _ _ SM). destruct U as [->| ->]; auto. }
      cbn [map] in SM.
      destruct (sim_pull p1 done x xs p2 (dead x) (map dead xs) (z :: zs) SM He Hdb HinT)
        as (p1' & k1 & k2 & zs' & Es & I' & EX & He' & Ezs & GN & GP). injection Ezs as -> <-.
      destruct (forallb (fun h => existsb (text_eqb h) (dkeys T)) (kid_ids k1 ++ kid_ids k2)) eqn:Ea.
      + assert (Hall : incl (kid_ids k1 ++ kid_ids k2) (dkeys T)).
        { rewrite forallb_forall in Ea. intros h Hh. specialize (Ea h Hh). apply existsb_exists in Ea as (h' & Hh' & Eh).
          apply text_eqb_eq in Eh. rewrite Eh. exact Hh'. }
        destruct (GP Hall) as (p2' & E2 & SM' & Hdb' & Hf & HU). rewrite <- map_app in SM'.
        destruct (IH p1' _ _ p2' He' SM' Hdb' (HU U)) as (xs2 & p3 & d' & A1 & A2).
        destruct (exec2_cons p2 _ _ _ p2' xs2 p3 El Q E2 A1) as (xs2' & A1' & _).
        exists xs2', p3, ((x, k1, k2) :: d'). split; auto. destruct A2 as [A2|(B1 & B2 & B3 & B4 & B5 & B6)]; [left; auto|right].
        rewrite <- app_assoc in B3. split; auto. split; auto. split; [exact B3|]. split; auto. split; auto.
        rewrite B6, Hf. cbn [List.length]. lia.
      + assert (Hn0 : ~ incl (kid_ids k1 ++ kid_ids k2) (dkeys T)).
        { intros Hi2. assert (forallb (fun h => existsb (text_eqb h) (dkeys T)) (kid_ids k1 ++ kid_ids k2) = true); [|congruence].
          apply forallb_forall. intros h Hh. apply existsb_exists. exists h. split; [auto|apply text_eqb_refl]. }
        exists [], p2, []. split; [constructor|]. left. split.
        * split; auto. intros lf'. eapply (step_dead hash o2 if2 seen H2g F); eauto.
        * destruct (exec_inv_ext hash if1 o1 [] F n L K lf m [] Hg1 Hlf Hd1 r _ _ _ He' _ _ I')
            as (d' & pe & ad & I2 & _ & Ey).
          rewrite (inv_empty _ _ _ _ _ _ _ _ _ _ _ _ _ I2). destruct pe; auto. exfalso. apply Hn0.
          assert (Hin2 : In (x, k1, k2) ((done ++ [(x, k1, k2)]) ++ d')) by (apply in_app_iff; left; apply in_app_iff; simpl; auto).
          destruct (i_done _ _ _ _ _ _ _ _ _ _ _ _ _ I2 _ Hin2) as [_ Hinc].
          rewrite (db_keys _ _ _ I2). unfold ys in Hinc. rewrite app_nil_r in Hinc. exact Hinc.
  Qed.

  (* the start of the second run *)
  Lemma start2 p1 : start hash o1 r [] = Ok p1 -> INV r p1 [] [r] -> computed_hash r = Some (sid r) ->
    exists p2, start hash o2 r T = Ok p2 /\ Sim p1 [] [r] p2 [r] /\ p_db p2 = T /\ p_solution p2 = None /\ p_found p2 = 0.
  Proof.
    intros Hs I Hc. pose proof (i_queue _ _ _ _ _ _ _ _ _ _ _ _ _ I) as Q.
    unfold start in *. rewrite (get_hash_some hash _ _ Hc) in *. cbn [bind] in *. rewrite <- Erdb.
    destruct (queue_insert (queue_init (o_rdb o1)) r) as [q| |] eqn:Eq; cbn [bind] in *; try discriminate.
    injection Hs as <-. eexists. split; [reflexivity|]. split; [|auto].
    split; [exact I|]. split; [constructor; auto; left; reflexivity|]. split; [rewrite <- Erdb; exact Q|].
    constructor; [left; reflexivity|constructor].
  Qed.
End Resume.

(* ---- from executions to runs ---- *)
Lemma exec_run hash insert_fails o seen lf m p xs p' : exec hash insert_fails o seen lf m p xs p' ->
  loop_done o p' = true -> forall fuel, (List.length xs <= fuel)%nat -> run hash insert_fails o seen fuel lf m p = Ok p'.
Proof.
  intros H Hl. induction H as [p|p x q p1 xs p' Hl0 Hp Hs He IH]; intros fuel Hf.
  - destruct fuel; cbn [run]; rewrite Hl; auto.
  - destruct fuel as [|f]; [simpl in Hf; lia|]. cbn [run]. rewrite Hl0, Hs. cbn [bind]. apply IH; auto. simpl in Hf. lia.
Qed.
Lemma exec_run_err hash insert_fails o seen lf m p xs p' e : exec hash insert_fails o seen lf m p xs p' ->
  loop_done o p' = false -> step hash insert_fails o seen lf m p' = Err e ->
  forall fuel, (List.length xs < fuel)%nat -> run hash insert_fails o seen fuel lf m p = Err e.
Proof.
  intros H Hl Hs. induction H as [p|p x q p1 xs p' Hl0 Hp Hs0 He IH]; intros fuel Hf.
  - destruct fuel; [simpl in Hf; lia|]. cbn [run]. rewrite Hl, Hs. auto.
  - destruct fuel as [|f]; [simpl in Hf; lia|]. cbn [run]. rewrite Hl0, Hs0. cbn [bind]. apply IH; auto. simpl in Hf. lia.
Qed.
Lemma exec_more hash ifl o seen lf lf' m p xs p' : (lf <= lf')%nat ->
  exec hash ifl o seen lf m p xs p' -> exec hash ifl o seen lf' m p xs p'.
Proof.
  intros Hle H. induction H; [constructor|]. econstructor; eauto. eapply step_mono; eauto.
Qed.
