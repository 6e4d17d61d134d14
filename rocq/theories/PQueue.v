(* PQueue.v -- the work queue refines a list; unique_queue. *)
From Coq Require Import String Ascii ZArith List Bool Lia Permutation Sorted.
From Verif Require Import Spec PyBase MSet MText MQueue MDb MSolver SpecRun PLib PClause PRename PLo PNorm PEval PText.
Import ListNotations.
Open Scope Z_scope.



(* queue q holds the inserted items xs, oldest first; ever = ids of all rows written so far *)
Record qrep (rdb : bool) (q : squeue) (ever : list digest) (xs : list cset) : Prop := mkQrep {
  qr_db : q_use_db q = rdb;
  qr_mem : rdb = false -> q_objs q = xs;
  qr_ids : rdb = true -> q_ids q = map sid xs;
  qr_ok : rdb = true -> rt_broken (q_table q) = false;
  qr_rows : rdb = true -> dkeys (rt_rows (q_table q)) = ever;
  qr_row : rdb = true -> forall x, In x xs -> storable x /\
     dget text_eqb (sid x) (rt_rows (q_table q)) = Some (formula_text (raws x), serialize_properties x)
}.
Lemma qrep_init rdb : qrep rdb (queue_init rdb) [] [].
Proof. constructor; simpl; auto. intros _ x []. Qed.
Lemma qrep_size rdb q ever xs : qrep rdb q ever xs -> queue_size q = List.length xs.
Proof.
  intros R. unfold queue_size. rewrite (qr_db _ _ _ _ R). destruct rdb.
  - rewrite (qr_ids _ _ _ _ R), map_length; auto.
  - rewrite (qr_mem _ _ _ _ R); auto.
Qed.
Lemma qrep_empty rdb q ever xs : qrep rdb q ever xs ->
  queue_is_empty q = match xs with [] => true | _ => false end.
Proof. intros R. unfold queue_is_empty. rewrite (qrep_size _ _ _ _ R). destruct xs; auto. Qed.
Lemma qrep_insert rdb q ever xs x : qrep rdb q ever xs ->
  (rdb = true -> storable x /\ ~ In (sid x) ever) ->
  exists q', queue_insert q x = Ok q' /\ qrep rdb q' (ever ++ [sid x]) (xs ++ [x]).
Proof.
  intros R Hx. unfold queue_insert. rewrite (qr_db _ _ _ _ R). destruct rdb.
  - destruct (Hx eq_refl) as [Hs Hn]. pose proof Hs as (S1 & S2 & S3 & _).
    rewrite to_text_eq by auto. cbn [bind]. eexists; split; [reflexivity|].
    pose proof (qr_ok _ _ _ _ R eq_refl) as Ho. pose proof (qr_rows _ _ _ _ R eq_refl) as Hr.
    assert (Hm : dmem text_eqb (sid x) (rt_rows (q_table q)) = false).
    { apply (dmem_false _ tspec). intros Hi. apply Hn. rewrite <- Hr. exact Hi. }
    constructor; simpl; unfold rtq_insert_set; rewrite ?Ho, ?Hm; simpl; auto; try discriminate.
    + intros _. rewrite (qr_ids _ _ _ _ R), map_app; auto.
    + intros _. unfold dkeys in *. rewrite map_app, Hr; auto.
    + intros _ y Hy.
      assert (Happ : forall k (v : text * text) d, dget text_eqb k (d ++ [(sid x, v)]) =
                match dget text_eqb k d with Some w => Some w
                | None => if text_eqb k (sid x) then Some v else None end).
      { clear. intros k v d. induction d as [|[a b] d IH]; simpl; auto.
        destruct (text_eqb k a); auto. }
      rewrite Happ. apply in_app_iff in Hy as [Hy|[<-|[]]].
      * destruct (qr_row _ _ _ _ R eq_refl y Hy) as [Hsy Hd]. rewrite Hd; auto.
      * unfold dmem in Hm. destruct (dget _ _ _); [discriminate|].
        rewrite text_eqb_refl; auto.
  - eexists; split; [reflexivity|]. constructor; simpl; auto; try discriminate.
    rewrite (qr_mem _ _ _ _ R); auto.
Qed.
Lemma qrep_pop rdb q ever x xs : qrep rdb q ever (x :: xs) ->
  exists q', queue_pop q = Ok (view rdb x, q') /\ qrep rdb q' ever xs.
Proof.
  intros R. unfold queue_pop. rewrite (qr_db _ _ _ _ R). destruct rdb.
  - rewrite (qr_ids _ _ _ _ R) by auto. cbn [map].
    destruct (qr_row _ _ _ _ R eq_refl x (or_introl eq_refl)) as [Hs Hd].
    unfold rtq_get_set. rewrite (qr_ok _ _ _ _ R), Hd by auto.
    destruct Hs as (S1 & S2 & S3 & S4 & S5).
    destruct (set_init_roundtrip x S2 S3 S4 S5) as (y & Hy & Hv). rewrite Hy; cbn [bind]. rewrite Hv.
    eexists; split; [reflexivity|]. constructor; simpl; auto; try discriminate; try apply R; auto.
    intros _ z Hz. apply (qr_row _ _ _ _ R eq_refl); simpl; auto.
  - rewrite (qr_mem _ _ _ _ R) by auto. eexists; split; [reflexivity|].
    constructor; simpl; auto; discriminate.
Qed.
Lemma qrep_pop_empty rdb q ever : qrep rdb q ever [] -> queue_pop q = Err IndexError.
Proof.
  intros R. unfold queue_pop. rewrite (qr_db _ _ _ _ R). destruct rdb.
  - rewrite (qr_ids _ _ _ _ R) by auto. auto.
  - rewrite (qr_mem _ _ _ _ R) by auto. auto.
Qed.


Lemma q_run_spec rdb ops : forall q ever xs, qrep rdb q ever xs ->
  (rdb = true -> Forall storable (inserted ops) /\ NoDup (ever ++ map sid (inserted ops))) ->
  exists q' ever', q_run ops q = Ok (map (option_map (view rdb)) (fst (fifo ops xs)), q') /\
             qrep rdb q' ever' (snd (fifo ops xs)).
Proof.
  induction ops as [|[s|] ops IH]; intros q ever xs R Hs; cbn [q_run fifo].
  - exists q, ever; auto.
  - destruct (qrep_insert rdb q ever xs s R) as (q1 & E1 & R1).
    { intros ->. destruct (Hs eq_refl) as [H1 H2]. simpl in H1, H2. inv H1. split; auto.
      apply NoDup_remove_2 in H2. intros H; apply H2, in_app_iff; auto. }
    rewrite E1; cbn [bind]. apply (IH q1 (ever ++ [sid s])); auto. intros ->.
    destruct (Hs eq_refl) as [H1 H2]. simpl in H1, H2. inv H1. split; auto.
    rewrite <- app_assoc; auto.
  - destruct xs as [|x xs].
    + rewrite (qrep_pop_empty _ _ _ R).
      destruct (IH q ever [] R Hs) as (q' & ever' & E & R'). rewrite E; cbn [bind].
      destruct (fifo ops []) as [o r]; simpl in *. eauto.
    + destruct (qrep_pop _ _ _ _ _ R) as (q1 & E1 & R1). rewrite E1.
      destruct (IH q1 ever xs R1 Hs) as (q' & ever' & E & R'). rewrite E; cbn [bind].
      destruct (fifo ops xs) as [o r]; simpl in *. eauto.
Qed.
Lemma fifo_order ops : forall l, somes (fst (fifo ops l)) ++ snd (fifo ops l) = l ++ inserted ops.
Proof.
  induction ops as [|[s|] ops IH]; intros l; cbn [fifo inserted flat_map].
  - rewrite app_nil_r; auto.
  - rewrite IH, <- app_assoc; auto.
  - destruct l as [|x l].
    + specialize (IH []). destruct (fifo ops []) as [o r]; simpl in *. auto.
    + specialize (IH l). destruct (fifo ops l) as [o r]; simpl in *. rewrite IH; auto.
Qed.

Lemma os_mem_obj n l : os_mem (UObj n) (map UObj l) = existsb (Nat.eqb n) l.
Proof. unfold os_mem. induction l; simpl; auto. rewrite IHl; auto. Qed.
Lemma existsb_nat n l : existsb (Nat.eqb n) l = true <-> In n l.
Proof.
  rewrite existsb_exists. split.
  - intros (x & Hx & E). apply Nat.eqb_eq in E; subst; auto.
  - intros H; exists n; split; auto. apply Nat.eqb_refl.
Qed.
Lemma u_run_mem ops : forall objs ids,
  NoDup ids -> NoDup objs -> (forall x, In x objs -> In x ids) ->
  exists objs' ids', snd (u_run ops (mkUQ false (map UObj objs) (map UObj ids) [] false)) =
                mkUQ false (map UObj objs') (map UObj ids') [] false /\
    oks (fst (u_run ops (mkUQ false (map UObj objs) (map UObj ids) [] false))) ++ objs' =
    objs ++ fresh ids (u_inserted ops).
Proof.
  induction ops as [|[n|] ops IH]; intros objs ids H1 H2 H3; cbn [u_run u_inserted flat_map].
  - exists objs, ids; simpl. rewrite app_nil_r; auto.
  - cbn [app]. fold (u_inserted ops). cbn [fresh]. unfold uq_insert. cbn [uq_ids uq_use_db uq_objs uq_rows uq_broken].
    unfold os_append. rewrite !os_mem_obj. destruct (existsb (Nat.eqb n) ids) eqn:E.
    + apply IH; auto.
    + assert (Hn : ~ In n ids) by (rewrite <- existsb_nat, E; discriminate).
      destruct (existsb (Nat.eqb n) objs) eqn:E2; [apply existsb_nat in E2; exfalso; auto|].
      replace (map UObj objs ++ [UObj n]) with (map UObj (objs ++ [n])) by (rewrite map_app; auto).
      replace (map UObj ids ++ [UObj n]) with (map UObj (ids ++ [n])) by (rewrite map_app; auto).
      destruct (IH (objs ++ [n]) (ids ++ [n])) as (o' & i' & A & B).
      * apply NoDup_rev in H1. rewrite <- (rev_involutive (ids ++ [n])). apply NoDup_rev.
        rewrite rev_app_distr; simpl; constructor; auto. rewrite <- in_rev; auto.
      * apply NoDup_rev in H2. rewrite <- (rev_involutive (objs ++ [n])). apply NoDup_rev.
        rewrite rev_app_distr; simpl; constructor; auto. rewrite <- in_rev; auto.
      * intros x Hx. apply in_app_iff in Hx as [Hx|Hx]; apply in_app_iff; auto.
      * exists o', i'; split; auto. rewrite B, <- app_assoc; auto.
  - cbn [app]. fold (u_inserted ops). unfold uq_pop. cbn [uq_use_db uq_objs].
    destruct objs as [|x objs]; cbn [map].
    + destruct (IH [] ids) as (o' & i' & A & B); auto. cbn [map] in *.
      destruct (u_run ops _) as [o q]. exists o', i'. auto.
    + assert (Hr : os_remove (UObj x) (UObj x :: map UObj objs) = map UObj objs).
      { unfold os_remove. simpl. rewrite Nat.eqb_refl; simpl. inv H2. clear -H4.
        induction objs as [|y objs IH]; simpl; auto. simpl in H4.
        destruct (Nat.eqb_spec x y); [subst; tauto|]. simpl. f_equal; auto. }
      rewrite Hr. destruct (IH objs ids) as (o' & i' & A & B); auto; [inv H2; auto | intros; apply H3; simpl; auto|].
      cbn [uq_ids uq_rows uq_broken]. destruct (u_run ops _) as [o q]. cbn [fst snd] in *. exists o', i'; split; auto.
      cbn [oks flat_map app]. f_equal. exact B.
Qed.
Lemma fresh_In seen l x : In x (fresh seen l) <-> In x l /\ ~ In x seen.
Proof.
  revert seen; induction l as [|y t IH]; simpl; intros seen; [tauto|].
  destruct (existsb (Nat.eqb y) seen) eqn:E.
  - apply existsb_nat in E. rewrite IH. split; [tauto|]. intros [[->|?] ?]; tauto.
  - assert (~ In y seen) by (rewrite <- existsb_nat, E; discriminate).
    simpl. rewrite IH, in_app_iff; simpl. split.
    + intros [->|[? ?]]; [tauto|]. split; [auto|]. tauto.
    + intros [[->|?] ?]; auto. destruct (Nat.eq_dec y x); auto. right. split; auto. intros [?|[?|[]]]; auto.
Qed.
Lemma fresh_NoDup seen l : NoDup (fresh seen l).
Proof.
  revert seen; induction l as [|y t IH]; simpl; intros seen; [constructor|].
  destruct (existsb (Nat.eqb y) seen); auto. constructor; auto.
  rewrite fresh_In, in_app_iff; simpl. tauto.
Qed.

(* with the runtime table: object and id are both queued, the object first *)
Definition twin (n : nat) : list uref := [UObj n; UId n].
Lemma os_mem_app x l r : os_mem x (l ++ r) = os_mem x l || os_mem x r.
Proof. unfold os_mem. apply existsb_app. Qed.
Lemma os_mem_twins_obj n l : os_mem (UObj n) (flat_map twin l) = existsb (Nat.eqb n) l.
Proof. induction l; simpl; auto. rewrite IHl; auto. Qed.
Lemma os_mem_twins_id n l : os_mem (UId n) (flat_map twin l) = existsb (Nat.eqb n) l.
Proof. induction l; simpl; auto. rewrite IHl; auto. Qed.
Lemma uq_inserts_db ns : forall l, NoDup l ->
  fold_left uq_insert ns (mkUQ true [] (flat_map twin l) l false) =
  mkUQ true [] (flat_map twin (l ++ fresh l ns)) (l ++ fresh l ns) false.
Proof.
  induction ns as [|n ns IH]; intros l Hl; cbn [fold_left fresh]; [rewrite app_nil_r; auto|].
  unfold uq_insert, os_append. cbn [uq_ids uq_use_db uq_objs uq_rows uq_broken].
  rewrite !os_mem_twins_obj. destruct (existsb (Nat.eqb n) l) eqn:E; [apply IH; auto|].
  - cbn [orb]. rewrite os_mem_app, os_mem_twins_id, E. cbn [orb os_mem existsb uref_eqb].
    replace ((flat_map twin l ++ [UObj n]) ++ [UId n]) with (flat_map twin (l ++ [n]))
      by (rewrite flat_map_app, <- app_assoc; auto).
    rewrite IH; [rewrite <- app_assoc; auto|].
    assert (Hn : ~ In n l) by (rewrite <- existsb_nat, E; discriminate).
    apply NoDup_rev in Hl. rewrite <- (rev_involutive (l ++ [n])). apply NoDup_rev.
    rewrite rev_app_distr; simpl; constructor; auto. rewrite <- in_rev; auto.
Qed.
Lemma uq_db_first_pop ns : ns <> [] ->
  let q := fold_left uq_insert ns (uq_init true) in
  fst (uq_pop q) = Err TypeError /\ uq_size q = (2 * List.length (fresh [] ns))%nat.
Proof.
  intros Hn. pose proof (uq_inserts_db ns [] (NoDup_nil _)) as H. cbn [flat_map app] in H.
  unfold uq_init. rewrite H. destruct ns as [|n ns]; [congruence|]. split; [reflexivity|].
  unfold uq_size. cbn [uq_use_db uq_ids]. clear.
  induction (fresh [] (n :: ns)); simpl in *; lia.
Qed.
