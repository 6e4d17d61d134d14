(* PProc3.v -- the multi-process run: what the merged answers mean. *)
From Coq Require Import String Ascii ZArith List Bool Lia Permutation Sorted.
From Verif Require Import Spec PyBase MSet MText MQueue MDb MSolver MProc SpecRun SpecProc PLib PClause PRename PLo
  PNorm PEval PText PQueue PNode PStep PRun PStats PSolver PSolve PSearch PGraph PProc PProc2.
Import ListNotations.
Open Scope Z_scope.

(* ---- merging two graphs ---- *)
Definition merged (own : option (list digest)) (v : list digest) : list digest :=
  match own with
  | Some (a :: l) => if (List.length v <=? List.length (a :: l))%nat then a :: l else v
  | _ => v
  end.
Lemma merge_cons g k v t : merge_children g ((k, v) :: t) =
  merge_children (match dget text_eqb k g with
                  | Some (a :: l) => if (List.length v <=? List.length (a :: l))%nat then g else dset text_eqb k v g
                  | _ => dset text_eqb k v g end) t.
Proof. reflexivity. Qed.
Lemma merge_one g k v h : 
  dget text_eqb h (match dget text_eqb k g with
                   | Some (a :: l) => if (List.length v <=? List.length (a :: l))%nat then g else dset text_eqb k v g
                   | _ => dset text_eqb k v g end) =
  if text_eqb h k then Some (merged (dget text_eqb k g) v) else dget text_eqb h g.
Proof.
  unfold merged. destruct (text_eqb_spec h k) as [->|Hne].
  - destruct (dget text_eqb k g) as [[|a l]|] eqn:E; try apply (dget_dset_same _ tspec).
    destruct (List.length v <=? List.length (a :: l))%nat; auto. apply (dget_dset_same _ tspec).
  - destruct (dget text_eqb k g) as [[|a l]|] eqn:E; try (apply (dget_dset_other _ tspec); auto).
    destruct (List.length v <=? List.length (a :: l))%nat; auto. apply (dget_dset_other _ tspec); auto.
Qed.
Lemma merge_get : forall g' g h, NoDup (dkeys g') ->
  dget text_eqb h (merge_children g g') =
  match dget text_eqb h g' with Some v => Some (merged (dget text_eqb h g) v) | None => dget text_eqb h g end.
Proof.
  induction g' as [|[k v] t IH]; intros g h ND; [reflexivity|].
  inversion ND as [|? ? Hk ND']; subst. rewrite merge_cons, (IH _ _ ND'). cbn [dget]. rewrite merge_one.
  destruct (text_eqb_spec h k) as [->|Hne].
  - rewrite (proj2 (dget_None _ tspec k t) Hk). reflexivity.
  - reflexivity.
Qed.
Lemma merge_nodup : forall g' g, NoDup (dkeys g) -> NoDup (dkeys (merge_children g g')).
Proof.
  induction g' as [|[k v] t IH]; intros g ND; [exact ND|]. rewrite merge_cons. apply IH.
  destruct (dget text_eqb k g) as [[|a l]|]; try (apply (dset_NoDup _ tspec); auto).
  destruct (_ <=? _)%nat; auto. apply (dset_NoDup _ tspec); auto.
Qed.
Lemma key_get {V} h (g : list (digest * V)) : In h (dkeys g) <-> exists v, dget text_eqb h g = Some v.
Proof.
  split.
  - intros H. destruct (dget text_eqb h g) eqn:E; eauto. apply (dget_None _ tspec) in E. contradiction.
  - intros [v E]. eapply (dget_Some_key _ tspec); eauto.
Qed.
Lemma merge_keys g' g h : NoDup (dkeys g') ->
  (In h (dkeys (merge_children g g')) <-> In h (dkeys g) \/ In h (dkeys g')).
Proof.
  intros ND. rewrite !key_get, (merge_get g' g h ND). destruct (dget text_eqb h g') as [v|] eqn:E.
  - split; eauto.
  - split; [intros H; left; exact H|intros [H|[v H]]; [exact H|discriminate]].
Qed.
Definition two_kids (g : graph) : Prop :=
  closed_graph g /\ forall h, In h (dkeys g) -> (List.length (succs g h) <= 2)%nat.
Lemma merge_two g g' : two_kids g -> two_kids g' -> two_kids (merge_children g g').
Proof.
  intros ((N1 & C1) & L1) ((N2 & C2) & L2).
  assert (Hs : forall h, (succs (merge_children g g') h = succs g h /\ In h (dkeys (merge_children g g')) -> True) /\
            (In h (dkeys (merge_children g g')) ->
             (succs (merge_children g g') h = succs g h /\ In h (dkeys g)) \/
             (succs (merge_children g g') h = succs g' h /\ In h (dkeys g')))).
  { intros h. split; auto. intros Hh. unfold succs. rewrite (merge_get g' g h N2).
    destruct (dget text_eqb h g') as [v|] eqn:E2.
    - unfold merged. destruct (dget text_eqb h g) as [[|a l]|] eqn:E1.
      + right. split; auto. apply key_get; eauto.
      + destruct (_ <=? _)%nat; [left|right]; split; auto; apply key_get; eauto.
      + right. split; auto. apply key_get; eauto.
    - left. split; auto. apply (merge_keys _ _ _ N2) in Hh as [Hh|Hh]; auto. apply key_get in Hh as [w Hw]. congruence. }
  split; [split; [apply merge_nodup; auto|]|].
  - intros h Hh x Hx. apply (merge_keys _ _ _ N2). destruct (proj2 (Hs h) Hh) as [[E H1]|[E H1]]; rewrite E in Hx; [left; eapply C1|right; eapply C2]; eauto.
  - intros h Hh. destruct (proj2 (Hs h) Hh) as [[E H1]|[E H1]]; rewrite E; auto.
Qed.
Lemma merge_all_keys : forall gs g h, (forall g', In g' gs -> NoDup (dkeys g')) ->
  (In h (dkeys (fold_left merge_children gs g)) <-> In h (dkeys g) \/ exists g', In g' gs /\ In h (dkeys g')).
Proof.
  induction gs as [|g1 gs IH]; intros g h ND; cbn [fold_left].
  - split; auto. intros [H|(g' & [] & _)]; auto.
  - rewrite IH by (intros; apply ND; right; auto). rewrite merge_keys by (apply ND; left; auto).
    split.
    + intros [[H|H]|(g' & H1 & H2)]; auto; right; [exists g1; simpl; auto|exists g'; simpl; auto].
    + intros [H|(g' & [->|H1] & H2)]; auto. right. eauto.
Qed.
(* lists that are right stay right, missing and empty ones are replaced by right ones *)
Lemma merge_all_right : forall gs g h R, (forall g', In g' gs -> NoDup (dkeys g')) ->
  (dget text_eqb h g = None \/ dget text_eqb h g = Some [] \/ dget text_eqb h g = Some R) ->
  (forall g' l, In g' gs -> dget text_eqb h g' = Some l -> l = R) ->
  (dget text_eqb h g = Some R \/ exists g', In g' gs /\ In h (dkeys g')) ->
  dget text_eqb h (fold_left merge_children gs g) = Some R.
Proof.
  induction gs as [|g1 gs IH]; intros g h R ND H1 H2 H3; cbn [fold_left].
  - destruct H3 as [H3|(g' & [] & _)]; auto.
  - assert (E : dget text_eqb h (merge_children g g1) = dget text_eqb h g /\ ~ In h (dkeys g1) \/
                dget text_eqb h (merge_children g g1) = Some R).
    { rewrite merge_get by (apply ND; left; auto). destruct (dget text_eqb h g1) as [v|] eqn:E.
      - right. rewrite (H2 g1 v (or_introl eq_refl) E).
        unfold merged. destruct H1 as [->|[->| ->]]; auto. destruct R; auto. rewrite Nat.leb_refl. auto.
      - left. split; auto. apply (dget_None _ tspec); auto. }
    apply IH.
    + intros; apply ND; right; auto.
    + destruct E as [[-> _]|E]; auto.
    + intros; eapply H2; eauto. right; auto.
    + destruct E as [[-> Hn]|E]; auto. destruct H3 as [H3|(g' & [->|Hg] & Hh)]; auto; [contradiction|]. right; eauto.
Qed.

Definition w_graph (w : worker) : graph := match w_reply w with Some (Answer _ ch _) => ch | _ => [] end.
Lemma absorbed_children : forall cs p, (forall w, In w cs -> answers w) ->
  p_children (fold_left absorb_w cs p) = fold_left merge_children (map w_graph cs) (p_children p).
Proof.
  induction cs as [|w cs IH]; intros p H; cbn [fold_left map]; auto.
  rewrite IH by (intros; apply H; right; auto). f_equal.
  destruct (H w (or_introl eq_refl)) as (sat & ch & sol & E). unfold absorb_w, w_graph. rewrite E. unfold absorb.
  destruct (solution_truthy sol); reflexivity.
Qed.
Lemma absorbed_fields : forall cs p, p_queue (fold_left absorb_w cs p) = p_queue p /\
  p_sat (fold_left absorb_w cs p) = p_sat p || existsb (fun w => match w_reply w with Some (Answer b _ _) => b | _ => false end) cs.
Proof.
  induction cs as [|w cs IH]; intros p; cbn [fold_left existsb].
  - rewrite orb_false_r. auto.
  - destruct (IH (absorb_w p w)) as [-> ->]. unfold absorb_w. destruct (w_reply w) as [[|b ch sol]|]; cbn [orb]; auto.
    unfold absorb. rewrite orb_assoc. destruct (solution_truthy sol); auto.
Qed.

(* ---- sets of expanded nodes that contain all their children ---- *)
Section Cover.
  Variable hash : text -> digest.
  Variable o : opts.
  Variable F : list (list Z).
  Variables n L K lf : nat.
  Variable m : mode.
  Hypothesis Hlf : (lo_bound n L K <= lf)%nat.
  Notation NODE := (is_node hash F n L K).
  Notation REACH := (reach hash o lf m).
  Notation EXPANDS := (expands hash o lf m).
  Definition ids (E : list entry) : list digest := map (fun e => sid (e_node e)) E.

  Record cover (r : cset) (E : list entry) : Prop := mkCover {
    cv_node : forall x k1 k2, In (x, k1, k2) E -> NODE x /\ EXPANDS x k1 k2 /\
      kid_ok hash F n L K (view (o_rdb o) x) true k1 /\ kid_ok hash F n L K (view (o_rdb o) x) false k2 /\
      exists x0, REACH r x0 /\ raws x0 = raws x /\ EXPANDS x0 k1 k2;
    cv_kids : forall e, In e E -> incl (e_kids e) (ids E);
    cv_root : In (sid r) (ids E);
    cv_isnode : NODE r
  }.
  Lemma cover_kid r E x k1 k2 c : cover r E -> In (x, k1, k2) E -> k1 = KNode c \/ k2 = KNode c -> REACH r c /\ NODE c.
  Proof.
    intros C He Hk. destruct (cv_node _ _ C _ _ _ He) as (_ & _ & _ & _ & x0 & R0 & _ & E0).
    assert (R : REACH r c) by (eapply reach_step; eauto). split; auto.
    eapply reach_node; eauto. apply C.
  Qed.
  Lemma cover_same r E x k1 k2 c : cover r E -> no_collision hash o lf m r -> In (x, k1, k2) E -> REACH r c ->
    sid x = sid c -> raws x = raws c.
  Proof.
    intros C NC He Rc Es. destruct (cv_node _ _ C _ _ _ He) as ((Nx & Sx & _) & _ & _ & _ & x0 & R0 & E0 & _).
    destruct (reach_node hash o F n L K lf m r c (cv_isnode _ _ C) Hlf Rc) as (Nc & Sc & _).
    destruct (reach_node hash o F n L K lf m r x0 (cv_isnode _ _ C) Hlf R0) as (N0 & S0 & _).
    rewrite Sx, Sc, <- E0 in Es. apply NC in Es; auto. rewrite E0 in Es.
    apply formula_text_inj in Es; auto; eapply node_nonempty; eauto.
  Qed.
  Lemma cover_complete r E : cover r E -> no_collision hash o lf m r -> satisfiable (raws r) -> true_leaves E <> [].
  Proof.
    intros C NC Hs.
    assert (Main : forall k x k1 k2, In (x, k1, k2) E -> (nvars (raws x) < k)%nat -> satisfiable (raws x) -> true_leaves E <> []).
    { induction k as [|k IHk]; intros x k1 k2 He Hk (a & Ha); [lia|].
      destruct (cv_node _ _ C _ _ _ He) as (_ & _ & A1 & A2 & _).
      assert (Hkid : forall b kk, kid_ok hash F n L K (view (o_rdb o) x) b kk -> (kk = k1 \/ kk = k2) ->
                a (pivot_of (view (o_rdb o) x)) = b -> true_leaves E <> []).
      { intros b kk [HK _] Hor Hb. destruct kk as [[] d|c].
        - intros E0. assert (Hin : In d (true_leaves E)).
          { unfold true_leaves. apply in_flat_map. exists (x, k1, k2). split; auto. unfold e_true. apply in_app_iff.
            destruct Hor as [<-|<-]; simpl; auto. }
          rewrite E0 in Hin. destruct Hin.
        - exfalso. apply (HK a Hb). rewrite view_raws; auto.
        - destruct HK as (N & S1 & S2 & Hlt & W & _ & _ & Hsat & _). rewrite view_raws in *.
          assert (Hor' : k1 = KNode c \/ k2 = KNode c) by (destruct Hor as [<-|<-]; auto).
          assert (Hc : In (sid c) (ids E)).
          { apply (cv_kids _ _ C _ He). unfold e_kids. apply in_app_iff. destruct Hor as [<-|<-]; simpl; auto. }
          apply in_map_iff in Hc as ([[y j1] j2] & Ey & Hy). cbn [e_node fst] in Ey.
          destruct (cover_kid _ _ _ _ _ _ C He Hor') as [Rc _].
          pose proof (cover_same _ _ _ _ _ c C NC Hy Rc Ey) as Er.
          apply (IHk y j1 j2); auto; rewrite Er; [lia|]. eapply Hsat; eauto. }
      destruct (a (pivot_of (view (o_rdb o) x))) eqn:Eb; [apply (Hkid true k1)|apply (Hkid false k2)]; auto. }
    pose proof (cv_root _ _ C) as Hr. apply in_map_iff in Hr as ([[y j1] j2] & Ey & Hy). cbn [e_node fst] in Ey.
    pose proof (cover_same _ _ _ _ _ r C NC Hy (reach_refl _ _ _ _ _) Ey) as Er.
    eapply (Main (S (nvars (raws y))) y); eauto. rewrite Er; auto.
  Qed.

  Hypothesis Ht : o_thief o = false.
  Lemma cover_same_kids r E x k1 k2 y j1 j2 : cover r E -> In (x, k1, k2) E -> In (y, j1, j2) E -> raws x = raws y ->
    kid_ids k1 = kid_ids j1 /\ kid_ids k2 = kid_ids j2.
  Proof.
    intros C Hx Hy Er.
    destruct (cv_node _ _ C _ _ _ Hx) as ((Nx & _) & Ex & _). destruct (cv_node _ _ C _ _ _ Hy) as ((Ny & _) & Ey & _).
    destruct (expands_formula hash o Ht _ _ _ x k1 k2 Nx Ex) as [A1 A2].
    destruct (expands_formula hash o Ht _ _ _ y j1 j2 Ny Ey) as [B1 B2]. rewrite <- Er in B1, B2.
    assert (Q : forall b k j, (k = k1 \/ k = k2) -> (j = j1 \/ j = j2) -> kid_of o m b (raws x) k -> kid_of o m b (raws x) j ->
      kid_ids k = kid_ids j).
    { intros b k j Hk Hj Ak Bj. destruct k as [v d|c], j as [v' d'|c']; cbn [kid_of kid_ids] in *; auto.
      - destruct Bj as (D1 & D2 & D3). destruct Ak; contradiction.
      - destruct Ak as (D1 & D2 & D3). destruct Bj; contradiction.
      - destruct Ak as (D1 & D2 & D3), Bj as (_ & _ & D4).
        assert (Ec : raws c = raws c').
        { eapply normal_form_fun; [exact D1| |exact D3|exact D4]. intros e He0 ->. auto. }
        destruct (cover_kid _ _ _ _ _ c C Hx) as [_ (_ & Sc & _)]; [destruct Hk as [<-|<-]; auto|].
        destruct (cover_kid _ _ _ _ _ c' C Hy) as [_ (_ & Sc' & _)]; [destruct Hj as [<-|<-]; auto|].
        rewrite Sc, Sc', Ec. auto. }
    split; [apply (Q true)|apply (Q false)]; auto.
  Qed.
  Lemma cover_kids_fun r E e e' : cover r E -> no_collision hash o lf m r -> In e E -> In e' E ->
    sid (e_node e) = sid (e_node e') -> e_kids e = e_kids e'.
  Proof.
    intros C NC He He' Es. destruct e as [[x k1] k2], e' as [[y j1] j2]. cbn [e_node fst] in Es.
    destruct (cv_node _ _ C _ _ _ He') as ((_ & Sy & _) & _ & _ & _ & y0 & R0 & Ey0 & _).
    destruct (reach_node hash o F n L K lf m r y0 (cv_isnode _ _ C) Hlf R0) as (_ & S0 & _).
    assert (Er : raws x = raws y).
    { rewrite <- Ey0. eapply cover_same; eauto. rewrite S0, Ey0, <- Sy. exact Es. }
    destruct (cover_same_kids _ _ _ _ _ _ _ _ C He He' Er) as [A B]. unfold e_kids. cbn [fst snd]. rewrite A, B. auto.
  Qed.
  Lemma cover_all r E : cover r E -> no_collision hash o lf m r -> forall x, REACH r x ->
    exists y k1 k2, In (y, k1, k2) E /\ raws y = raws x.
  Proof.
    intros C NC x Hx. induction Hx as [|x k1 k2 c Hx IH Ex Hk].
    - pose proof (cv_root _ _ C) as Hr. apply in_map_iff in Hr as ([[y j1] j2] & Ey & Hy). cbn [e_node fst] in Ey.
      exists y, j1, j2. split; auto. eapply cover_same; eauto. constructor.
    - destruct IH as (y & j1 & j2 & Hy & Ey).
      assert (Rc : REACH r c) by (eapply reach_step; [exact Hx|exact Ex|exact Hk]).
      destruct (reach_node hash o F n L K lf m r x (cv_isnode _ _ C) Hlf Hx) as (Nx & _).
      destruct (reach_node hash o F n L K lf m r c (cv_isnode _ _ C) Hlf Rc) as (Nc & Sc & _).
      destruct (cv_node _ _ C _ _ _ Hy) as ((Ny & _) & Ej & _).
      destruct (expands_formula hash o Ht _ _ _ x k1 k2 Nx Ex) as [A1 A2].
      destruct (expands_formula hash o Ht _ _ _ y j1 j2 Ny Ej) as [B1 B2]. rewrite Ey in B1, B2.
      assert (Hc : exists c', (j1 = KNode c' \/ j2 = KNode c') /\ raws c' = raws c).
      { assert (Q : forall b k j, k = KNode c -> kid_of o m b (raws x) k -> kid_of o m b (raws x) j ->
                  exists c', j = KNode c' /\ raws c' = raws c).
        { intros b k j -> (D1 & D2 & D3) Hj. destruct j as [v d|c']; simpl in Hj; [destruct Hj; contradiction|].
          exists c'. split; auto. destruct Hj as (_ & _ & D4). eapply normal_form_fun; [exact D1| |exact D4|exact D3].
          intros e He0 ->. auto. }
        destruct Hk as [Hk|Hk].
        - destruct (Q true k1 j1 Hk A1 B1) as (c' & ? & ?). exists c'; auto.
        - destruct (Q false k2 j2 Hk A2 B2) as (c' & ? & ?). exists c'; auto. }
      destruct Hc as (c' & Hj & Ec). destruct (cover_kid _ _ _ _ _ c' C Hy Hj) as [Rc' (_ & Sc' & _)].
      assert (Hid : In (sid c') (ids E)).
      { apply (cv_kids _ _ C _ Hy). unfold e_kids. cbn [fst snd]. apply in_app_iff. destruct Hj as [->| ->]; simpl; auto. }
      apply in_map_iff in Hid as ([[w i1] i2] & Ew & Hw). cbn [e_node fst] in Ew. exists w, i1, i2. split; auto.
      rewrite <- Ec. eapply cover_same; eauto.
  Qed.
  (* the recorded graph, given by the sets covered *)
  Lemma cover_graph r E g : cover r E -> no_collision hash o lf m r ->
    (forall h, In h (dkeys g) <-> In h (ids E)) -> (forall e, In e E -> dget text_eqb (sid (e_node e)) g = Some (e_kids e)) ->
    let z := o_sort_by_size o in
    (forall h, In h (dkeys g) <-> exists G, met m z (raws r) G /\ h = hash (formula_text G)) /\
    (forall G, met m z (raws r) G -> exists lb rb,
        child_ids hash m z true G lb /\ child_ids hash m z false G rb /\
        dget text_eqb (hash (formula_text G)) g = Some (lb ++ rb)).
  Proof.
    intros C NC Hk Hd z. split.
    - intros h. rewrite Hk. unfold ids. rewrite in_map_iff. split.
      + intros ([[y k1] k2] & <- & Hy). destruct (cv_node _ _ C _ _ _ Hy) as ((_ & Sy & _) & _ & _ & _ & y0 & R0 & E0 & _).
        exists (raws y). cbn [e_node fst]. split; [|exact Sy]. rewrite <- E0.
        exact (reach_met hash o Ht _ _ _ _ _ _ Hlf r y0 (cv_isnode _ _ C) R0).
      + intros (G & HG & ->). destruct (met_reach hash o Ht _ _ _ _ _ _ Hlf r G (cv_isnode _ _ C) HG) as (x & Hx & <-).
        destruct (cover_all _ _ C NC x Hx) as (y & k1 & k2 & Hy & Ey). exists (y, k1, k2). split; auto.
        destruct (cv_node _ _ C _ _ _ Hy) as ((_ & Sy & _) & _). cbn [e_node fst]. rewrite Sy, Ey. reflexivity.
    - intros G HG. destruct (met_reach hash o Ht _ _ _ _ _ _ Hlf r G (cv_isnode _ _ C) HG) as (x & Hx & <-).
      destruct (cover_all _ _ C NC x Hx) as (y & k1 & k2 & Hy & Ey).
      destruct (cv_node _ _ C _ _ _ Hy) as ((Ny & Sy & _) & Ek & _).
      destruct (expands_formula hash o Ht _ _ _ y k1 k2 Ny Ek) as [A1 A2].
      exists (kid_ids k1), (kid_ids k2).
      assert (Q : forall b k, (k = k1 \/ k = k2) -> kid_of o m b (raws y) k -> child_ids hash m z b (raws x) (kid_ids k)).
      { rewrite Ey. intros b k Hkk H. destruct k as [v d|c]; simpl in H |- *; [left; auto|right].
        exists (raws c). split; auto. f_equal.
        destruct (cover_kid _ _ _ _ _ c C Hy) as [_ (_ & Sc & _)]; [destruct Hkk as [<-|<-]; auto|]. exact Sc. }
      split; [apply Q; auto|]. split; [apply Q; auto|].
      pose proof (Hd _ Hy) as Eg. cbn [e_node fst] in Eg. rewrite <- Ey. change (hash (formula_text (raws y))) with (fhash hash (raws y)).
      rewrite <- Sy. exact Eg.
  Qed.
End Cover.
