(* PGraph.v -- the recorded graph as a graph of normalised formulas (no thief ordering). *)
From Coq Require Import String Ascii ZArith List Bool Lia Permutation Sorted.
From Verif Require Import Spec PyBase MSet MText MQueue MDb MSolver SpecRun PLib PClause PRename PLo PNorm PEval PText PQueue PNode PStep PRun PStats PSolver PSolve PSearch.
Import ListNotations.
Open Scope Z_scope.

Lemma formula_set_raws F : raws (formula_set F) = F.
Proof. unfold raws; simpl. rewrite map_map. simpl. apply map_id. Qed.




(* ---- the normal form depends on the literals only ---- *)
Lemma insert_by_map {A B} (f : A -> B) (lt : A -> A -> bool) (lt' : B -> B -> bool) :
  (forall a b, lt a b = lt' (f a) (f b)) ->
  forall x l, map f (insert_by lt x l) = insert_by lt' (f x) (map f l).
Proof.
  intros H x l. induction l as [|y l IH]; simpl; auto. rewrite H.
  destruct (lt' (f y) (f x)); simpl; congruence.
Qed.
Lemma sort_by_map {A B} (f : A -> B) (lt : A -> A -> bool) (lt' : B -> B -> bool) :
  (forall a b, lt a b = lt' (f a) (f b)) ->
  forall l, map f (sort_by lt l) = sort_by lt' (map f l).
Proof. intros H l. induction l; simpl; auto. rewrite (insert_by_map _ _ _ H); congruence. Qed.
Lemma first_nonempty_raws s t : raws s = raws t -> first_nonempty s = first_nonempty t.
Proof.
  unfold raws, first_nonempty. destruct (clauses s) as [|c l], (clauses t) as [|d l']; simpl; try discriminate; auto.
  intros E. injection E as -> _. auto.
Qed.
Lemma sort_clauses_raws s t : raws s = raws t -> raws (sort_clauses s) = raws (sort_clauses t).
Proof.
  intros E. unfold sort_clauses. rewrite (first_nonempty_raws _ _ E). destruct (first_nonempty t); auto.
  unfold raws in *; simpl. rewrite !(sort_by_map raw clause_lt raw_lt) by auto. congruence.
Qed.
Lemma sort_len_raws s t : raws s = raws t -> raws (sort_clauses_by_length s) = raws (sort_clauses_by_length t).
Proof.
  intros E. unfold sort_clauses_by_length. rewrite (first_nonempty_raws _ _ E). destruct (first_nonempty t); auto.
  unfold raws in *; simpl.
  rewrite !(sort_by_map raw len_lt (fun a b => (List.length a <? List.length b)%nat)) by auto. congruence.
Qed.
Lemma cond2_raws : forall cs ds k, map raw cs = map raw ds -> cond2 k cs = cond2 k ds.
Proof.
  induction cs as [|c cs IH]; intros [|d ds] k E; try discriminate; auto.
  simpl in E. injection E as E1 E2. cbn [cond2]. rewrite E1. destruct (raw d); auto. destruct (_ <? _); auto.
Qed.
Lemma is_lo_raws m s t : raws s = raws t -> is_in_lo_state m s = is_in_lo_state m t.
Proof.
  intros E. assert (E' := E). unfold raws in E'. unfold is_in_lo_state. destruct m; auto; rewrite E;
    destruct (clauses s) as [|c l] eqn:Es, (clauses t) as [|d l'] eqn:Et; try discriminate; auto;
    pose proof (cond2_raws (c :: l) (d :: l')) as C2;
    assert (E3 := E'); simpl in E'; injection E' as E1 E2; rewrite E1; destruct (raw d); auto;
    rewrite C2; auto.
Qed.
Lemma map_inj_on {A B} (f g : A -> B) l : map f l = map g l -> forall x, In x l -> f x = g x.
Proof. induction l; simpl; intros E x []; injection E as E1 E2; subst; auto. Qed.
Lemma renamed_raws f g s t s' t' : renamed f s s' -> renamed g t t' -> raws s = raws t -> raws s' = raws t'.
Proof.
  intros R1 R2 E. rewrite (rn_raws R1), (rn_raws R2), E. apply map_ext_in. intros c Hc. f_equal.
  apply map_ext_in. intros l Hl.
  assert (Hv : f (Z.abs l) = g (Z.abs l)).
  { apply (map_inj_on f g (dedup (fvars (raws t)))).
    - rewrite <- E at 1. rewrite (rn_image _ _ _ R1), (rn_image _ _ _ R2), E. auto.
    - apply dedup_In, in_fvars. exists c; split; auto. apply in_map; auto. }
  unfold rename_lit. destruct (Z.ltb_spec l 0).
  - replace (Z.abs l) with (- l) in Hv by lia. congruence.
  - replace (Z.abs l) with l in Hv by lia. congruence.
Qed.
Lemma lo_loop_raws m n n' : forall f1 f2 s t s' t', ready n s -> ready n' t -> raws s = raws t ->
  lo_loop f1 m s = Ok s' -> lo_loop f2 m t = Ok t' -> raws s' = raws t'.
Proof.
  induction f1 as [|f1 IH]; intros [|f2] s t s' t' Rs Rt E H1 H2; try discriminate.
  cbn [lo_loop] in *. rewrite (is_lo_raws m s t E) in H1.
  apply bind_ok in H1 as (b & B1 & H1). rewrite B1 in H2. cbn [bind] in H2.
  destruct b; [congruence|].
  assert (Go : forall s t, ready n s -> ready n' t -> raws s = raws t ->
            (s2 <- rename_vars s ;; lo_loop f1 m s2) = Ok s' -> (s2 <- rename_vars t ;; lo_loop f2 m s2) = Ok t' ->
            raws s' = raws t').
  { clear - IH. intros s t Rs Rt E H1 H2. apply bind_ok in H1 as (s2 & S2 & H1). apply bind_ok in H2 as (t2 & T2 & H2).
    destruct (rename_vars_spec _ _ (ready_names_ok _ _ Rs) S2) as [f Rf].
    destruct (rename_vars_spec _ _ (ready_names_ok _ _ Rt) T2) as [g Rg].
    destruct (ready_renamed f s s2 (rd_ne _ _ Rs) (rd_nonempty _ _ Rs) Rf) as (Rs2 & _).
    destruct (ready_renamed g t t2 (rd_ne _ _ Rt) (rd_nonempty _ _ Rt) Rg) as (Rt2 & _).
    rewrite (ready_nvars _ _ Rs) in Rs2. rewrite (ready_nvars _ _ Rt) in Rt2.
    apply (IH f2 s2 t2); auto. eapply renamed_raws; eauto. }
  destruct (sorts_clauses m); [|eapply Go; eauto].
  pose proof (sort_clauses_raws _ _ E) as E1. rewrite (is_lo_raws m _ _ E1) in H1.
  apply bind_ok in H1 as (b & B2 & H1). rewrite B2 in H2. cbn [bind] in H2.
  destruct b; [congruence|].
  destruct (sort_clauses_eq s) as (cs & P & Ec), (sort_clauses_eq t) as (ds & P' & Ed).
  apply (Go (sort_clauses s) (sort_clauses t)); auto.
  - rewrite Ec. apply ready_perm; auto.
  - rewrite Ed. apply ready_perm; auto.
Qed.
Lemma to_lo_raws f1 f2 m z s t s' t' : pre_lo s -> pre_lo t -> raws s = raws t ->
  to_lo_condition f1 m z false s = Ok s' -> to_lo_condition f2 m z false t = Ok t' -> raws s' = raws t'.
Proof.
  intros Ps Pt E H1 H2. rewrite to_lo_unfold in *.
  apply bind_ok in H1 as (s2 & S2 & H1). apply bind_ok in H2 as (t2 & T2 & H2).
  pose proof (pre_sort_pre_lo m z false s Ps) as (A1 & A2 & A3).
  pose proof (pre_sort_pre_lo m z false t Pt) as (B1 & B2 & B3).
  assert (E1 : raws (pre_sort m z false s) = raws (pre_sort m z false t)).
  { unfold pre_sort. destruct (_ || _); auto. apply sort_len_raws; auto. }
  destruct (rename_vars_spec _ _ A3 S2) as [f Rf]. destruct (rename_vars_spec _ _ B3 T2) as [g Rg].
  destruct (ready_renamed f _ s2 A1 A2 Rf) as (Rs2 & _).
  destruct (ready_renamed g _ t2 B1 B2 Rg) as (Rt2 & _).
  eapply (lo_loop_raws m _ _ f1 f2 s2 t2); eauto. eapply (renamed_raws f g); eauto.
Qed.
Lemma formula_pre_lo F : F <> [] -> nonempty_clauses F -> pre_lo (formula_set F).
Proof.
  intros H1 H2. split; [|split].
  - intros E. apply H1. apply raws_nil in E. rewrite formula_set_raws in E; auto.
  - rewrite formula_set_raws; auto.
  - left; auto.
Qed.
Lemma to_lo_normal lf m z s s' : pre_lo s -> to_lo_condition lf m z false s = Ok s' ->
  normal_form m z (raws s) (raws s').
Proof.
  intros Ps H. pose proof Ps as (P1 & P2 & _).
  assert (Pf : pre_lo (formula_set (raws s))).
  { apply formula_pre_lo; auto. intros E. apply raws_nil in E; auto. }
  destruct (to_lo_total (root_bound (formula_set (raws s))) m z false (formula_set (raws s)) (root_L (formula_set (raws s))) Pf)
    as [t Ht].
  - apply root_below.
  - unfold root_bound, root_n, root_K. auto.
  - exists (root_bound (formula_set (raws s))), t. split; auto. symmetry.
    eapply (to_lo_raws lf _ m z s (formula_set (raws s))); eauto. rewrite formula_set_raws; auto.
Qed.
Lemma normal_form_fun m z F G H : F <> [] -> nonempty_clauses F ->
  normal_form m z F G -> normal_form m z F H -> G = H.
Proof.
  intros H1 H2 (a & s & E1 & <-) (b & t & E2 & <-).
  eapply to_lo_raws; eauto using formula_pre_lo.
Qed.

(* ---- the search follows child_formula ---- *)
Section Follow.
  Variable hash : text -> digest.
  Variable o : opts.
  Hypothesis Hthief : o_thief o = false.
  Variables lf : nat.
  Variable m : mode.
  Variable F : list (list Z).
  Variables n L K : nat.
  Hypothesis Hlf : (lo_bound n L K <= lf)%nat.
  Definition kid_of (b : bool) (G : list (list Z)) (k : kid) : Prop :=
    match k with
    | KLeaf _ _ => decided_formula b G
    | KNode c => child_formula m (o_sort_by_size o) b G (raws c)
    end.
  Lemma expands_formula x k1 k2 : node F x -> expands hash o lf m x k1 k2 ->
    kid_of true (raws x) k1 /\ kid_of false (raws x) k2.
  Proof.
    intros N (l & r & E & P1 & P2).
    destruct (node_evaluate F (view (o_rdb o) x) (node_view F _ _ N)) as (l' & r' & po & E' & _ & _ & _ & _ & _ & C1 & C2).
    rewrite E in E'; inv E'.
    assert (G : forall b c k, child_of (view (o_rdb o) x) (pivot_of (view (o_rdb o) x)) po b c ->
              prepared hash o lf m c k -> kid_of b (raws x) k).
    { intros b c k C P. pose proof (ch_value _ _ _ _ _ C) as Hv. pose proof (ch_raws _ _ _ _ _ C) as Hr.
      unfold pivot_of in *. rewrite view_raws in *.
      set (R := restrict (leading (hd [] (raws x))) b (raws x)) in *.
      inv P; unfold kid_of.
      - unfold decided_formula. fold R. rewrite H in Hv.
        destruct (existsb (fun d => negb (nonempty d)) R) eqn:Ex.
        + right. apply In_nil_existsb; auto.
        + destruct R; [left; auto|discriminate].
      - rewrite H in Hv. destruct (existsb (fun d => negb (nonempty d)) R) eqn:Ex; [discriminate|].
        assert (HnR : ~ In [] R) by (rewrite In_nil_existsb; congruence).
        assert (HR : R <> []) by (destruct R; congruence).
        assert (Efil : filter nonempty R = R).
        { apply filter_all_id. intros d Hd. destruct d; auto. }
        rewrite Efil in Hr. unfold child_formula. fold R. split; auto. split; auto.
        rewrite finish_raws, <- Hr. rewrite Hthief in H0.
        eapply to_lo_normal; eauto. eapply child_pre_lo; eauto. }
    split; [eapply (G true)|eapply (G false)]; eauto.
  Qed.
  Lemma reach_met r x : is_node hash F n L K r -> reach hash o lf m r x -> met m (o_sort_by_size o) (raws r) (raws x).
  Proof.
    intros Hr Hx. induction Hx as [|x k1 k2 c Hx IH E Hk]; [constructor|].
    destruct (reach_node _ _ _ _ _ _ _ _ _ _ Hr Hlf Hx) as (N & _).
    destruct (expands_formula x k1 k2 N E) as [A B].
    destruct Hk as [->| ->]; [apply (met_child _ _ _ true (raws x))|apply (met_child _ _ _ false (raws x))]; auto.
  Qed.
  Lemma met_reach r G : is_node hash F n L K r -> met m (o_sort_by_size o) (raws r) G ->
    exists x, reach hash o lf m r x /\ raws x = G.
  Proof.
    intros Hr HG. induction HG as [|b G H HG IH HC]; [exists r; split; [constructor|auto]|].
    destruct IH as (x & Hx & <-). destruct (reach_node _ _ _ _ _ _ _ _ _ _ Hr Hlf Hx) as (N & _ & _ & W).
    destruct (expand_total hash o F n L K lf m x N W Hlf) as (k1 & k2 & E & _).
    destruct (expands_formula x k1 k2 N E) as [A B].
    destruct HC as (C1 & C2 & C3).
    assert (Gk : forall k, kid_of b (raws x) k -> exists c, k = KNode c /\ raws c = H).
    { intros k Hk. destruct k as [v d|c]; simpl in Hk; [destruct Hk; contradiction|]. exists c; split; auto.
      destruct Hk as (_ & _ & D3). eapply normal_form_fun; [exact C1| |exact D3|exact C3].
      intros d Hd ->. auto. }
    destruct b.
    - destruct (Gk k1 A) as (c & -> & Hc). exists c; split; auto. eapply reach_step; eauto.
    - destruct (Gk k2 B) as (c & -> & Hc). exists c; split; auto. eapply reach_step; eauto.
  Qed.
End Follow.
