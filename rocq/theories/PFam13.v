(* PFam13.v -- subgraph formulas: models, cliques *)
From Coq Require Import String Ascii ZArith List Bool Lia Arith Permutation Sorted.
From Verif Require Import Spec PyBase MSet MText MCnf MFam MFam2 SpecCnf SpecFam SpecFam2 PText PLib PCnf1 PCnf2 PFam1 PFam2 PFam3 PFam4 PFam5 PFam6 PFam7 PFam10 PFam12.
Import ListNotations.
Open Scope Z_scope.

Definition sub_c (i : nat) : text := name1 (txt "c_{") (Z.of_nat i).
Lemma selectors_hold a n : (all_hold a (equal_to_constraint (map (name1 (txt "c_{")) (range 0 (Z.of_nat n))) 1) <->
  exists j, (j < n)%nat /\ forall i, (i < n)%nat -> (a (sub_c i) = true <-> i = j)).
Proof.
  rewrite equal_to_ok, how_many_map, how_many_1 by apply range_NoDup. split.
  - intros (x & Hx & T & U). apply range_In in Hx. exists (Z.to_nat x). split; [lia|]. intros i Hi. split.
    + intros K. assert (E : Z.of_nat i = x); [|lia]. apply U; auto. apply range_In. lia.
    + intros ->. unfold sub_c. rewrite Z2Nat.id by lia. auto.
  - intros (j & Hj & K). exists (Z.of_nat j). split; [apply range_In; lia|]. split; [apply K; auto|].
    intros y Hy T. apply range_In in Hy. assert (Z.to_nat y = j); [|lia]. apply K; [lia|]. unfold sub_c. rewrite Z2Nat.id by lia. auto.
Qed.
Lemma templates_hold a g s n ts : all_hold a (templates_clauses g s n 0 ts) <->
  forall j t, nth_error ts j = Some t -> all_hold a (template_clauses g s (activation_prefix n j) t).
Proof.
  split.
  - intros H j t E cl Hc. apply H. apply templates_In. exists j, t. auto.
  - intros H cl Hc. apply templates_In in Hc as (j & t & E & Hc). apply (H j t E). auto.
Qed.
Lemma sub_models g ts s a : simple_graph g -> (forall t, In t ts -> simple_graph t) ->
  (all_hold a (sub_clauses g ts s) <->
   ((3 <= List.length ts)%nat -> exists j, (j < List.length ts)%nat /\ forall i, (i < List.length ts)%nat -> (a (sub_c i) = true <-> i = j)) /\
   exists W, placement g (max_order ts) s W /\ placed_by g (max_order ts) W (fun i j => a (sub_S i j)) /\
     forall j t, nth_error ts j = Some t -> clause_holds a (activation_prefix (List.length ts) j) \/ matches t g W).
Proof.
  intros G T. unfold sub_clauses. rewrite !all_hold_app, all_hold_if, mapping_good, good_placement, templates_hold, selectors_hold by (auto; apply max_order_nonneg).
  rewrite Nat.leb_le. split.
  - intros (A & (W & P & R) & H). split; auto. exists W. split; auto. split; auto. intros j t E. specialize (H j t E). apply template_hold in H as [H|H]; auto.
    right. pose proof (nth_error_In _ _ E) as Ht. eapply respects_matches; eauto. apply max_order_le. auto.
  - intros (A & W & P & R & H). split; auto. split; [eauto|]. intros j t E. apply template_hold. destruct (H j t E) as [|K]; auto. right.
    pose proof (nth_error_In _ _ E) as Ht. eapply respects_matches; eauto. apply max_order_le. auto.
Qed.
Lemma one_holds {A} (a : A -> bool) p x : clause_holds a [(p, x)] <-> a x = p.
Proof. rewrite holds_cons. split; [intros [H|H]; auto; exfalso; eapply holds_nil; eauto|auto]. Qed.
Lemma active_ok a ts g W : ts <> [] ->
  (((3 <= List.length ts)%nat -> exists j, (j < List.length ts)%nat /\ forall i, (i < List.length ts)%nat -> (a (sub_c i) = true <-> i = j)) /\
   (forall j t, nth_error ts j = Some t -> clause_holds a (activation_prefix (List.length ts) j) \/ matches t g W)) <-> active a ts g W.
Proof.
  intros NE. destruct ts as [|t0 [|t1 [|t2 ts]]]; [congruence| | |].
  - cbn [active List.length]. split.
    + intros [_ H]. destruct (H 0%nat t0 eq_refl) as [K|K]; auto. exfalso. apply (holds_nil a K).
    + intros H. split; [lia|]. intros j t E. right. destruct j as [|j]; [injection E as <-; auto|destruct j; discriminate].
  - cbn [active List.length]. split.
    + intros [_ H]. destruct (a (txt "c")) eqn:C.
      * destruct (H 1%nat t1 eq_refl) as [K|K]; auto. apply one_holds in K. congruence.
      * destruct (H 0%nat t0 eq_refl) as [K|K]; auto. apply one_holds in K. congruence.
    + intros H. split; [lia|]. intros j t E. destruct j as [|[|j]].
      * injection E as <-. destruct (a (txt "c")) eqn:C; auto. left. apply one_holds. auto.
      * injection E as <-. destruct (a (txt "c")) eqn:C; auto. left. apply one_holds. auto.
      * destruct j; discriminate.
  - set (l := t0 :: t1 :: t2 :: ts). change (active a l g W) with (exists chosen, (chosen < List.length l)%nat /\
           (forall i, (i < List.length l)%nat -> (a (name1 (txt "c_{") (Z.of_nat i)) = true <-> i = chosen)) /\
           forall i t, nth_error l i = Some t -> i <> chosen -> matches t g W).
    assert (L3 : (3 <= List.length l)%nat) by (cbn; lia).
    assert (PF : forall j, activation_prefix (List.length l) j = [(true, sub_c j)]) by reflexivity.
    split.
    + intros [H1 H2]. destruct (H1 L3) as (j & Hj & K). exists j. split; auto. split; auto. intros i t E NJ. destruct (H2 i t E) as [X|X]; auto.
      rewrite PF in X. apply one_holds in X. apply K in X; [congruence|]. eapply nth_error_Some_length; eauto.
    + intros (j & Hj & K & H). split; [intros _; exists j; auto|]. intros i t E. rewrite PF. destruct (Nat.eq_dec i j) as [->|X].
      * left. apply one_holds. apply K; auto.
      * right. eauto.
Qed.
Lemma sub_models_active g ts s a : simple_graph g -> (forall t, In t ts -> simple_graph t) -> ts <> [] ->
  (all_hold a (sub_clauses g ts s) <->
   exists W, placement g (max_order ts) s W /\ placed_by g (max_order ts) W (fun i j => a (sub_S i j)) /\ active a ts g W).
Proof.
  intros G T NE. rewrite sub_models by auto. split.
  - intros (A & W & P & R & H). exists W. split; auto. split; auto. apply active_ok; auto.
  - intros (W & P & R & H). apply active_ok in H as [H1 H2]; auto. split; auto. exists W. auto.
Qed.
(* a list of vertices as an assignment; [on]: the selector that is true *)
Definition sub_value (g : graph) (k : Z) (W : list Z) (on : text) (t : text) : bool :=
  text_eqb on t || values (fun p => sub_S (fst p) (snd p)) (list_prod (range 0 k) (range 0 (order g)))
    (fun p => match nth_error W (Z.to_nat (fst p)) with Some w => w =? vertex g (snd p) | None => false end) t.
Lemma sub_value_S g k W on : (forall i j, on <> sub_S i j) -> placed_by g k W (fun i j => sub_value g k W on (sub_S i j)).
Proof.
  intros X i j Hi Hj. unfold sub_value. destruct (text_eqb_spec on (sub_S i j)) as [E|_]; [exfalso; apply (X i j E)|]. cbn [orb].
  rewrite values2_at.
  - cbn [fst snd]. destruct (nth_error W (Z.to_nat i)) as [w|]; [rewrite Z.eqb_eq; split; congruence|split; discriminate].
  - intros [i' j'] _ E. apply sub_S_inj in E as [E1 E2]. cbn in *. subst. auto.
  - apply in_prod; apply range_In; auto.
Qed.
Lemma sub_value_other g k W on t : (forall i j, t <> sub_S i j) -> sub_value g k W on t = text_eqb on t.
Proof. intros X. unfold sub_value. rewrite values_other; [apply orb_false_r|]. intros x _ E. symmetry in E. apply (X _ _ E). Qed.
Lemma c_not_S i j : txt "c" <> sub_S i j.
Proof. discriminate. Qed.
Lemma ci_not_S n i j : sub_c n <> sub_S i j.
Proof. discriminate. Qed.
Lemma sub_c_inj i j : sub_c i = sub_c j -> i = j.
Proof. intros H. apply name1_inj in H. lia. Qed.
Lemma sub_satisfiable g ts s : simple_graph g -> (forall t, In t ts -> simple_graph t) -> ts <> [] ->
  (has_model (sub_clauses g ts s) <-> exists W, placement g (max_order ts) s W /\ chosen_match ts g W).
Proof.
  intros G T NE. split.
  - intros (a & H). apply sub_models_active in H as (W & P & R & A); auto. exists W. split; auto.
    destruct ts as [|t0 [|t1 [|t2 ts]]]; cbn [active chosen_match] in *; auto.
    + destruct (a (txt "c")); auto.
    + destruct A as (j & Hj & _ & A). eauto.
  - intros (W & P & H).
    assert (K : exists on, (forall i j, on <> sub_S i j) /\ active (sub_value g (max_order ts) W on) ts g W).
    { destruct ts as [|t0 [|t1 [|t2 ts]]]; [congruence| | |].
      - exists (txt "c"). split; [apply c_not_S|exact H].
      - cbn [active chosen_match] in *. destruct H as [H|H].
        + exists (sub_c 0). split; [apply ci_not_S|]. rewrite sub_value_other by apply c_not_S. exact H.
        + exists (txt "c"). split; [apply c_not_S|]. rewrite sub_value_other by apply c_not_S. exact H.
      - destruct H as (j & Hj & H). exists (sub_c j). split; [apply ci_not_S|]. exists j. split; auto. split; auto.
        intros i Hi. change (name1 (txt "c_{") (Z.of_nat i)) with (sub_c i). rewrite sub_value_other by apply ci_not_S.
        destruct (text_eqb_spec (sub_c j) (sub_c i)) as [E|E]; [apply sub_c_inj in E; split; auto|split; [discriminate|intros ->; congruence]]. }
    destruct K as (on & X & A). exists (sub_value g (max_order ts) W on). apply sub_models_active; auto. exists W. split; auto. split; auto. apply sub_value_S. auto.
Qed.

(* ---- one template: induced copies ---- *)
Lemma copy_placement t g : simple_graph t -> simple_graph g ->
  ((exists f, induced_copy t g f) <-> exists W, placement g (order t) false W /\ matches t g W).
Proof.
  intros T G. pose proof (sg_nodes _ T) as N. split.
  - intros (f & A & B & C). exists (map f (g_nodes t)). split; [split|].
    + rewrite map_length. reflexivity.
    + apply NoDup_map_in; auto.
    + intros v Hv. apply in_map_iff in Hv as (u & <- & Hu). auto.
    + discriminate.
    + intros i i' u u' w w' _ E1 E2 E3 E4. rewrite nth_error_map, E1 in E3. rewrite nth_error_map, E2 in E4. cbn in E3, E4. injection E3 as <-. injection E4 as <-.
      apply C; eapply nth_error_In; eauto.
  - intros (W & [P1 P2 P3 _] & M).
    destruct (choose_function (g_nodes t) (fun u w => exists i, nth_error (g_nodes t) i = Some u /\ nth_error W i = Some w) N) as (f & Hf).
    { intros u Hu. apply In_nth_error in Hu as (i & E). pose proof (nth_error_Some_length _ _ _ E). unfold order in P1.
      destruct (nth_error W i) as [w|] eqn:K; [exists w, i; auto|apply nth_error_None in K; lia]. }
    exists f.
    assert (I : forall u u', In u (g_nodes t) -> In u' (g_nodes t) -> f u = f u' -> u = u').
    { intros u u' Hu Hu' E. destruct (Hf u Hu) as (i & E1 & E2), (Hf u' Hu') as (i' & E3 & E4). assert (i = i'); [|congruence].
      apply (proj1 (NoDup_nth_error W) P2); [eapply nth_error_Some_length; eauto|congruence]. }
    split; [|split; auto].
    + intros u Hu. destruct (Hf u Hu) as (i & _ & E). apply P3. eapply nth_error_In; eauto.
    + intros u u' Hu Hu'. destruct (Z.eq_dec u u') as [->|X].
      * split; intros K; exfalso; [apply (adjacent_neq _ _ _ T K)|apply (adjacent_neq _ _ _ G K)]; auto.
      * destruct (Hf u Hu) as (i & E1 & E2), (Hf u' Hu') as (i' & E3 & E4). apply (M i i'); auto. intros ->. congruence.
Qed.
(* ---- complete and empty templates ---- *)
Lemma order_complete k : 0 <= k -> order (complete_graph k) = k.
Proof. intros H. unfold order, complete_graph. cbn [g_nodes]. rewrite range_length. lia. Qed.
Lemma order_empty k : 0 <= k -> order (empty_graph k) = k.
Proof. intros H. unfold order, empty_graph. cbn [g_nodes]. rewrite range_length. lia. Qed.
Lemma empty_simple k : simple_graph (empty_graph k).
Proof. constructor; cbn; [apply range_NoDup|constructor|intros ? ? []|intros ? ? []]. Qed.
Lemma nth_firstn {A} (l : list A) n i x : nth_error (firstn n l) i = Some x <-> (i < n)%nat /\ nth_error l i = Some x.
Proof.
  revert l i. induction n as [|n IH]; intros l i; cbn [firstn].
  - split; [destruct i; discriminate|lia].
  - destruct l as [|y l]; [destruct i; cbn; split; intros; try discriminate; intuition discriminate|]. destruct i as [|i]; cbn [nth_error]; [split; [split; [lia|auto]|tauto]|].
    rewrite IH. split; intros [? ?]; split; auto; lia.
Qed.
Lemma firstn_NoDup {A} n (l : list A) : NoDup l -> NoDup (firstn n l).
Proof. intros N. rewrite <- (firstn_skipn n l) in N. apply NoDup_app_remove_r in N. auto. Qed.
Lemma matches_complete g k W : 0 <= k -> NoDup W -> incl W (g_nodes g) -> (matches (complete_graph k) g W <-> clique g (firstn (Z.to_nat k) W)).
Proof.
  intros Hk N I. unfold matches, clique. cbn [complete_graph g_nodes]. split.
  - intros H. split; [apply firstn_NoDup; auto|]. split; [intros v Hv; apply I; rewrite <- (firstn_skipn (Z.to_nat k) W); apply in_app_iff; auto|].
    intros u v Hu Hv NE. apply In_nth_error in Hu as (i & Hi), Hv as (j & Hj). apply nth_firstn in Hi as [Li Hi], Hj as [Lj Hj].
    assert (i <> j) by congruence. apply (H i j (Z.of_nat i) (Z.of_nat j) u v); auto; try (apply range0_nth; auto).
    apply complete_adjacent; lia.
  - intros (_ & _ & H) i i' u u' w w' NE E1 E2 E3 E4. apply range0_nth in E1 as [L1 ->], E2 as [L2 ->]. split; intros _.
    + apply H; [eapply nth_error_In; apply nth_firstn; eauto|eapply nth_error_In; apply nth_firstn; eauto|].
      intros ->. apply NE. apply (proj1 (NoDup_nth_error W) N); [eapply nth_error_Some_length; eauto|congruence].
    + apply complete_adjacent; lia.
Qed.
Lemma matches_empty g k W : 0 <= k -> simple_graph g -> NoDup W -> incl W (g_nodes g) -> (matches (empty_graph k) g W <-> independent g (firstn (Z.to_nat k) W)).
Proof.
  intros Hk G N I. unfold matches, independent. cbn [empty_graph g_nodes]. split.
  - intros H. split; [apply firstn_NoDup; auto|]. split; [intros v Hv; apply I; rewrite <- (firstn_skipn (Z.to_nat k) W); apply in_app_iff; auto|].
    intros u v Hu Hv A. apply In_nth_error in Hu as (i & Hi), Hv as (j & Hj). apply nth_firstn in Hi as [Li Hi], Hj as [Lj Hj].
    assert (i <> j). { intros ->. rewrite Hi in Hj. injection Hj as ->. apply (adjacent_neq _ _ _ G A). auto. }
    destruct (proj2 (H i j (Z.of_nat i) (Z.of_nat j) u v H0 (proj2 (range0_nth _ _ _) (conj Li eq_refl)) (proj2 (range0_nth _ _ _) (conj Lj eq_refl)) Hi Hj) A) as [[]|[]].
  - intros (_ & _ & H) i i' u u' w w' NE E1 E2 E3 E4. apply range0_nth in E1 as [L1 ->], E2 as [L2 ->]. split; [intros [[]|[]]|].
    intros A. exfalso. apply (H w w'); auto; eapply nth_error_In; apply nth_firstn; eauto.
Qed.
(* a set of vertices, in the order of the graph *)
Lemma comes_before_filter {A} (p : A -> bool) l u v : comes_before (filter p l) u v -> comes_before l u v.
Proof.
  unfold comes_before. intros H. apply pairs_nth. apply pairs_nth in H. induction l as [|x l IH]; auto. cbn [filter] in H. cbn [pairs].
  apply in_app_iff. destruct (p x); [|auto]. cbn [pairs] in H. apply in_app_iff in H as [H|H]; auto. left.
  apply in_map_iff in H as (y & E & Hy). injection E as <- <-. apply in_map. apply filter_In in Hy. tauto.
Qed.
Lemma sorted_placement g S : simple_graph g -> NoDup S -> incl S (g_nodes g) ->
  exists W, placement g (Z.of_nat (List.length S)) true W /\ forall v, In v W <-> In v S.
Proof.
  intros G N I. exists (filter (fun v => zmem v S) (g_nodes g)).
  assert (K : forall v, In v (filter (fun v => zmem v S) (g_nodes g)) <-> In v S).
  { intros v. rewrite filter_In, zmem_In. split; [tauto|auto]. }
  assert (ND : NoDup (filter (fun v => zmem v S) (g_nodes g))) by (apply NoDup_filter; apply G).
  split; auto. split; auto.
  - f_equal. apply Nat.le_antisymm; apply NoDup_incl_length; auto; intros v Hv; apply K; auto.
  - intros v Hv. apply I. apply K. auto.
  - intros _ u v. apply comes_before_filter.
Qed.
Lemma clique_satisfiable g k : simple_graph g -> 0 <= k ->
  (has_model (sub_clauses g [complete_graph k] true) <-> exists S, clique g S /\ Z.of_nat (List.length S) = k).
Proof.
  intros G Hk. rewrite sub_satisfiable; [|auto|intros t [<-|[]]; apply complete_simple|discriminate].
  assert (MO : max_order [complete_graph k] = k) by (unfold max_order; cbn [map fold_right]; rewrite order_complete by auto; lia). rewrite MO. cbn [chosen_match]. split.
  - intros (W & [P1 P2 P3 P4] & M). apply matches_complete in M; auto. rewrite firstn_all2 in M by lia. eauto.
  - intros (S & (N & I & C) & L). destruct (sorted_placement g S G N I) as (W & P & E). exists W. rewrite L in P. split; auto. destruct P as [P1 P2 P3 P4].
    apply matches_complete; auto. rewrite firstn_all2 by lia. split; auto. split; auto. intros u v Hu Hv. apply C; apply E; auto.
Qed.
Lemma witness_satisfiable g k s : simple_graph g -> 0 <= k -> 0 <= s ->
  (has_model (sub_clauses g [complete_graph k; empty_graph s] true) <->
   exists W, placement g (Z.max k s) true W /\ (clique g (firstn (Z.to_nat k) W) \/ independent g (firstn (Z.to_nat s) W))).
Proof.
  intros G Hk Hs. rewrite sub_satisfiable; [|auto|intros t [<-|[<-|[]]]; [apply complete_simple|apply empty_simple]|discriminate].
  assert (MO : max_order [complete_graph k; empty_graph s] = Z.max k s).
  { unfold max_order. cbn [map fold_right]. rewrite order_complete, order_empty by auto. lia. }
  rewrite MO. cbn [chosen_match]. split; intros (W & P & H); exists W; (split; [auto|]); destruct P as [P1 P2 P3 P4];
    (destruct H as [H|H]; [left; apply matches_complete|right; apply matches_empty]); auto.
Qed.
