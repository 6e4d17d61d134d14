(* PFam12.v -- subgraph formulas *)
From Coq Require Import String Ascii ZArith List Bool Lia Arith Permutation Sorted.
From Verif Require Import Spec PyBase MSet MText MCnf MFam MFam2 SpecCnf SpecFam SpecFam2 PText PLib PCnf1 PCnf2 PFam1 PFam2 PFam3 PFam4 PFam5 PFam6 PFam7 PFam10 PP16 PP17.
Import ListNotations.
Open Scope Z_scope.

Lemma nth_error_Some_length {A} (l : list A) i x : nth_error l i = Some x -> (i < List.length l)%nat.
Proof. intros H. apply nth_error_Some. congruence. Qed.
Lemma range0_nth k i x : nth_error (range 0 k) i = Some x <-> (i < Z.to_nat k)%nat /\ x = Z.of_nat i.
Proof.
  unfold range. rewrite Z.sub_0_r. split.
  - intros H. assert (L : (i < Z.to_nat k)%nat).
    { apply nth_error_Some_length in H. rewrite map_length, seq_length in H. auto. }
    split; auto. rewrite nth_error_map, (nth_error_nth' _ 0%nat) in H by (rewrite seq_length; auto). rewrite seq_nth in H by auto. cbn in H. injection H as <-. lia.
  - intros [L ->]. rewrite nth_error_map, (nth_error_nth' _ 0%nat) by (rewrite seq_length; auto). rewrite seq_nth by auto. cbn. f_equal.
Qed.
Lemma sub_S_inj i j i' j' : sub_S i j = sub_S i' j' -> i = i' /\ j = j'.
Proof. apply name2_inj. Qed.
Lemma vertex_nth g j v : nth_error (g_nodes g) j = Some v -> vertex g (Z.of_nat j) = v.
Proof. intros H. unfold vertex, enumerate_vertices. rewrite Nat2Z.id. apply nth_error_nth. auto. Qed.
Lemma vertex_In g j : 0 <= j < order g -> nth_error (g_nodes g) (Z.to_nat j) = Some (vertex g j).
Proof. intros H. unfold order in H. unfold vertex, enumerate_vertices. apply nth_error_nth'. lia. Qed.

(* the relation r is what the list W says *)
Definition placed_by (g : graph) (k : Z) (W : list Z) (r : Z -> Z -> bool) : Prop :=
  forall i j, 0 <= i < k -> 0 <= j < order g -> (r i j = true <-> nth_error W (Z.to_nat i) = Some (vertex g j)).
Definition map_good (g : graph) (k : Z) (ordered : bool) (r : Z -> Z -> bool) : Prop :=
  (forall i, 0 <= i < k -> exists j, 0 <= j < order g /\ r i j = true) /\
  (forall i j j', 0 <= i < k -> 0 <= j < order g -> 0 <= j' < order g -> r i j = true -> r i j' = true -> j = j') /\
  (forall i i' j, 0 <= i < k -> 0 <= i' < k -> 0 <= j < order g -> r i j = true -> r i' j = true -> i = i') /\
  (ordered = true -> forall i i' j j', 0 <= i < i' -> i' < k -> 0 <= j < order g -> 0 <= j' < order g -> r i j = true -> r i' j' = true -> j <= j').
Lemma mapping_good g k s a : 0 <= k -> (all_hold a (um_clauses (sub_mapping g k s)) <-> map_good g k s (fun i j => a (sub_S i j))).
Proof.
  intros Hk. unfold sub_mapping. rewrite p_C68_unary_mapping by apply range_NoDup. unfold map_good. assert (HO : 0 <= order g) by (unfold order; lia). split.
  - intros (A & B & _ & C & D). split; [|split; [|split]].
    + intros i Hi. destruct (A i) as (e & He & K); [apply range_In; auto|]. apply range_In in He. eauto.
    + intros i j j' Hi Hj Hj'. apply (B eq_refl); apply range_In; auto.
    + intros i i' j Hi Hi' Hj. apply (C eq_refl); apply range_In; auto.
    + intros S i i' j j' Hi Hi' Hj Hj' T1 T2. specialize (D S (Z.to_nat i) (Z.to_nat i') (Z.to_nat j) (Z.to_nat j') i i' j j').
      assert (Z.to_nat j <= Z.to_nat j')%nat; [|lia]. apply D; auto; try lia; apply range0_nth; lia.
  - intros (A & B & C & D). split; [|split; [|split; [|split]]].
    + intros i Hi. apply range_In in Hi. destruct (A i Hi) as (j & Hj & K). exists j. split; auto. apply range_In. auto.
    + intros _ i j j' Hi Hj Hj'. apply range_In in Hi, Hj, Hj'. apply B; auto.
    + discriminate.
    + intros _ i i' j Hi Hi' Hj. apply range_In in Hi, Hi', Hj. apply C; auto.
    + intros S i i' j j' d d' e e' L E1 E2 E3 E4 T1 T2. apply range0_nth in E1 as [? ->], E2 as [? ->], E3 as [? ->], E4 as [? ->].
      assert (Z.of_nat j <= Z.of_nat j'); [|lia]. apply (D S (Z.of_nat i) (Z.of_nat i')); auto; lia.
Qed.
Lemma good_placement g k s r : simple_graph g -> 0 <= k -> (map_good g k s r <-> exists W, placement g k s W /\ placed_by g k W r).
Proof.
  intros G Hk. pose proof (sg_nodes _ G) as N. split.
  - intros (A & B & C & D). destruct (choose_function (range 0 k) (fun i j => 0 <= j < order g /\ r i j = true) (range_NoDup 0 k)) as (f & Hf).
    { intros i Hi. apply range_In in Hi. auto. }
    assert (F : forall i, 0 <= i < k -> 0 <= f i < order g /\ r i (f i) = true) by (intros; apply Hf; apply range_In; auto).
    exists (map (fun i => vertex g (f i)) (range 0 k)).
    assert (NE : forall i, 0 <= i < k -> nth_error (map (fun i => vertex g (f i)) (range 0 k)) (Z.to_nat i) = Some (vertex g (f i))).
    { intros i Hi. rewrite nth_error_map. rewrite (proj2 (range0_nth k (Z.to_nat i) i)) by lia. auto. }
    assert (VI : forall j j', 0 <= j < order g -> 0 <= j' < order g -> vertex g j = vertex g j' -> j = j').
    { intros j j' Hj Hj' E. pose proof (vertex_In g j Hj) as E1. pose proof (vertex_In g j' Hj') as E2. rewrite E in E1.
      assert (Z.to_nat j = Z.to_nat j'); [|lia]. apply (proj1 (NoDup_nth_error _) N); [unfold order in Hj; lia|congruence]. }
    split; [split|].
    + rewrite map_length, range_length. lia.
    + apply NoDup_map_in; [apply range_NoDup|]. intros i i' Hi Hi' E. apply range_In in Hi, Hi'. destruct (F i Hi), (F i' Hi'). apply (C i i' (f i)); auto.
      rewrite (VI (f i) (f i')); auto.
    + intros v Hv. apply in_map_iff in Hv as (i & <- & Hi). apply range_In in Hi. destruct (F i Hi) as [Fi _]. eapply nth_error_In. apply vertex_In. auto.
    + intros S u v (i & i' & L & E1 & E2). rewrite nth_error_map in E1, E2.
      destruct (nth_error (range 0 k) i) as [x|] eqn:X; [|discriminate]. destruct (nth_error (range 0 k) i') as [y|] eqn:Y; [|discriminate]. cbn in E1, E2. injection E1 as <-. injection E2 as <-.
      apply range0_nth in X as [X ->], Y as [Y ->]. destruct (F (Z.of_nat i)), (F (Z.of_nat i')); try lia.
      assert (f (Z.of_nat i) <= f (Z.of_nat i')) by (apply (D S (Z.of_nat i) (Z.of_nat i')); auto; lia).
      assert (f (Z.of_nat i) <> f (Z.of_nat i')). { intros E. assert (Z.of_nat i = Z.of_nat i'); [|lia]. apply (C _ _ (f (Z.of_nat i))); auto; try lia. rewrite E. auto. }
      exists (Z.to_nat (f (Z.of_nat i))), (Z.to_nat (f (Z.of_nat i'))). split; [lia|]. split; apply vertex_In; auto.
    + intros i j Hi Hj. rewrite NE by auto. destruct (F i Hi) as [F1 F2]. split.
      * intros T. f_equal. f_equal. apply (B i); auto.
      * intros E. injection E as E. apply VI in E; auto. subst. auto.
  - intros (W & [P1 P2 P3 P4] & R).
    assert (IX : forall i, 0 <= i < k -> exists j, 0 <= j < order g /\ nth_error W (Z.to_nat i) = Some (vertex g j)).
    { intros i Hi. destruct (nth_error W (Z.to_nat i)) as [v|] eqn:E; [|apply nth_error_None in E; lia].
      assert (Hv : In v (g_nodes g)) by (apply P3; eapply nth_error_In; eauto). apply In_nth_error in Hv as (j & Hj). exists (Z.of_nat j).
      pose proof (nth_error_Some_length _ _ _ Hj). unfold order. split; [lia|]. rewrite (vertex_nth g j v); auto. }
    assert (VI : forall j j', 0 <= j < order g -> 0 <= j' < order g -> vertex g j = vertex g j' -> j = j').
    { intros j j' Hj Hj' E. pose proof (vertex_In g j Hj) as E1. pose proof (vertex_In g j' Hj') as E2. rewrite E in E1.
      assert (Z.to_nat j = Z.to_nat j'); [|lia]. apply (proj1 (NoDup_nth_error _) N); [unfold order in Hj; lia|congruence]. }
    split; [|split; [|split]].
    + intros i Hi. destruct (IX i Hi) as (j & Hj & E). exists j. split; auto. apply R; auto.
    + intros i j j' Hi Hj Hj' T1 T2. apply R in T1, T2; auto. apply VI; auto. congruence.
    + intros i i' j Hi Hi' Hj T1 T2. apply R in T1, T2; auto. assert (Z.to_nat i = Z.to_nat i'); [|lia].
      apply (proj1 (NoDup_nth_error W) P2); [lia|congruence].
    + intros S i i' j j' Hi Hi' Hj Hj' T1 T2. apply R in T1, T2; auto; try lia.
      destruct (P4 S (vertex g j) (vertex g j')) as (x & y & L & E1 & E2); [exists (Z.to_nat i), (Z.to_nat i'); split; [lia|auto]|].
      assert (x = Z.to_nat j). { apply (proj1 (NoDup_nth_error _) N); [eapply nth_error_Some_length; eauto|]. rewrite vertex_In by auto. auto. }
      assert (y = Z.to_nat j'). { apply (proj1 (NoDup_nth_error _) N); [eapply nth_error_Some_length; eauto|]. rewrite vertex_In by auto. auto. }
      lia.
Qed.
Lemma holds_dec {A} (a : A -> bool) c : clause_holds a c \/ ~ clause_holds a c.
Proof.
  induction c as [|[p v] c IH]; [right; apply holds_nil|]. destruct (Bool.bool_dec (a v) p) as [E|E]; [left; apply holds_cons; auto|].
  destruct IH as [H|H]; [left; apply holds_cons; auto|right]. intros K. apply holds_cons in K as [K|K]; auto.
Qed.
Definition respects (t g : graph) (s : bool) (r : Z -> Z -> bool) : Prop :=
  forall i i' j j', 0 <= i < i' -> i' < order t -> 0 <= j < order g -> 0 <= j' < order g -> j <> j' -> (s = true -> j < j') ->
    r i j = true -> r i' j' = true -> has_edge t (vertex t i) (vertex t i') = has_edge g (vertex g j) (vertex g j').
Lemma pairs_range0 k i i' : In (i, i') (pairs (range 0 k)) <-> 0 <= i < i' /\ i' < k.
Proof. rewrite pairs_sorted by apply range_sorted. rewrite !range_In. lia. Qed.
Lemma template_hold a g s prefix t :
  all_hold a (template_clauses g s prefix t) <-> clause_holds a prefix \/ respects t g s (fun i j => a (sub_S i j)).
Proof.
  unfold template_clauses. cbv zeta.
  assert (J : forall j j', In (j, j') (if s then pairs (range 0 (order g)) else permutations2 (range 0 (order g))) <->
    0 <= j < order g /\ 0 <= j' < order g /\ j <> j' /\ (s = true -> j < j')).
  { intros j j'. destruct s; [rewrite pairs_range0; split; [intros; repeat split; lia|intros (? & ? & ? & H); specialize (H eq_refl); lia]|].
    rewrite permutations2_In, !range_In by apply range_NoDup. intuition discriminate. }
  rewrite all_hold_flat_map. split.
  - intros H. destruct (holds_dec a prefix) as [|NP]; auto. right. intros i i' j j' Hi Hi' Hj Hj' NE S T1 T2.
    specialize (H (i, i') (proj2 (pairs_range0 _ _ _) (conj Hi Hi'))). rewrite all_hold_flat_map in H.
    specialize (H (j, j') (proj2 (J j j') (conj Hj (conj Hj' (conj NE S))))). cbn [fst snd] in H.
    destruct (Bool.eqb_spec (has_edge t (vertex t i) (vertex t i')) (has_edge g (vertex g j) (vertex g j'))) as [|X]; auto.
    exfalso. apply all_one in H. apply holds_app in H as [H|H]; auto. apply two_hold in H. intuition congruence.
  - intros H [i i'] Hp. rewrite all_hold_flat_map. intros [j j'] Hq. apply pairs_range0 in Hp. apply J in Hq as (H1 & H2 & H3 & H4). cbn [fst snd].
    destruct (Bool.eqb_spec (has_edge t (vertex t i) (vertex t i')) (has_edge g (vertex g j) (vertex g j'))) as [|X]; [intros c []|].
    apply all_one. apply holds_app. destruct H as [H|H]; auto. right. apply two_hold.
    destruct (a (sub_S i j)) eqn:T1; auto. destruct (a (sub_S i' j')) eqn:T2; auto. exfalso. apply X. apply H; tauto.
Qed.
Lemma respects_matches t g k s W r : simple_graph g -> simple_graph t -> order t <= k -> placement g k s W -> placed_by g k W r ->
  (respects t g s r <-> matches t g W).
Proof.
  intros G T L P R. pose proof (sg_nodes _ G) as N. destruct P as [P1 P2 P3 P4].
  assert (VI : forall j j', 0 <= j < order g -> 0 <= j' < order g -> vertex g j = vertex g j' -> j = j').
  { intros j j' Hj Hj' E. pose proof (vertex_In g j Hj) as E1. pose proof (vertex_In g j' Hj') as E2. rewrite E in E1.
    assert (Z.to_nat j = Z.to_nat j'); [|lia]. apply (proj1 (NoDup_nth_error _) N); [unfold order in Hj; lia|congruence]. }
  assert (IX : forall w, In w W -> exists j, 0 <= j < order g /\ w = vertex g j).
  { intros w Hw. apply P3 in Hw. apply In_nth_error in Hw as (j & Hj). exists (Z.of_nat j).
    pose proof (nth_error_Some_length _ _ _ Hj). unfold order. split; [lia|]. rewrite (vertex_nth g j w); auto. }
  assert (OT : forall i u, nth_error (g_nodes t) i = Some u -> 0 <= Z.of_nat i < order t /\ vertex t (Z.of_nat i) = u).
  { intros i u H. pose proof (nth_error_Some_length _ _ _ H). unfold order. split; [lia|]. apply vertex_nth. auto. }
  split.
  - intros H.
    assert (K : forall i i' u u' w w', (i < i')%nat -> nth_error (g_nodes t) i = Some u -> nth_error (g_nodes t) i' = Some u' ->
       nth_error W i = Some w -> nth_error W i' = Some w' -> (adjacent t u u' <-> adjacent g w w')).
    { intros i i' u u' w w' Li E1 E2 E3 E4. destruct (OT _ _ E1) as [O1 O2], (OT _ _ E2) as [O3 O4].
      destruct (IX w) as (j & Hj & ->); [eapply nth_error_In; eauto|]. destruct (IX w') as (j' & Hj' & ->); [eapply nth_error_In; eauto|].
      assert (NE : j <> j'). { intros ->. assert (i = i'); [|lia]. apply (proj1 (NoDup_nth_error W) P2); [eapply nth_error_Some_length; eauto|congruence]. }
      rewrite <- !has_edge_ok. rewrite <- O2, <- O4. rewrite (H (Z.of_nat i) (Z.of_nat i') j j'); try lia; try tauto.
      - intros S. destruct (P4 S (vertex g j) (vertex g j')) as (x & y & Lx & F1 & F2); [exists i, i'; auto|].
        assert (x = Z.to_nat j). { apply (proj1 (NoDup_nth_error _) N); [eapply nth_error_Some_length; eauto|]. rewrite vertex_In by auto. auto. }
        assert (y = Z.to_nat j'). { apply (proj1 (NoDup_nth_error _) N); [eapply nth_error_Some_length; eauto|]. rewrite vertex_In by auto. auto. }
        lia.
      - apply R; try lia. rewrite Nat2Z.id. auto.
      - apply R; try lia. rewrite Nat2Z.id. auto. }
    intros i i' u u' w w' NE E1 E2 E3 E4. destruct (Nat.lt_total i i') as [X|[X|X]]; [eapply K; eauto|congruence|].
    rewrite (adjacent_sym t u u'), (adjacent_sym g w w'). eapply K; eauto.
  - intros H i i' j j' Hi Hi' Hj Hj' NE S T1 T2. apply R in T1, T2; try lia; auto.
    assert (K : adjacent t (vertex t i) (vertex t i') <-> adjacent g (vertex g j) (vertex g j')).
    { apply (H (Z.to_nat i) (Z.to_nat i')); auto; try lia; apply vertex_In; lia. }
    rewrite <- !has_edge_ok in K. destruct (has_edge t _ _), (has_edge g _ _); intuition congruence.
Qed.
(* ---- the formula is built ---- *)
Lemma unary_clean {A B} (m : unary_mapping A B) cl : NoDup (um_domain m) ->
  (forall d, In d (um_domain m) -> NoDup (um_images m d)) -> (forall e, In e (um_range m) -> NoDup (um_counterimages m e)) ->
  (forall d e d' e', um_name m d e = um_name m d' e' -> d = d' /\ e = e') -> In cl (um_clauses m) -> clean cl.
Proof.
  intros ND N1 N2 I H. unfold um_clauses in H.
  assert (M1 : forall d, In d (um_domain m) -> NoDup (map (um_name m d) (um_images m d))).
  { intros d Hd. apply NoDup_map_in; [auto|]. intros x y _ _ E. apply I in E. tauto. }
  assert (M2 : forall e, In e (um_range m) -> NoDup (map (fun d => um_name m d e) (um_counterimages m e))).
  { intros e He. apply NoDup_map_in; [auto|]. intros x y _ _ E. apply I in E. tauto. }
  assert (IF : forall (b : bool) F, In cl (if b then F else []) -> In cl F) by (intros [] F K; auto; destruct K).
  repeat (apply in_app_iff in H as [H|H]); apply IF in H; apply in_flat_map in H as (x & Hx & H).
  - eapply inequality_clean; [|exact H]. auto.
  - eapply inequality_clean; [|exact H]. auto.
  - eapply inequality_clean; [|exact H]. auto.
  - eapply inequality_clean; [|exact H]. auto.
  - apply in_flat_map in H as (i & _ & H). apply in_flat_map in H as (j & _ & H). destruct (um_rank m j <? um_rank m i); [|destruct H]. destruct H as [<-|[]].
    destruct x as [x y]. pose proof (pairs_neq _ _ _ ND Hx). apply two_clean. intros E. apply I in E. cbn in E. tauto.
Qed.
Definition sub_clauses (g : graph) (ts : list graph) (s : bool) : list (list (bool * text)) :=
  (if (3 <=? List.length ts)%nat then equal_to_constraint (map (name1 (txt "c_{")) (range 0 (Z.of_nat (List.length ts)))) 1 else []) ++
  um_clauses (sub_mapping g (max_order ts) s) ++ templates_clauses g s (List.length ts) 0 ts.
Lemma max_order_le ts t : In t ts -> order t <= max_order ts.
Proof.
  unfold max_order. induction ts as [|u ts IH]; [intros []|]. cbn [map fold_right]. intros [->|H]; [lia|]. specialize (IH H). lia.
Qed.
Lemma max_order_nonneg ts : 0 <= max_order ts.
Proof. unfold max_order. induction ts as [|u ts IH]; cbn [map fold_right]; lia. Qed.
Lemma templates_In g s n ts : forall i cl, In cl (templates_clauses g s n i ts) <->
  exists j t, nth_error ts j = Some t /\ In cl (template_clauses g s (activation_prefix n (i + j)) t).
Proof.
  induction ts as [|t ts IH]; intros i cl; cbn [templates_clauses].
  - split; [intros []|intros (j & t & E & _); destruct j; discriminate].
  - rewrite in_app_iff, IH. split.
    + intros [H|(j & u & E & H)]; [exists 0%nat, t; rewrite Nat.add_0_r; auto|exists (S j), u; rewrite Nat.add_succ_r; auto].
    + intros (j & u & E & H). destruct j as [|j]; cbn [nth_error] in E.
      * injection E as <-. rewrite Nat.add_0_r in H. auto.
      * right. exists j, u. rewrite Nat.add_succ_r in H. auto.
Qed.
Lemma prefix_shape n i : (i < n)%nat -> (activation_prefix n i = [] \/ exists p x, activation_prefix n i = [(p, x)] /\ In x (selectors n)).
Proof.
  intros L. destruct n as [|[|[|n]]]; [lia|left; reflexivity|right..].
  - cbn. eauto.
  - exists true, (name1 (txt "c_{") (Z.of_nat i)). split; auto. unfold selectors. apply in_map. apply range_In. lia.
Qed.
Lemma selector_not_S n x i j : In x (selectors n) -> x <> sub_S i j.
Proof.
  intros H. assert (G : exists t, x = "c"%char :: t).
  { destruct n as [|[|[|n]]]; [destruct H| |destruct H as [<-|[]]; exists []; reflexivity|].
    - destruct H.
    - unfold selectors in H. apply in_map_iff in H as (z & <- & _). eexists. reflexivity. }
  destruct G as (t & ->). intros E. discriminate E.
Qed.
Lemma selectors_NoDup n : NoDup (selectors n).
Proof.
  destruct n as [|[|[|n]]]; [constructor|constructor|constructor; [intros []|constructor]|].
  unfold selectors. apply FinFun.Injective_map_NoDup; [|apply range_NoDup]. intros x y. apply name1_inj.
Qed.
Lemma mapping_vars_In g k s i j : 0 <= i < k -> 0 <= j < order g -> In (sub_S i j) (um_variables (sub_mapping g k s)).
Proof. intros. unfold um_variables, sub_mapping, plain_mapping. cbn [um_domain um_images um_name]. apply in_flat_map. exists i. split; [apply range_In; auto|]. apply in_map. apply range_In. auto. Qed.
Lemma template_clean g ts s cl : In cl (templates_clauses g s (List.length ts) 0 ts) ->
  clean cl /\ forall v, In v (map snd cl) -> In v (selectors (List.length ts)) \/ In v (um_variables (sub_mapping g (max_order ts) s)).
Proof.
  intros H. apply templates_In in H as (j & t & E & H). cbn [Nat.add] in H. pose proof (nth_error_Some_length _ _ _ E) as L. pose proof (max_order_le ts t (nth_error_In _ _ E)) as MO.
  unfold template_clauses in H. cbv zeta in H. apply in_flat_map in H as ([i i'] & Hp & H). apply in_flat_map in H as ([v v'] & Hq & H). cbn [fst snd] in H.
  destruct (Bool.eqb _ _) in H; [destruct H|]. destruct H as [<-|[]]. apply pairs_range0 in Hp.
  assert (Hv : 0 <= v < order g /\ 0 <= v' < order g).
  { destruct s; [apply pairs_range0 in Hq; lia|]. apply permutations2_In in Hq as (A & B & _); [|apply range_NoDup]. apply range_In in A, B. lia. }
  assert (NE : sub_S i v <> sub_S i' v') by (intros X; apply sub_S_inj in X; lia).
  assert (V : forall w, In w [sub_S i v; sub_S i' v'] -> In w (um_variables (sub_mapping g (max_order ts) s))).
  { intros w [<-|[<-|[]]]; apply mapping_vars_In; lia. }
  destruct (prefix_shape (List.length ts) j L) as [->|(p & x & -> & Hx)]; cbn [app].
  - split; [apply two_clean; auto|]. intros w Hw. right. apply V. auto.
  - split; [apply three_clean; auto; apply (selector_not_S (List.length ts)); auto|]. intros w [<-|Hw]; [left; auto|right; apply V; auto].
Qed.
Lemma add_variables_made vs c : made c -> made (add_variables vs c).
Proof. unfold add_variables. revert c. induction vs as [|v t IH]; intros c M; cbn [fold_left]; auto. apply IH. constructor. auto. Qed.
Lemma add_variables_clauses vs c : made c -> cnf_clauses (add_variables vs c) = cnf_clauses c.
Proof.
  unfold add_variables. revert c. induction vs as [|v t IH]; intros c M; cbn [fold_left]; auto. rewrite IH by (constructor; auto).
  apply (p_C66_unsafe_and_variables c M).
Qed.
Lemma sub_built g ts s : ts <> [] -> exists c, SubgraphFormula g ts s = Ok c /\ made c /\ cnf_clauses c = sub_clauses g ts s.
Proof.
  intros NE. unfold SubgraphFormula. destruct ts as [|t0 ts0] eqn:ET; [congruence|]. rewrite <- ET in *. clear ET. cbv zeta.
  set (sel := selectors (List.length ts)). set (m := sub_mapping g (max_order ts) s). set (c0 := add_variables sel empty_cnf).
  assert (M0 : made c0) by (apply add_variables_made; constructor).
  assert (L0 : cnf_clauses c0 = []) by (unfold c0; rewrite add_variables_clauses by constructor; reflexivity).
  assert (N0 : forall v, In v (cn_names c0) <-> In v sel). { intros v. unfold c0. rewrite add_variables_names, with_new_In. cbn. tauto. }
  set (sc := if (3 <=? List.length ts)%nat then equal_to_constraint (map (name1 (txt "c_{")) (range 0 (Z.of_nat (List.length ts)))) 1 else []).
  assert (S1 : exists c1, (if (1 <? Z.of_nat (List.length sel)) then add_all add_clause_strict (equal_to_constraint sel 1) c0 else Ok c0) = Ok c1 /\ made c1 /\ cn_names c1 = cn_names c0 /\ cnf_clauses c1 = sc).
  { destruct (Nat.leb_spec 3 (List.length ts)) as [L|L].
    - assert (E : sel = map (name1 (txt "c_{")) (range 0 (Z.of_nat (List.length ts)))).
      { unfold sel, selectors. destruct (List.length ts) as [|[|[|n]]]; try lia; auto. }
      unfold sc. destruct (Z.ltb_spec 1 (Z.of_nat (List.length sel))) as [_|X]; [|rewrite E, map_length, range_length in X; lia].
      rewrite <- E. destruct (made_strict c0 (equal_to_constraint sel 1) M0) as (c1 & A & B & C & D).
      + intros cl Hc. eapply equal_clean; [|exact Hc]. apply selectors_NoDup.
      + intros cl v Hc Hv. apply N0. eapply equal_vars; eauto.
      + exists c1. rewrite L0 in D. auto.
    - exists c0. unfold sc. destruct (Z.ltb_spec 1 (Z.of_nat (List.length sel))) as [X|_]; auto.
      exfalso. unfold sel, selectors in X. destruct (List.length ts) as [|[|[|n]]]; cbn in X; try lia. }
  destruct S1 as (c1 & -> & M1 & N1 & L1). cbn [bind].
  destruct (made_strict (add_variables (um_variables m) c1) (um_clauses m)) as (c2 & -> & M2 & N2 & L2).
  { apply add_variables_made. auto. }
  { intros cl Hc. eapply unary_clean; [..|exact Hc]; cbn; intros; try apply range_NoDup. apply sub_S_inj. auto. }
  { intros cl v Hc Hv. rewrite add_variables_names, with_new_In. right. eapply unary_vars; [|exact Hc|exact Hv]. cbn. auto. }
  cbn [bind]. rewrite add_variables_clauses in L2 by auto. rewrite add_variables_names in N2.
  destruct (made_strict c2 (templates_clauses g s (List.length ts) 0 ts) M2) as (c3 & E3 & M3 & _ & L3).
  { intros cl Hc. apply (template_clean g ts s cl Hc). }
  { intros cl v Hc Hv. rewrite N2, with_new_In, N1, N0. apply (template_clean g ts s cl Hc). auto. }
  exists c3. split; auto. split; auto. rewrite L3, L2, L1. unfold sub_clauses. fold m. fold sc. rewrite <- app_assoc. auto.
Qed.
