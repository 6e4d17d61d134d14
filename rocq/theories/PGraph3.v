(* PGraph3.v -- pyramids and trees *)
From Coq Require Import String Ascii ZArith NArith List Bool Lia Arith Sorted Permutation.
From Verif Require Import PyBase MSet MText MCnf MFam MFam2 MTrans MFile MGraph SpecCnf SpecFam SpecFam2 SpecGraph PLib PFam1 PFam2 PFam3 PFam4 PFam5 PFam8 PFile3 PNames PTrans1 PGraph1.
Import ListNotations.
Open Scope Z_scope.

(* ---- orders ---- *)
Lemma before_pairs {A} (l : list A) u v : listed_before l u v <-> In (u, v) (pairs l).
Proof.
  induction l as [|x l IH]; cbn [pairs].
  - split; [intros (a & b & c & E); destruct a; discriminate|intros []].
  - rewrite in_app_iff, in_map_iff. split.
    + intros (a & b & c & E). destruct a as [|y a]; inversion E; subst.
      * left. exists v. split; auto. apply in_elt.
      * right. apply IH. exists a, b, c. reflexivity.
    + intros [(y & E & H)|H].
      * inversion E; subst. apply in_split in H as (b & c & ->). exists [], b, c. reflexivity.
      * apply IH in H as (a & b & c & ->). exists (x :: a), b, c. reflexivity.
Qed.
Lemma before_trans {A} (l : list A) u v w : NoDup l -> listed_before l u v -> listed_before l v w -> listed_before l u w.
Proof.
  intros N H K. apply before_pairs, pairs_nth in H as (i & j & L & Hu & Hv). apply before_pairs, pairs_nth in K as (j' & k & L' & Hv' & Hw).
  apply before_pairs, pairs_nth. exists i, k. split; [|auto]. assert (j = j'); [|lia].
  apply (proj1 (NoDup_nth_error l) N); [|congruence]. apply nth_error_Some. congruence.
Qed.
Lemma ordered_walk g u v : ordered_dag g -> named_walk g u v -> listed_before (n_vertices g) u v.
Proof. intros [N _ O]. induction 1 as [u v H|u v w H _ IH]; auto. apply (before_trans _ u v w N); auto. Qed.
Lemma ordered_acyclic g v : ordered_dag g -> ~ named_walk g v v.
Proof. intros O H. pose proof (ordered_walk g v v O H) as B. apply before_pairs in B. apply (pairs_neq _ _ _ (od_nodes g O) B). reflexivity. Qed.
Lemma before_range a b u v : a <= u -> u < v -> v < b -> listed_before (range a b) u v.
Proof. intros Ha Hu Hv. apply before_pairs, PFam6.pairs_sorted; [apply range_sorted|]. rewrite !range_In. lia. Qed.
Lemma before_map {A B} (f : A -> B) l u v : listed_before l u v -> listed_before (map f l) (f u) (f v).
Proof. intros (a & b & c & ->). exists (map f a), (map f b), (map f c). rewrite map_app. cbn [map]. rewrite map_app. reflexivity. Qed.
Lemma before_flat {A B} (f : A -> list B) l a b x y : listed_before l a b -> In x (f a) -> In y (f b) -> listed_before (flat_map f l) x y.
Proof.
  intros (p & q & r & ->) Hx Hy. apply in_split in Hx as (x1 & x2 & E). apply in_split in Hy as (y1 & y2 & F).
  exists (flat_map f p ++ x1), (x2 ++ flat_map f q ++ y1), (y2 ++ flat_map f r).
  rewrite flat_map_app. cbn [flat_map]. rewrite flat_map_app. cbn [flat_map]. rewrite E, F. repeat (rewrite <- app_assoc || rewrite <- app_comm_cons). reflexivity.
Qed.

Lemma pair_eq {A B} (a c : A) (b d : B) : (a, b) = (c, d) -> a = c /\ b = d.
Proof. intros E. inversion E. auto. Qed.

(* ---- pyramid ---- *)
Lemma pyramid_name h i : pyramid_vertex h i = x_name h i.
Proof. reflexivity. Qed.
Lemma x_name_inj h i h' i' : x_name h i = x_name h' i' -> h = h' /\ i = i'.
Proof. apply name2_inj. Qed.
Lemma pyramid_vertices height t : In t (n_vertices (dag_pyramid height)) <-> exists h i, 0 <= h <= height /\ 0 <= i <= height - h /\ t = x_name h i.
Proof.
  unfold dag_pyramid. cbn [n_vertices]. rewrite in_flat_map. split.
  - intros (h & H & K). apply in_map_iff in K as (i & <- & K). rewrite range_In in H, K. exists h, i. split; [lia|]. split; [lia|]. reflexivity.
  - intros (h & i & H & K & ->). exists h. split; [apply range_In; lia|]. apply in_map_iff. exists i. split; auto. apply range_In. lia.
Qed.
Lemma pyramid_arcs height s t : named_arc (dag_pyramid height) s t <->
  exists h i, 1 <= h <= height /\ 0 <= i <= height - h /\ t = x_name h i /\ (s = x_name (h - 1) i \/ s = x_name (h - 1) (i + 1)).
Proof.
  unfold named_arc, dag_pyramid. cbn [n_arcs]. rewrite in_flat_map. split.
  - intros (h & H & K). apply in_flat_map in K as (i & K & L). rewrite range_In in H, K. exists h, i. split; [lia|]. split; [lia|].
    destruct L as [L|[L|[]]]; inversion L; subst; auto.
  - intros (h & i & H & K & -> & L). exists h. split; [apply range_In; lia|]. apply in_flat_map. exists i. split; [apply range_In; lia|].
    destruct L as [->| ->]; [left|right; left]; reflexivity.
Qed.
Lemma pyramid_ordered height : ordered_dag (dag_pyramid height).
Proof.
  constructor.
  - unfold dag_pyramid. cbn [n_vertices]. apply NoDup_name2; [apply range_NoDup|]. intros; apply range_NoDup.
  - unfold dag_pyramid. cbn [n_arcs]. apply flat_map_NoDup; [apply range_NoDup| |].
    + intros h _. apply flat_map_NoDup; [apply range_NoDup| |].
      * intros i _. constructor; [|constructor; [intros []|constructor]]. intros [E|[]]. apply pair_eq in E as [E' _]. apply x_name_inj in E'. lia.
      * intros i i' e H H' K K'. destruct K as [K|[K|[]]], K' as [K'|[K'|[]]]; rewrite <- K in K'; apply pair_eq in K' as [_ E2]; apply x_name_inj in E2; lia.
    + intros h h' e H H' K K'. apply in_flat_map in K as (i & _ & K). apply in_flat_map in K' as (i' & _ & K').
      destruct K as [K|[K|[]]], K' as [K'|[K'|[]]]; rewrite <- K in K'; apply pair_eq in K' as [_ E2]; apply x_name_inj in E2; lia.
  - intros s t H. apply pyramid_arcs in H as (h & i & H & K & -> & L). unfold dag_pyramid. cbn [n_vertices].
    apply (before_flat _ _ (h - 1) h); [apply before_range; lia| |].
    + apply in_map_iff. destruct L as [->| ->]; [exists i|exists (i + 1)]; (split; [reflexivity|apply range_In; lia]).
    + apply in_map_iff. exists i. split; [reflexivity|apply range_In; lia].
Qed.
Lemma pyramid_sink height v : 0 <= height -> (named_sink (dag_pyramid height) v <-> v = x_name height 0).
Proof.
  intros H0. split.
  - intros [V S]. apply pyramid_vertices in V as (h & i & H & K & ->). destruct (Z.eq_dec h height) as [->|N]; [f_equal; lia|]. exfalso.
    destruct (Z.eq_dec i 0) as [->|M].
    + apply (S (x_name (h + 1) 0)). apply pyramid_arcs. exists (h + 1), 0. split; [lia|]. split; [lia|]. split; auto. left. f_equal. lia.
    + apply (S (x_name (h + 1) (i - 1))). apply pyramid_arcs. exists (h + 1), (i - 1). split; [lia|]. split; [lia|]. split; auto. right. f_equal; lia.
  - intros ->. split; [apply pyramid_vertices; exists height, 0; split; [lia|]; split; [lia|reflexivity]|].
    intros w A. apply pyramid_arcs in A as (h & i & H & K & -> & [L|L]); apply x_name_inj in L; lia.
Qed.

(* ---- tree ---- *)
Lemma v_name_inj i j : v_name i = v_name j -> i = j.
Proof. unfold v_name. intros E. apply app_inv_head in E. apply str_Z_inj; auto. Qed.
Lemma tree_error height : height < 0 -> dag_complete_binary_tree height = Err TypeError.
Proof. intros H. unfold dag_complete_binary_tree. replace (height <? 0) with true by (symmetry; lia). reflexivity. Qed.
Lemma nth_range k a b d : a <= k < b -> nth (Z.to_nat (k - a)) (range a b) d = k.
Proof.
  intros H. unfold range. rewrite (nth_indep _ d (a + Z.of_nat 0)) by (rewrite map_length, seq_length; lia).
  change (a + Z.of_nat 0) with ((fun j => a + Z.of_nat j) 0%nat). rewrite map_nth, seq_nth by lia. lia.
Qed.
Lemma tree_shape height : 0 <= height -> exists g, dag_complete_binary_tree height = Ok g /\
  n_vertices g = map v_name (range 1 (2 ^ (height + 1))) /\
  n_arcs g = flat_map (fun i => [(v_name (2 ^ (height + 1) - 2 * i - 2), v_name (2 ^ (height + 1) - i - 1)); (v_name (2 ^ (height + 1) - 2 * i - 3), v_name (2 ^ (height + 1) - i - 1))]) (range 0 (2 ^ height - 1)).
Proof.
  intros H. unfold dag_complete_binary_tree. replace (height <? 0) with false by (symmetry; lia). eexists. split; [reflexivity|]. cbn [n_vertices n_arcs].
  assert (P : 2 * 2 ^ height = 2 ^ (height + 1)) by (rewrite Z.pow_add_r by lia; lia). rewrite P.
  split; [reflexivity|]. assert (Q : 0 < 2 ^ height) by (apply Z.pow_pos_nonneg; lia).
  rewrite map_length, range_length, Z2Nat.id by lia. replace ((2 ^ (height + 1) - 1) / 2) with (2 ^ height - 1).
  2:{ apply (Z.div_unique _ _ _ 1); lia. }
  rewrite !flat_map_concat_map. f_equal. apply map_ext_in. intros i Hi. apply range_In in Hi.
  assert (X : forall k, 1 <= k < 2 ^ (height + 1) -> nth (Z.to_nat (k - 1)) (map tree_vertex (range 1 (2 ^ (height + 1)))) [] = v_name k).
  { intros k K. rewrite (nth_indep _ [] (tree_vertex 0)) by (rewrite map_length, range_length; lia). rewrite map_nth, nth_range by lia. reflexivity. }
  rewrite <- (X (2 ^ (height + 1) - 2 * i - 2)), <- (X (2 ^ (height + 1) - i - 1)), <- (X (2 ^ (height + 1) - 2 * i - 3)) by lia.
  replace (2 ^ (height + 1) - 1 - 1 - 2 * i - 1) with (2 ^ (height + 1) - 2 * i - 2 - 1) by lia. replace (2 ^ (height + 1) - 1 - 1 - i) with (2 ^ (height + 1) - i - 1 - 1) by lia.
  replace (2 ^ (height + 1) - 1 - 1 - 2 * i - 2) with (2 ^ (height + 1) - 2 * i - 3 - 1) by lia. reflexivity.
Qed.
Lemma tree_arcs height g a b : 0 <= height -> dag_complete_binary_tree height = Ok g ->
  (named_arc g a b <-> exists j, 2 ^ height < j < 2 ^ (height + 1) /\ b = v_name j /\ (a = v_name (2 * j - 2 ^ (height + 1)) \/ a = v_name (2 * j - 2 ^ (height + 1) - 1))).
Proof.
  intros H E. destruct (tree_shape height H) as (g' & E' & _ & A). rewrite E in E'. inversion E'; subst g'. clear E'.
  assert (P : 2 * 2 ^ height = 2 ^ (height + 1)) by (rewrite Z.pow_add_r by lia; lia).
  unfold named_arc. rewrite A, in_flat_map. split.
  - intros (i & K & L). apply range_In in K. exists (2 ^ (height + 1) - i - 1). split; [lia|].
    destruct L as [L|[L|[]]]; apply pair_eq in L as [<- <-]; (split; [reflexivity|]); [left|right]; f_equal; lia.
  - intros (j & K & -> & L). exists (2 ^ (height + 1) - j - 1). split; [apply range_In; lia|].
    replace (2 ^ (height + 1) - (2 ^ (height + 1) - j - 1) - 1) with j by lia.
    destruct L as [->| ->]; [left|right; left]; apply f_equal2; auto; f_equal; lia.
Qed.
Lemma tree_ordered height g : 0 <= height -> dag_complete_binary_tree height = Ok g -> ordered_dag g.
Proof.
  intros H E. pose proof (fun a b => tree_arcs height g a b H E) as TA. destruct (tree_shape height H) as (g' & E' & V & A). rewrite E in E'. inversion E'; subst g'. clear E'.
  assert (P : 2 * 2 ^ height = 2 ^ (height + 1)) by (rewrite Z.pow_add_r by lia; lia).
  constructor.
  - rewrite V. apply FinFun.Injective_map_NoDup; [intros x y; apply v_name_inj|apply range_NoDup].
  - rewrite A. apply flat_map_NoDup; [apply range_NoDup| |].
    + intros i _. constructor; [|constructor; [intros []|constructor]]. intros [Q|[]]. apply pair_eq in Q as [Q' _]. apply v_name_inj in Q'. lia.
    + intros i i' e K K' L L'. destruct L as [L|[L|[]]], L' as [L'|[L'|[]]]; rewrite <- L in L'; apply pair_eq in L' as [_ E2]; apply v_name_inj in E2; lia.
  - intros a b K. apply TA in K as (j & K & -> & L). rewrite V. destruct L as [->| ->]; apply before_map, before_range; lia.
Qed.
