(* PGraph5.v -- sampling missing edges; planted cliques *)
From Coq Require Import String Ascii ZArith NArith List Bool Lia Arith Sorted Permutation.
From Verif Require Import PyBase MSet MText MCnf MFam MFam2 MTrans MFile MGraph SpecCnf SpecFam SpecFam2 SpecGraph PLib PFam1 PFam2 PFam3 PFam4 PFam5 PFam8 PFile3 PNames PTrans1 PGraph1 PGraph2 PGraph3 PGraph4.
Import ListNotations.
Open Scope Z_scope.

Lemma chosen_In s u v : chosen s u v = true <-> In (u, v) s.
Proof.
  unfold chosen. rewrite existsb_exists. split.
  - intros ([a b] & H & K). cbn [fst snd] in K. apply andb_true_iff in K as [K1 K2]. apply Z.eqb_eq in K1, K2. subst. auto.
  - intros H. exists (u, v). split; auto. cbn [fst snd]. now rewrite !Z.eqb_refl.
Qed.
(* pairs that may be taken, none of them joined, none twice in whatever direction *)
Definition taken (joined may : Z -> Z -> Prop) (s : list (Z * Z)) : Prop :=
  NoDup s /\ forall u v, In (u, v) s -> may u v /\ ~ joined u v /\ (u <> v -> ~ In (v, u) s).
Lemma sample_pairs_ok joined (J may : Z -> Z -> Prop) pair_of m : (forall u v, joined u v = true <-> J u v) -> (forall t, may (fst (pair_of t)) (snd (pair_of t))) ->
  forall rounds t s, taken J may s -> (List.length s <= m)%nat -> taken J may (sample_pairs joined pair_of m rounds t s) /\ (List.length (sample_pairs joined pair_of m rounds t s) <= m)%nat.
Proof.
  intros HJ HM. induction rounds as [|k IH]; intros t s I L; cbn [sample_pairs]; auto. destruct (Nat.leb_spec m (List.length s)) as [|Q0]; auto.
  pose proof (HM t) as M. destruct (pair_of t) as [u v]. cbn [fst snd] in M. apply IH; [|destruct (_ && _); [rewrite app_length; cbn; lia|auto]].
  destruct (negb (chosen s u v) && negb (chosen s v u) && negb (joined u v)) eqn:C; auto.
  apply andb_true_iff in C as [C C3]. apply andb_true_iff in C as [C1 C2]. apply negb_true_iff in C1, C2, C3.
  assert (D1 : ~ In (u, v) s) by (intros Q; apply chosen_In in Q; congruence). assert (D2 : ~ In (v, u) s) by (intros Q; apply chosen_In in Q; congruence).
  assert (D3 : ~ J u v) by (intros Q; apply HJ in Q; congruence). destruct I as [N I]. split.
  - apply (Permutation_NoDup (Permutation_cons_append _ _)). constructor; auto.
  - intros a b H. apply in_app_iff in H as [H|[H|[]]].
    + destruct (I a b H) as (A & B & D). split; auto. split; auto. intros Q K. apply in_app_iff in K as [K|[K|[]]]; [apply D; auto|]. inversion K; subst. contradiction.
    + inversion H; subst a b. split; auto. split; auto. intros Q K. apply in_app_iff in K as [K|[K|[]]]; auto. inversion K; subst. congruence.
Qed.
Lemma taken_nil J may : taken J may [].
Proof. split; [constructor|intros u v []]. Qed.
Lemma sample_missing_ok o joined (J may : Z -> Z -> Prop) available total2 edges m es :
  (forall u v, joined u v = true <-> J u v) -> (forall t, may (fst (o_pair o t)) (snd (o_pair o t))) ->
  (forall l k, NoDup l -> (k <= List.length l)%nat -> sampled l k (o_sample o l k)) -> taken J may available ->
  sample_missing o joined available total2 edges m = Ok es -> taken J may es /\ Z.of_nat (List.length es) = m.
Proof.
  intros HJ HM HS HA E. unfold sample_missing in E. destruct (Z.ltb_spec m 0) as [|Q0]; [discriminate|]. destruct (total2 - 2 * edges <? 2 * m); [discriminate|].
  destruct (total2 <=? 4 * (edges + m)).
  - destruct (Nat.ltb_spec (List.length available) (Z.to_nat m)) as [|L]; [discriminate|]. apply (f_equal (fun r => match r with Ok x => x | _ => es end)) in E. subst es.
    destruct (HS available (Z.to_nat m) (proj1 HA) L) as (N & I & C). split; [|lia]. destruct HA as [NA HA]. split; auto. intros u v H. destruct (HA u v (I _ H)) as (A & B & D).
    split; auto. split; auto. intros Q1 Q2. apply (D Q1). apply I. auto.
  - destruct (sample_pairs_ok joined J may (o_pair o) (Z.to_nat m) HJ HM (Z.to_nat (100 * m)) 0 [] (taken_nil J may) ltac:(cbn; lia)) as [T L].
    destruct (Nat.leb_spec (Z.to_nat m) (List.length (sample_pairs joined (o_pair o) (Z.to_nat m) (Z.to_nat (100 * m)) 0 []))); [|discriminate].
    apply (f_equal (fun r => match r with Ok x => x | _ => es end)) in E. subst es. split; auto. lia.
Qed.
(* errors: ValueError exactly for a number out of range; another one only if few edges are there *)
Lemma sample_missing_errors o joined available total2 edges m : total2 - 2 * edges <= 2 * Z.of_nat (List.length available) ->
  (sample_missing o joined available total2 edges m = Err ValueError <-> m < 0 \/ total2 - 2 * edges < 2 * m) /\
  (forall e, sample_missing o joined available total2 edges m = Err e -> e = ValueError \/ e = RuntimeError /\ 4 * (edges + m) < total2) /\
  sample_missing o joined available total2 edges m <> OutOfFuel.
Proof.
  intros HA. unfold sample_missing. destruct (Z.ltb_spec m 0).
  { split; [split; auto|]. split; [intros e E; left; congruence|discriminate]. }
  destruct (Z.ltb_spec (total2 - 2 * edges) (2 * m)).
  { split; [split; auto|]. split; [intros e E; left; congruence|discriminate]. }
  destruct (Z.leb_spec total2 (4 * (edges + m))).
  - destruct (Nat.ltb_spec (List.length available) (Z.to_nat m)) as [|L]; [lia|].
    split; [split; [discriminate|lia]|]. split; discriminate.
  - destruct (Z.to_nat m <=? _)%nat; (split; [split; [discriminate|lia]|]); split; try discriminate. intros e E. right. split; [congruence|lia].
Qed.

(* ---- the two kinds of graphs ---- *)
Lemma sample_simple_ok o g m es : simple_graph g -> fair_pairs g o -> sample_missing_simple o g m = Ok es -> missing_edges g es /\ Z.of_nat (List.length es) = m.
Proof.
  intros G [F1 F2] E. pose proof (available_missing g G) as [NA MA].
  apply (sample_missing_ok o (has_edge g) (adjacent g) (fun u v => In u (g_nodes g) /\ In v (g_nodes g) /\ u <> v)) in E; auto.
  - destruct E as [[N T] L]. split; auto. split; auto. intros u v H. destruct (T u v H) as ((A & B & C) & D & R). repeat split; auto.
  - apply has_edge_adjacent.
  - split; auto. intros u v H. destruct (MA u v H) as (A & B & C & D & R). auto.
Qed.
Lemma sample_simple_errors o g m : simple_graph g ->
  (sample_missing_simple o g m = Err ValueError <-> m < 0 \/ ~ can_add g m) /\
  (forall e, sample_missing_simple o g m = Err e -> e = ValueError \/ e = RuntimeError /\ 4 * (length_Z (g_edges g) + m) < length_Z (g_nodes g) * (length_Z (g_nodes g) - 1)) /\
  sample_missing_simple o g m <> OutOfFuel.
Proof.
  intros G. pose proof (available_count g G) as C. pose proof (can_add_count g m G) as CA.
  destruct (sample_missing_errors o (has_edge g) (available g) (length_Z (g_nodes g) * (length_Z (g_nodes g) - 1)) (length_Z (g_edges g)) m ltac:(lia)) as (A & B & D).
  fold (available g) in *. unfold sample_missing_simple. fold (available g). split; [|split; auto].
  rewrite A. split; (intros [H|H]; [left; auto|]); [right; rewrite CA; lia|]. right. rewrite CA in H. lia.
Qed.
Lemma sample_between_ok o b m es : bipartite_graph b -> fair_pairs_between b o -> sample_missing_bipartite o b m = Ok es -> missing_between b es /\ Z.of_nat (List.length es) = m.
Proof.
  intros G [F1 F2] E.
  apply (sample_missing_ok o (joined_pair (b_edges b)) (fun u v => In (u, v) (b_edges b)) (fun u v => In u (b_left b) /\ In v (b_right b))) in E; auto.
  - destruct E as [[N T] L]. split; auto. split; auto. intros u v H. destruct (T u v H) as ((A & B) & D & R). auto.
  - apply joined_pair_In.
  - split; [apply available_between_NoDup; auto|]. intros u v H. apply available_between_In in H as (A & B & C). split; auto. split; auto.
    intros _ K. apply available_between_In in K as (A' & B' & _). apply (bg_apart b G u A B').
Qed.
Lemma sample_between_errors o b m : bipartite_graph b ->
  (sample_missing_bipartite o b m = Err ValueError <-> m < 0 \/ ~ can_add_between b m) /\
  (forall e, sample_missing_bipartite o b m = Err e -> e = ValueError \/ e = RuntimeError /\ 2 * (length_Z (b_edges b) + m) < length_Z (b_left b) * length_Z (b_right b)) /\
  sample_missing_bipartite o b m <> OutOfFuel.
Proof.
  intros G. pose proof (available_between_count b G) as C. pose proof (can_add_between_count b m G) as CA.
  destruct (sample_missing_errors o (joined_pair (b_edges b)) (available_between b) (2 * (length_Z (b_left b) * length_Z (b_right b))) (length_Z (b_edges b)) m ltac:(lia)) as (A & B & D).
  unfold sample_missing_bipartite. fold (available_between b). split; [|split; auto].
  - rewrite A. split; (intros [H|H]; [left; auto|]); [right; rewrite CA; lia|]. right. rewrite CA in H. lia.
  - intros e E. apply B in E as [E|[E L]]; auto. right. split; auto. lia.
Qed.

(* ---- the graph with the new edges ---- *)
Lemma add_edges_ok o g k h : simple_graph g -> fair_pairs g o -> 0 < k -> add_edges o g k = Ok h ->
  simple_graph h /\ g_nodes h = g_nodes g /\ (exists es, g_edges h = g_edges g ++ es /\ missing_edges g es /\ Z.of_nat (List.length es) = k).
Proof.
  intros G F K E. unfold add_edges in E. replace (k <=? 0) with false in E by (symmetry; lia). apply bind_ok in E as (es & E1 & E).
  apply (f_equal (fun r => match r with Ok x => x | _ => h end)) in E. subst h. destruct (sample_simple_ok o g k es G F E1) as [[N M] L]. split; [|split; [reflexivity|]].
  - apply add_edges_simple; auto. intros u v H. apply M in H. tauto.
  - exists es. split; [|split; [split; auto|auto]]. cbn [add_edges_from g_edges]. apply add_all_fresh; auto. intros u v H. destruct (M u v H) as (_ & _ & _ & A & B). split; auto.
    intros J. apply A, adjacent_joined, J.
Qed.
Lemma add_missing_ok o b k h : bipartite_graph b -> fair_pairs_between b o -> add_missing_edges o b k = Ok h ->
  bipartite_graph h /\ b_left h = b_left b /\ b_right h = b_right b /\ (exists es, b_edges h = b_edges b ++ es /\ missing_between b es /\ Z.of_nat (List.length es) = k).
Proof.
  intros G F E. unfold add_missing_edges in E. apply bind_ok in E as (es & E1 & E).
  apply (f_equal (fun r => match r with Ok x => x | _ => h end)) in E. subst h. destruct (sample_between_ok o b k es G F E1) as [[N M] L]. split; [|split; [reflexivity|split; [reflexivity|]]].
  - apply add_bipartite_ok; auto. intros u v H. apply M in H. tauto.
  - exists es. split; [|split; [split; auto|auto]]. cbn [add_bipartite_edges b_edges]. apply add_arcs_fresh; auto. intros [u v] H K. apply M in K. tauto.
Qed.

(* ---- planted cliques ---- *)
Lemma plant_clique_errors vertices g k : (k <= 1 -> plant_clique vertices g k = Ok g) /\ (1 < k -> Z.of_nat (List.length (g_nodes g)) < k -> plant_clique vertices g k = Err ValueError).
Proof.
  unfold plant_clique, length_Z. split; intros H; [replace (k <=? 1) with true by (symmetry; lia); auto|]. intros K. replace (k <=? 1) with false by (symmetry; lia).
  replace (Z.of_nat (List.length (g_nodes g)) <? k) with true by (symmetry; lia). reflexivity.
Qed.
Lemma plant_clique_ok vertices g k : simple_graph g -> 1 < k <= Z.of_nat (List.length (g_nodes g)) ->
  sampled (g_nodes g) (Z.to_nat k) (vertices (g_nodes g) (Z.to_nat k)) ->
  exists h, plant_clique vertices g k = Ok h /\ simple_graph h /\ g_nodes h = g_nodes g /\ exists S, Z.of_nat (List.length S) = k /\ clique h S /\
    (forall u v, adjacent h u v <-> adjacent g u v \/ In u S /\ In v S /\ u <> v).
Proof.
  intros G K (N & I & C). unfold plant_clique, length_Z. replace (k <=? 1) with false by (symmetry; lia).
  replace (Z.of_nat (List.length (g_nodes g)) <? k) with false by (symmetry; lia). eexists. split; [reflexivity|].
  set (S := vertices (g_nodes g) (Z.to_nat k)) in *.
  assert (A : forall u v, adjacent (add_edges_from g (pairs S)) u v <-> adjacent g u v \/ In u S /\ In v S /\ u <> v).
  { intros u v. rewrite add_edges_adjacent. split.
    - intros [H|[H|H]]; auto; right; pose proof (pairs_In _ _ _ H) as [P Q]; pose proof (pairs_neq _ _ _ N H); auto.
    - intros [H|(P & Q & D)]; auto. right. apply pairs_total; auto. }
  split; [|split; [reflexivity|]].
  - apply add_edges_simple; auto. intros u v H. pose proof (pairs_In _ _ _ H) as [P Q]. pose proof (pairs_neq _ _ _ N H). auto.
  - exists S. split; [lia|]. split; [|exact A]. split; auto. split; [exact I|]. intros u v P Q D. apply A. auto.
Qed.
Lemma plant_biclique_errors vertices b l r : l < 0 \/ r < 0 \/ Z.of_nat (List.length (b_left b)) < l \/ Z.of_nat (List.length (b_right b)) < r -> plant_biclique vertices b l r = Err ValueError.
Proof.
  intros H. unfold plant_biclique, length_Z. destruct (_ || _) eqn:E; auto. apply orb_false_iff in E as [E1 E2]. replace ((l <? 0) || (r <? 0)) with true; auto. symmetry. lia.
Qed.
Lemma plant_biclique_ok vertices b l r : bipartite_graph b -> 0 <= l <= Z.of_nat (List.length (b_left b)) -> 0 <= r <= Z.of_nat (List.length (b_right b)) ->
  sampled (b_left b) (Z.to_nat l) (vertices (b_left b) (Z.to_nat l)) -> sampled (b_right b) (Z.to_nat r) (vertices (b_right b) (Z.to_nat r)) ->
  exists h, plant_biclique vertices b l r = Ok h /\ bipartite_graph h /\ b_left h = b_left b /\ b_right h = b_right b /\
    exists S T, NoDup S /\ incl S (b_left b) /\ Z.of_nat (List.length S) = l /\ NoDup T /\ incl T (b_right b) /\ Z.of_nat (List.length T) = r /\
      (forall u v, In (u, v) (b_edges h) <-> In (u, v) (b_edges b) \/ In u S /\ In v T).
Proof.
  intros B Hl Hr (N & I & C) (N' & I' & C'). unfold plant_biclique, length_Z.
  replace ((Z.of_nat (List.length (b_left b)) <? l) || (Z.of_nat (List.length (b_right b)) <? r)) with false by (symmetry; lia).
  replace ((l <? 0) || (r <? 0)) with false by (symmetry; lia). eexists. split; [reflexivity|].
  set (S := vertices (b_left b) (Z.to_nat l)) in *. set (T := vertices (b_right b) (Z.to_nat r)) in *.
  assert (P : forall u v, In (u, v) (flat_map (fun u => map (pair u) T) S) <-> In u S /\ In v T).
  { intros u v. rewrite in_flat_map. split.
    - intros (w & H & K). apply in_map_iff in K as (x & E & K). inversion E; subst. auto.
    - intros [H K]. exists u. split; auto. apply in_map. auto. }
  split; [|split; [reflexivity|split; [reflexivity|]]].
  - apply add_bipartite_ok; auto. intros u v H. apply P in H as [H K]. auto.
  - exists S, T. repeat (split; [auto; lia|]). intros u v. cbn [add_bipartite_edges b_edges]. rewrite add_arcs_In, P. tauto.
Qed.
