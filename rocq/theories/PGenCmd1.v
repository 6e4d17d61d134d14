(* PGenCmd1.v -- the simple graphs that the command line of the bundled generator obtains. *)
From Coq Require Import String Ascii ZArith List Bool Lia Arith Sorted Permutation.
From Verif Require Import Spec SpecInput SpecFile PyBase MSet MText MCnf MFam MFam2 MFile MTrans MTool MGraph MGenCmd SpecCnf SpecFam SpecFam2 SpecTrans SpecTool SpecGraph SpecGenCmd.
From Verif Require Import PLib PFam1 PFam2 PFam3 PFam4 PFam5 PFam8 PFam12 PFam13 PFile3 PFile4 PGraph1 PGraph2 PGraph3 PGraph4 PGraph5 PP24 PP25 PP26 PGenCmd0.
Import ListNotations.
Open Scope Z_scope.

Lemma nodes_count g n : simple_graph g -> vertices g 0 (n - 1) -> 0 <= n -> count (g_nodes g) = n.
Proof.
  intros [N _ _ _] V Hn. assert (P : Permutation (g_nodes g) (range 0 n)).
  { apply NoDup_Permutation; auto; [apply range_NoDup|]. intros x. rewrite (V x), range_In. lia. }
  unfold count. rewrite (Permutation_length P), range_length. lia.
Qed.
Lemma nodes_count1 g n : simple_graph g -> vertices g 1 n -> 0 <= n -> count (g_nodes g) = n.
Proof.
  intros [N _ _ _] V Hn. assert (P : Permutation (g_nodes g) (range 1 (n + 1))).
  { apply NoDup_Permutation; auto; [apply range_NoDup|]. intros x. rewrite (V x), range_In. lia. }
  unfold count. rewrite (Permutation_length P), range_length. lia.
Qed.
Lemma complete_joined n u v : adjacent (complete_graph n) u v <-> 0 <= u < n /\ 0 <= v < n /\ u <> v.
Proof.
  split; [|intros (A & B & C); apply complete_adjacent; auto]. intros H. pose proof (complete_simple n) as G.
  assert (L : u <> v).
  { intros ->. apply (simple_no_loop _ v G). destruct H; auto. }
  destruct G as [_ _ _ E]. destruct H as [H|H]; apply E in H as (H1 & H2); cbn [complete_graph g_nodes] in *; rewrite range_In in *; lia.
Qed.
Lemma to_graph_nodes f w : In w (g_nodes (to_graph f)) <-> In w (f_vertices f).
Proof. cbn [to_graph g_nodes]. split; apply Permutation_in; [|symmetry]; apply sort_by_Perm. Qed.
(* the size of a file is known from the graph it was read into *)
Definition sized (s : simple_source) (input : text) (g : graph) : Prop := forall n, size_of s input n -> n <= count (g_nodes g).
Lemma source_obtained E s input : fair E -> delivers s input ->
  exists g, source_simple E s input = Gives (g, match s with S_stdin _ => [] | _ => input end) /\ simple_graph g /\ from_source s input g.
Proof.
  intros F D. destruct s as [n d|n|n m|dims|dims|n|n|f]; cbn [delivers from_source source_simple] in *.
  - destruct D as (D1 & D2). destruct (fc_regular _ F n d ltac:(lia) D2) as (G & V & R). exists (ch_regular E d n).
    replace ((n * d) mod 2 =? 1) with false.
    2:{ symmetry. apply Z.eqb_neq. destruct D2 as (q & ->). rewrite Z.mul_comm, Z.mod_mul; lia. }
    replace ((0 <=? d) && (d <? n)) with true by (symmetry; apply andb_true_iff; split; [apply Z.leb_le|apply Z.ltb_lt]; lia). cbn [negb]. auto.
  - destruct (fc_gnp _ F n D) as (G & V). eauto.
  - destruct D as (D1 & D2). destruct (fc_gnm _ F n m D1 D2) as (G & V & C). eauto 6.
  - exists (grid_graph false dims). split; auto. apply grid_ok. apply D.
  - exists (grid_graph true dims). split; auto. apply grid_ok. apply D.
  - exists (complete_graph n). split; auto. split; [apply complete_simple|]. split; [|apply complete_joined]. intros v. cbn [complete_graph g_nodes]. rewrite range_In. lia.
  - exists (empty_graph n). split; auto. split; [apply empty_simple|]. split; [|intros u v [[]|[]]]. intros v. cbn [empty_graph g_nodes]. rewrite range_In. lia.
  - destruct f; try contradiction.
    + destruct D as (lines & name & n & adj & L & -> & K & NL). destruct (p_C84_simple lines name n adj L K) as (g & R & _ & V & A & S).
      exists (to_graph g). cbn [read_simple]. rewrite R. cbn [bind exit_on_value_error plain andthen]. split; auto. split; auto.
      exists lines, name, n, adj. split; auto. split; auto. split; auto. split; auto. intros v. rewrite V, range_In. lia.
    + destruct D as (lines & name & n & es & L & -> & K & R). destruct (p_C85_read false lines name _ es L K) as (P & _).
      destruct (P n _ eq_refl eq_refl) as (f & Rd & _ & _ & V & _ & A). destruct (p_C85_in_range lines name n _ es L K eq_refl) as (_ & f' & Rd' & _ & S).
      { intros u v I. destruct (R u v I) as (? & ? & ?). auto. }
      assert (f' = f) by congruence. subst f'.
      exists (to_graph f). cbn [read_simple]. rewrite Rd. cbn [bind exit_on_value_error plain andthen]. split; auto. split.
      { apply S. intros v I. destruct (R v v I) as (_ & _ & X). apply X. reflexivity. }
      exists lines, name, n, (count es), es. split; auto. split; auto. split; auto. split; [|apply A; reflexivity]. intros w. rewrite to_graph_nodes. apply V.
Qed.
Lemma counted (l : list Z) a n : NoDup l -> (forall v, a <= v < a + n -> In v l) -> n <= count l.
Proof.
  intros N H. assert (L : (List.length (range a (a + n)) <= List.length l)%nat).
  { apply NoDup_incl_length; [apply range_NoDup|]. intros v I. apply H. apply range_In in I. lia. }
  rewrite range_length in L. unfold count. lia.
Qed.
Lemma source_sized E s input g t : simple_graph g -> fair E -> delivers s input -> source_simple E s input = Gives (g, t) -> sized s input g.
Proof.
  intros G F D O n S. assert (NV := sg_nodes g G). destruct (source_obtained E s input F D) as (g' & O' & _ & FS).
  assert (g' = g) by (rewrite O' in O; congruence). subst g'. clear O'.
  destruct s as [n' d|n'|n' m|dims|dims|n'|n'|f]; cbn [size_of from_source] in *; try subst n'.
  4,5: destruct FS as (FS & _); lia.
  1-5: apply (counted _ 0); auto; intros v Hv; first [apply (proj1 FS)|apply FS]; lia.
  destruct f; try contradiction; cbn [source_simple read_simple] in O.
  - destruct S as (lines & name & adj & L & -> & K). destruct (p_C84_simple lines name n adj L K) as (f & R & _ & V & _). rewrite R in O. cbn in O.
    assert (to_graph f = g) by congruence. subst g. apply (counted _ 1); auto. intros v Hv. rewrite V, range_In. lia.
  - destruct S as (lines & name & es & L & -> & K). destruct (p_C85_read false lines name _ es L K) as (P & _).
    destruct (P n _ eq_refl eq_refl) as (f & R & _ & _ & V & _). rewrite R in O. cbn in O. assert (to_graph f = g) by congruence. subst g.
    apply (counted _ 1); auto. intros v Hv. apply to_graph_nodes, V. lia.
Qed.
Lemma clique_obtained E k g : fair E -> simple_graph g -> positive_if_given k -> (forall n, k = Some n -> n <= count (g_nodes g)) ->
  exists g', match k with None => Gives g | Some k => plain (plant_clique (ch_vertices E) g k) end = Gives g' /\ simple_graph g' /\ clique_planted k g g'.
Proof.
  intros F G P S. destruct k as [k|]; [|exists g; cbn; auto]. specialize (S k eq_refl). specialize (P k eq_refl). destruct (p_C87_clique (ch_vertices E) g k G) as (A & _ & B).
  destruct (Z_le_gt_dec k 1) as [L|L].
  - exists g. rewrite A by auto. cbn [plain clique_planted]. split; auto. split; auto. split; auto. assert (k = 1) by lia. subst k.
    destruct (g_nodes g) as [|v t] eqn:V; [cbn in S; lia|]. exists [v]. split; [repeat constructor; intros []|]. split; [intros x [<-|[]]; left; auto|]. split; auto.
    intros u w. split; auto. intros [H|([<-|[]] & [<-|[]] & H)]; auto. congruence.
  - unfold count in S. destruct B as (h & Pl & H & V & S' & L' & (N & I & _) & A'); [lia|apply (fc_vertices _ F); [apply G|lia]|].
    exists h. rewrite Pl. cbn [plain clique_planted]. split; auto. split; auto. split; auto. exists S'. rewrite V in I. auto.
Qed.
(* new edges: as many as asked for, or one of two exceptions *)
Lemma edges_obtained E k g : fair E -> simple_graph g -> positive_if_given k ->
  (exists g', match k with None => Gives g | Some k => plain (add_edges (ch_new E g) g k) end = Gives g' /\ simple_graph g' /\ edges_added k g g') \/
  (exists n, k = Some n /\ ((~ can_add g n /\ plain (add_edges (ch_new E g) g n) = Raises ValueError) \/ (can_add g n /\ plain (add_edges (ch_new E g) g n) = Raises RuntimeError))).
Proof.
  intros F G P. destruct k as [k|]; [|left; exists g; cbn; auto]. specialize (P k eq_refl).
  destruct (sample_simple_errors (ch_new E g) g k G) as (S1 & S2 & S3).
  destruct (add_edges (ch_new E g) g k) as [h|e|] eqn:R.
  - assert (C : 2 <= count (g_nodes g)).
    { unfold add_edges in R. replace (k <=? 0) with false in R by (symmetry; lia). apply bind_ok in R as (es & R & _).
      destruct (Z_le_gt_dec 2 (count (g_nodes g))) as [|L]; auto. exfalso. assert (X : sample_missing_simple (ch_new E g) g k = Err ValueError).
      { apply S1. right. rewrite (can_add_count g k G). unfold length_Z. unfold count in L.
        assert (X : Z.of_nat (List.length (g_nodes g)) = 0 \/ Z.of_nat (List.length (g_nodes g)) = 1) by lia. destruct X as [X|X]; rewrite X; lia. }
      congruence. }
    left. exists h. destruct (p_C87_add _ g k G (fc_new _ F g G C)) as (_ & A). destruct (A P h R) as (H & V & es & EE & M & L).
    cbn [plain edges_added]. split; auto. split; auto. split; auto. exists es. split; auto. split; auto.
    intros u v. unfold adjacent. rewrite EE, !in_app_iff. tauto.
  - right. exists k. split; auto. cbn [plain].
    assert (R' : sample_missing_simple (ch_new E g) g k = Err e).
    { unfold add_edges in R. replace (k <=? 0) with false in R by (symmetry; lia). destruct (sample_missing_simple _ _ _); cbn in R; congruence. }
    destruct (S2 e R') as [->|(-> & L)].
    + left. split; [|rewrite R; reflexivity]. apply S1 in R' as [X|X]; [lia|auto].
    + right. split; [|rewrite R; reflexivity]. apply can_add_count; auto. pose proof (available_count g G). unfold length_Z in *. nia.
  - exfalso. unfold add_edges in R. replace (k <=? 0) with false in R by (symmetry; lia). destruct (sample_missing_simple _ _ _) eqn:X; cbn in R; congruence.
Qed.
Lemma simple_obtained E o input : fair E -> obtainable o input ->
  (exists g, obtain_simple E o input = Gives (g, rest_of_input o input) /\ from_options o input g) \/
  (so_addedges o <> None /\ (obtain_simple E o input = Raises ValueError \/ obtain_simple E o input = Raises RuntimeError)).
Proof.
  intros F (D & P & A & S). destruct (source_obtained E _ input F D) as (g & O & G & FS). pose proof (source_sized E _ input g _ G F D O) as SZ.
  destruct (clique_obtained E (so_plantclique o) g F G P) as (g1 & O1 & G1 & C1).
  { intros k K. destruct (S k K) as (n & Sz & L). specialize (SZ n Sz). lia. }
  unfold obtain_simple. rewrite O. cbn [andthen fst snd]. rewrite O1. cbn [andthen fst snd].
  destruct (edges_obtained E (so_addedges o) g1 F G1 A) as [(g2 & O2 & G2 & C2)|(n & K & [(_ & O2)|(_ & O2)])].
  - left. rewrite O2. cbn [andthen]. exists g2. split; [reflexivity|]. split; auto. exists g, g1. auto.
  - right. split; [congruence|]. left. rewrite K, O2. reflexivity.
  - right. split; [congruence|]. right. rewrite K, O2. reflexivity.
Qed.
