(* PGenCmd2.v -- the bipartite and the directed graphs that the command line of the bundled generator obtains. *)
From Coq Require Import String Ascii ZArith List Bool Lia Arith Sorted Permutation.
From Verif Require Import Spec SpecInput SpecFile PyBase MSet MText MCnf MFam MFam2 MFile MTrans MTool MGraph MGenCmd SpecCnf SpecFam SpecFam2 SpecTrans SpecTool SpecGraph SpecGenCmd.
From Verif Require Import PLib PCnf2 PFam1 PFam2 PFam3 PFam4 PFam5 PFam8 PFam12 PFam13 PFile3 PFile4 PGraph1 PGraph2 PGraph3 PGraph4 PGraph5 PP24 PP25 PP26 PGenCmd1.
Import ListNotations.
Open Scope Z_scope.

Lemma complete_between l r : bipartite_graph (complete_bipartite l r) /\ sides (complete_bipartite l r) l r /\
  forall u v, In (u, v) (b_edges (complete_bipartite l r)) <-> 0 <= u < l /\ l <= v < l + r.
Proof.
  assert (E : forall u v, In (u, v) (b_edges (complete_bipartite l r)) <-> 0 <= u < l /\ l <= v < l + r).
  { intros u v. cbn [complete_bipartite b_edges]. rewrite in_flat_map. split.
    - intros (x & Hx & H). apply in_map_iff in H as (y & Ey & Hy). injection Ey as -> ->. rewrite range_In in *. auto.
    - intros (Hu & Hv). exists u. rewrite range_In. split; auto. apply in_map. rewrite range_In. auto. }
  split; [|split; [|exact E]].
  - constructor.
    + apply range_NoDup.
    + apply range_NoDup.
    + cbn [complete_bipartite b_edges]. generalize (range_NoDup 0 l). generalize (range 0 l). intros L. induction 1 as [|x L NI N IH]; [constructor|]. cbn [flat_map].
      apply NoDup_app_intro; auto.
      * apply FinFun.Injective_map_NoDup; [intros a b; congruence|apply range_NoDup].
      * intros [a b] H1 H2. apply in_map_iff in H1 as (c & Ec & _). injection Ec as -> ->. apply in_flat_map in H2 as (d & Hd & H2). apply in_map_iff in H2 as (c & Ec & _).
        injection Ec as -> ->. auto.
    + intros u v H. apply E in H. cbn [complete_bipartite b_left b_right]. rewrite !range_In. auto.
    + intros v. cbn [complete_bipartite b_left b_right]. rewrite !range_In. lia.
  - split; intros v; cbn [complete_bipartite b_left b_right]; rewrite range_In; lia.
Qed.
Definition after_bipartite (s : bipartite_source) (input : text) : text := match s with B_stdin _ => [] | _ => input end.
Lemma side_count l a n : NoDup l -> (forall v, In v l <-> a <= v < a + n) -> 0 <= n -> count l = n.
Proof.
  intros N V Hn. assert (P : Permutation l (range a (a + n))) by (apply NoDup_Permutation; auto; [apply range_NoDup|]; intros x; rewrite (V x), range_In; lia).
  unfold count. rewrite (Permutation_length P), range_length. lia.
Qed.
Definition regular_source (s : bipartite_source) : Prop := match s with B_bregular _ _ _ => True | _ => False end.
Lemma sorted_In l x : In x (sort_by Z.ltb l) <-> In x l.
Proof. split; apply Permutation_in; [|symmetry]; apply sort_by_Perm. Qed.
Lemma bipartite_source_obtained E s input : fair E -> delivers_bipartite s input ->
  (exists b, source_bipartite E s input = Gives (b, after_bipartite s input) /\ bipartite_graph b /\ from_bipartite_source s input b) \/
  (regular_source s /\ source_bipartite E s input = Runs).
Proof.
  intros F D. destruct s as [l r|l r m|l r d|l r d|values|l r|f]; cbn [delivers_bipartite from_bipartite_source source_bipartite after_bipartite regular_source] in *.
  - left. destruct D as (D1 & D2). destruct (fc_bp _ F l r D1 D2) as (G & S). eauto.
  - left. destruct D as (D1 & D2 & D3). destruct (fc_bm _ F l r m D1 D2 ltac:(lia)) as (G & S & C). exists (ch_bm E l r m). split; auto. split; auto. split; auto. intros A B. apply C; auto. lia.
  - left. destruct D as (D1 & D2 & D3). destruct (p_C86_left_regular (ch_left E) l r d) as (_ & H). destruct H as (b & R & G & S1 & S2 & Dg); [lia|lia|lia|apply (fc_left _ F)|].
    exists b. rewrite R. cbn [plain andthen]. split; auto. split; auto. split; [split; auto|]. intros u Hu. rewrite (Dg u Hu). lia.
  - destruct D as (D1 & D2 & D3 & D4). destruct (p_C86_regular (ch_randint E) (ch_steps E) l r d (fc_randint _ F)) as (_ & _ & _ & H & K). specialize (H ltac:(lia) D2 ltac:(lia) D4).
    destruct (bipartite_random_regular (ch_randint E) (ch_steps E) l r d) as [b|e|] eqn:R.
    + left. destruct (K b eq_refl) as (G & S1 & S2 & L1 & L2 & _). exists b. cbn [plain andthen]. split; auto. split; auto. split; [split; auto|]. auto.
    + exfalso. apply (H e eq_refl).
    + right. auto.
  - left. destruct values as [|N [|M pattern]]; try contradiction. destruct D as (D1 & D2 & D3 & D4). cbn [shift_of].
    destruct (p_C86_shift N M (sort_by Z.ltb pattern)) as (_ & H). destruct H as (b & R & G & S1 & S2 & Ed & _); [lia|lia|intros x Hx; apply D4, sorted_In; auto|].
    exists b. rewrite R. cbn [plain andthen]. split; auto. split; auto. split; auto. split; auto. intros u j Hu Hj. rewrite (Ed u j Hu Hj).
    split; intros (i & Hi & X); exists i; (split; [apply sorted_In; auto|auto]).
  - left. exists (complete_bipartite l r). destruct (complete_between l r) as (G & S & Ed). auto.
  - left. destruct f; try contradiction. destruct D as (lines & name & n & adj & L & -> & K & NL). destruct (p_C84_bipartite lines name n adj L K) as (_ & H2 & H3 & _).
    destruct (H3 NL) as (f & R & Lf). assert (loop : forall v, ~ listed adj v v).
    { intros v X. assert (X' := X). destruct X' as (us & I & _). apply (NL v v us X I). }
    destruct (H2 f R loop) as (G & V & Ed). exists (to_bipartite f). cbn [read_bipartite]. rewrite R. cbn [bind exit_on_value_error plain andthen]. split; auto. split; auto.
    exists lines, name, n, adj. split; auto. split; auto. split; auto. split; auto. split; auto. intros u v. rewrite (Ed u v), (Lf u). split.
    + intros ((us & I) & [X|X]); auto. exfalso. apply (NL u v us X I).
    + intros X. split; auto. destruct X as (us & I & _). eauto.
Qed.
Lemma bipartite_sized s input b l r : bipartite_graph b -> delivers_bipartite s input -> from_bipartite_source s input b -> sizes_of s input l r ->
  l = count (b_left b) /\ r = count (b_right b).
Proof.
  intros G D FS S. assert (X : forall l r, sides b l r -> 0 <= l -> 0 <= r -> l = count (b_left b) /\ r = count (b_right b)).
  { intros l' r' (A & B) H1 H2. split; symmetry; [apply (side_count _ 0)|apply (side_count _ l')]; auto; try apply G. }
  destruct s as [l' r'|l' r' m|l' r' d|l' r' d|values|l' r'|f]; cbn [delivers_bipartite from_bipartite_source sizes_of] in *; try contradiction.
  1-4,6: destruct S as (-> & ->); apply X; [apply FS|lia|lia].
  destruct values as [|N [|M pattern]]; try contradiction. destruct S as (-> & ->), FS as (A & B & _). split; symmetry; [apply (side_count _ 1)|apply (side_count _ (N + 1))]; try apply G; try lia.
  - intros v. rewrite A. lia.
  - intros v. rewrite B. lia.
Qed.
Lemma biclique_obtained E lr b : fair E -> bipartite_graph b -> (forall l r, lr = Some (l, r) -> 0 < l <= count (b_left b) /\ 0 < r <= count (b_right b)) ->
  exists h, match lr with None => Gives b | Some (l, r) => plain (plant_biclique (ch_vertices E) b l r) end = Gives h /\ bipartite_graph h /\ biclique_planted lr b h.
Proof.
  intros F G P. destruct lr as [[l r]|]; [|exists b; cbn; auto]. destruct (P l r eq_refl) as (P1 & P2). unfold count in *.
  destruct (p_C87_biclique (ch_vertices E) b l r G) as (_ & H). destruct H as (h & R & H & L & Rt & S & T & X); [lia|lia|apply (fc_vertices _ F); [apply G|lia]|apply (fc_vertices _ F); [apply G|lia]|].
  exists h. rewrite R. cbn [plain biclique_planted]. split; auto. split; auto. split; auto. split; auto. exists S, T. exact X.
Qed.
Lemma between_obtained E k b : fair E -> bipartite_graph b -> positive_if_given k ->
  (exists h, match k with None => Gives b | Some k => plain (add_missing_edges (ch_new_between E b) b k) end = Gives h /\ bipartite_graph h /\ edges_added_between k b h) \/
  (exists n, k = Some n /\ ((~ can_add_between b n /\ plain (add_missing_edges (ch_new_between E b) b n) = Raises ValueError) \/ (can_add_between b n /\ plain (add_missing_edges (ch_new_between E b) b n) = Raises RuntimeError))).
Proof.
  intros F G P. destruct k as [k|]; [|left; exists b; cbn; auto]. specialize (P k eq_refl).
  destruct (sample_between_errors (ch_new_between E b) b k G) as (S1 & S2 & S3).
  destruct (add_missing_edges (ch_new_between E b) b k) as [h|e|] eqn:R.
  - assert (C : b_left b <> [] /\ b_right b <> []).
    { unfold add_missing_edges in R. apply bind_ok in R as (es & R & _).
      assert (X : b_left b = [] \/ b_right b = [] -> False).
      { intros X. assert (Y : sample_missing_bipartite (ch_new_between E b) b k = Err ValueError).
        { apply S1. right. rewrite (can_add_between_count b k G). unfold length_Z. destruct X as [X|X]; rewrite X; cbn [List.length]; lia. }
        congruence. }
      split; auto. }
    left. exists h. destruct (p_C87_between _ b k G (fc_new_between _ F b G (proj1 C) (proj2 C))) as (A & _). destruct (A h R) as (H & V & W & es & EE & M & L).
    cbn [plain edges_added_between]. split; auto. split; auto. split; auto. split; auto. exists es. auto.
  - right. exists k. split; auto.
    assert (R' : sample_missing_bipartite (ch_new_between E b) b k = Err e).
    { unfold add_missing_edges in R. destruct (sample_missing_bipartite _ _ _); cbn in R; congruence. }
    destruct (S2 e R') as [->|(-> & L)].
    + left. split; [|rewrite R; reflexivity]. apply S1 in R' as [X|X]; [lia|auto].
    + right. split; [|rewrite R; reflexivity]. apply can_add_between_count; auto. pose proof (available_between_count b G). unfold length_Z in *. lia.
  - exfalso. unfold add_missing_edges in R. destruct (sample_missing_bipartite _ _ _) eqn:X; cbn in R; congruence.
Qed.
Lemma bipartite_obtained E o input : fair E -> obtainable_bipartite o input ->
  (exists b, obtain_bipartite E o input = Gives (b, after_bipartite (bo_source o) input) /\ from_bipartite_options o input b) \/
  (bo_addedges o <> None /\ (obtain_bipartite E o input = Raises ValueError \/ obtain_bipartite E o input = Raises RuntimeError)) \/
  (regular_source (bo_source o) /\ obtain_bipartite E o input = Runs).
Proof.
  intros F (D & A & S). unfold obtain_bipartite.
  destruct (bipartite_source_obtained E _ input F D) as [(b & O & G & FS)|(Rg & O)]; [|right; right; rewrite O; auto].
  destruct (biclique_obtained E (bo_plantbiclique o) b F G) as (b1 & O1 & G1 & C1).
  { intros l r K. destruct (S l r K) as (P1 & P2 & l' & r' & Sz & L1 & L2). destruct (bipartite_sized _ input b l' r' G D FS Sz) as (-> & ->). lia. }
  rewrite O. cbn [andthen fst snd]. rewrite O1. cbn [andthen fst snd].
  destruct (between_obtained E (bo_addedges o) b1 F G1 A) as [(b2 & O2 & G2 & C2)|(n & K & [(_ & O2)|(_ & O2)])].
  - left. rewrite O2. cbn [andthen]. exists b2. split; [reflexivity|]. split; auto. exists b, b1. auto.
  - right. left. split; [congruence|]. left. rewrite K, O2. reflexivity.
  - right. left. split; [congruence|]. right. rewrite K, O2. reflexivity.
Qed.

(* ---- directed graphs ---- *)
Lemma position_of_bounds t l : In t l -> 1 <= position_of t l <= count l.
Proof.
  intros H. unfold position_of, count. destruct (position_In t l 1 H) as (k & E). rewrite E. apply position_Some in E. lia.
Qed.
Lemma position_before l u v : NoDup l -> listed_before l u v -> position_of u l < position_of v l.
Proof.
  intros N H. apply before_pairs, pairs_nth in H as (i & j & L & Hu & Hv). unfold position_of.
  assert (P : forall k x, nth_error l k = Some x -> position x l 1 = Some (1 + Z.of_nat k)).
  { intros k x E. assert (K : (k < List.length l)%nat) by (apply nth_error_Some; congruence). rewrite <- (nth_error_nth l k [] E). apply position_nth; auto. }
  rewrite (P i u Hu), (P j v Hv). lia.
Qed.
Lemma numbered_ok g : ordered_dag g -> proper_digraph (numbered g) /\ acyclic (numbered g) /\ count (d_nodes (numbered g)) = count (n_vertices g).
Proof.
  intros [N _ O]. assert (A : forall u v, arc (numbered g) u v -> 1 <= u /\ u < v /\ v <= count (n_vertices g)).
  { intros u v H. unfold arc in H. cbn [numbered d_edges] in H. apply in_map_iff in H as ([s t] & E & H). cbn [fst snd] in E. injection E as <- <-.
    specialize (O s t H). pose proof (position_before _ s t N O) as L. destruct O as (a & b & c & X).
    assert (Is : In s (n_vertices g)) by (rewrite X; apply in_or_app; right; left; auto).
    assert (It : In t (n_vertices g)) by (rewrite X; apply in_or_app; right; right; apply in_or_app; right; left; auto).
    pose proof (position_of_bounds s _ Is). pose proof (position_of_bounds t _ It). lia. }
  split; [|split].
  - constructor; [apply range_NoDup|]. intros u v H. apply A in H. cbn [numbered d_nodes]. rewrite !range_In. unfold count in *. lia.
  - intros v W. assert (X : forall a b, walk (numbered g) a b -> a < b).
    { induction 1 as [a b H|a b c H _ IH]; apply A in H; lia. }
    apply X in W. lia.
  - unfold count. cbn [numbered d_nodes]. rewrite range_length. lia.
Qed.
Lemma position_skip t (a b : list text) c : ~ In t a -> position t (a ++ b) c = position t b (c + Z.of_nat (List.length a)).
Proof.
  revert c. induction a as [|x a IH]; intros c N; cbn [app position List.length]; [f_equal; lia|].
  destruct (text_eqb_spec t x) as [->|_]; [exfalso; apply N; left; auto|]. rewrite IH by (intros K; apply N; right; auto). f_equal. lia.
Qed.
Lemma position_keep t (a b : list text) c : In t a -> position t (a ++ b) c = position t a c.
Proof.
  revert c. induction a as [|x a IH]; intros c H; [destruct H|]. cbn [app position].
  destruct (text_eqb_spec t x) as [->|Ne]; [auto|]. apply IH. destruct H as [->|H]; [congruence|auto].
Qed.
Lemma position_row (f : Z -> text) (m k c : Z) : (forall a b, f a = f b -> a = b) -> forall s, s <= k < m -> position (f k) (map f (range s m)) c = Some (c + k - s).
Proof.
  intros I s H. remember (Z.to_nat (k - s)) as n eqn:En. revert s c H En. induction n as [|n IH]; intros s c H En; rewrite range_cons by lia; cbn [map position].
  - replace s with k by lia. destruct (text_eqb_spec (f k) (f k)) as [_|N]; [f_equal; lia|congruence].
  - destruct (text_eqb_spec (f k) (f s)) as [K|_]; [apply I in K; lia|]. rewrite IH by lia. f_equal. lia.
Qed.
(* twice the number of vertices in the rows k .. r-1 *)
Lemma pyramid_position h r i : 0 <= r <= h -> 0 <= i <= h - r -> forall k c, 0 <= k <= r ->
  exists p, position (pyramid_vertex r i) (flat_map (fun j => map (pyramid_vertex j) (range 0 (h - j + 1))) (range k (h + 1))) c = Some p /\
    2 * (p - c - i) = r * (2 * h + 3 - r) - k * (2 * h + 3 - k).
Proof.
  intros Hr Hi k c Hk. remember (Z.to_nat (r - k)) as m eqn:Em. revert k c Hk Em. induction m as [|m IH]; intros k c Hk Em; rewrite (range_cons k) by lia; cbn [flat_map].
  - replace k with r by lia. rewrite position_keep by (apply in_map; apply range_In; lia).
    rewrite position_row by (try lia; intros a b K; apply x_name_inj in K; lia). eexists. split; [reflexivity|]. lia.
  - rewrite position_skip by (rewrite in_map_iff; intros (x & K & _); apply x_name_inj in K; lia). rewrite map_length, range_length.
    destruct (IH (k + 1) (c + Z.of_nat (Z.to_nat (h - k + 1 - 0)))) as (p & E & Q); [lia|lia|]. exists p. split; [exact E|]. nia.
Qed.
Lemma pyramid_placed h r i : 0 <= r <= h -> 0 <= i <= h - r -> position_of (x_name r i) (n_vertices (dag_pyramid h)) = pyramid_place h r i.
Proof.
  intros Hr Hi. destruct (pyramid_position h r i Hr Hi 0 1 ltac:(lia)) as (p & E & Q). unfold position_of. cbn [dag_pyramid n_vertices]. change (x_name r i) with (pyramid_vertex r i).
  rewrite E. unfold pyramid_place. assert (D : r * (2 * h + 3 - r) = (p - 1 - i) * 2) by lia. rewrite D, Z.div_mul by lia. lia.
Qed.
Lemma pyramid_count h : 0 <= h -> 2 * count (n_vertices (dag_pyramid h)) = (h + 1) * (h + 2).
Proof.
  intros H. unfold count. cbn [dag_pyramid n_vertices].
  assert (X : forall k, 0 <= k <= h + 1 -> 2 * Z.of_nat (List.length (flat_map (fun j => map (pyramid_vertex j) (range 0 (h - j + 1))) (range k (h + 1)))) = (h + 1 - k) * (h + 2 - k)).
  { intros k Hk. remember (Z.to_nat (h + 1 - k)) as m eqn:Em. revert k Hk Em. induction m as [|m IH]; intros k Hk Em.
    - rewrite range_nil by lia. cbn [flat_map List.length]. replace (h + 1 - k) with 0 by lia. lia.
    - rewrite range_cons by lia. cbn [flat_map]. rewrite app_length, map_length, range_length. rewrite Nat2Z.inj_add, Z.mul_add_distr_l, IH by lia. nia. }
  rewrite (X 0) by lia. f_equal; lia.
Qed.
Lemma dag_obtained s input : delivers_dag s input -> exists d, obtain_dag s input = Gives (d, rest_after_dag s input) /\ from_dag_source s input d.
Proof.
  intros D. destruct s as [h|h|f]; cbn [delivers_dag obtain_dag rest_after_dag] in *.
  - destruct (p_C86_tree h) as (_ & T). destruct T as (g & R & O & _ & V & Ar & Ch & _); [lia|]. rewrite R. cbn [plain andthen]. exists (numbered g). split; auto.
    destruct (numbered_ok g O) as (P & A & C). split; auto. split; auto.
    assert (Q : 0 < 2 ^ h) by (apply Z.pow_pos_nonneg; lia). assert (D2 : 2 ^ (h + 1) = 2 * 2 ^ h) by (rewrite Z.pow_add_r by lia; lia).
    assert (Pl : forall a, 1 <= a < 2 ^ (h + 1) -> position_of (v_name a) (n_vertices g) = a).
    { intros a Ha. unfold position_of. rewrite V, position_row by (auto; exact v_name_inj). lia. }
    split. { cbn [numbered d_nodes]. rewrite V, map_length, range_length. f_equal. lia. }
    intros u v. unfold arc. cbn [numbered d_edges]. rewrite in_map_iff. split.
    + intros ([s t] & E & K). cbn [fst snd] in E. destruct (Ar s t K) as (a & b & Hab & Hb & -> & ->). apply Ch in K; [|auto].
      rewrite !Pl in E by lia. assert (u = a /\ v = b) as [-> ->] by (split; congruence). split; auto. destruct K as [K|K]; apply v_name_inj in K; auto.
    + intros (Hv & K). exists (v_name u, v_name v). cbn [fst snd]. rewrite !Pl by lia. split; auto. apply (Ch v); auto. destruct K as [-> | ->]; auto.
  - destruct (p_C86_pyramid h) as (O & _). exists (numbered (dag_pyramid h)). split; auto. destruct (numbered_ok _ O) as (P & A & C). split; auto. split; auto.
    destruct (p_C86_pyramid h) as (_ & _ & _ & Ar & _). split.
    + assert (X : d_nodes (numbered (dag_pyramid h)) = range 1 (count (n_vertices (dag_pyramid h)) + 1)) by reflexivity. rewrite X. f_equal. f_equal.
      pose proof (pyramid_count h ltac:(lia)) as PC. unfold pyramid_place.
      assert (E : h * (2 * h + 3 - h) = (count (n_vertices (dag_pyramid h)) - 1) * 2) by lia. rewrite E, Z.div_mul by lia. lia.
    + intros u v. unfold arc. cbn [numbered d_edges]. rewrite in_map_iff. split.
      * intros ([s t] & E & K). cbn [fst snd] in E. apply Ar in K as (r & i & Hr & Hi & -> & K). exists r, i. split; auto. split; auto.
        rewrite (pyramid_placed h r i) in E by lia. split; [congruence|].
        destruct K as [-> | ->]; rewrite pyramid_placed in E by lia; [left|right]; congruence.
      * intros (r & i & Hr & Hi & -> & K). exists (if u =? pyramid_place h (r - 1) i then x_name (r - 1) i else x_name (r - 1) (i + 1), x_name r i). cbn [fst snd].
        rewrite (pyramid_placed h r i) by lia. destruct (Z.eqb_spec u (pyramid_place h (r - 1) i)) as [-> |Nu].
        -- rewrite pyramid_placed by lia. split; auto. apply Ar. exists r, i. auto.
        -- destruct K as [K| ->]; [contradiction|]. rewrite pyramid_placed by lia. split; auto. apply Ar. exists r, i. auto.
  - destruct f; try contradiction. destruct D as (lines & name & n & adj & height & L & -> & K & Hh). destruct (p_C84_digraph lines name n adj L K) as (f & _ & _ & P & V & A & _ & R & _).
    assert (Ac : acyclic (to_digraph f)).
    { intros v W. assert (X : forall a b, walk (to_digraph f) a b -> (height b < height a)%nat).
      { induction 1 as [a b H|a b c H _ IH]; apply A, Hh in H; lia. }
      apply X in W. lia. }
    exists (to_digraph f). cbn [read_dag]. rewrite (R Ac). cbn [bind exit_on_value_error plain andthen]. split; auto. split; auto. split; auto. exists lines, name, n, adj. auto 6.
Qed.
