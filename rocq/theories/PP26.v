(* PP26.v -- C86, C87: graphs constructed and changed by the generator *)
From Coq Require Import String Ascii ZArith List Bool Lia Arith Sorted.
From Verif Require Import PyBase MSet MText MCnf MFam MFam2 MTrans MFile MGraph SpecCnf SpecFam SpecFam2 SpecGraph PLib PFam1 PFam2 PFam4 PFam8 PFile3 PGraph1 PGraph2 PGraph3 PGraph4 PGraph5.
Import ListNotations.
Open Scope Z_scope.

(* C86: bipartite_shift: the left vertex u is joined to what the pattern says, shifted by u - 1 round the right side; so all
   left vertices have the same degree *)
Lemma p_C86_shift : forall N M pattern,
  (N < 1 \/ M < 1 \/ (exists x, In x pattern /\ ~ 1 <= x <= M) -> bipartite_shift N M pattern = Err ValueError) /\
  (1 <= N -> 1 <= M -> (forall x, In x pattern -> 1 <= x <= M) ->
   exists b, bipartite_shift N M pattern = Ok b /\ bipartite_graph b /\
     (forall u, In u (b_left b) <-> 1 <= u <= N) /\ (forall v, In v (b_right b) <-> N + 1 <= v <= N + M) /\
     (forall u j, 1 <= u <= N -> 0 <= j < M -> (In (u, N + 1 + j) (b_edges b) <-> exists i, In i pattern /\ (i - 1 + (u - 1)) mod M = j)) /\
     (forall u, 1 <= u <= N -> left_degree b u = Z.of_nat (List.length (nodup Z.eq_dec pattern)))).
Proof.
  intros N M pattern. split; [apply shift_refused|]. intros HN HM HP. destruct (shift_edges N M pattern HN HM HP) as (b & E & L & R & B & K).
  exists b. split; auto. split; auto. split; [|split; [|split]].
  - intros u. rewrite L, range_In. lia.
  - intros u. rewrite R, range_In. lia.
  - intros u j Hu Hj. rewrite K. split.
    + intros (_ & i & Hi & Q). exists i. split; auto. replace (i - 1 + (u - 1)) with (i + u - 2) by lia. lia.
    + intros (i & Hi & Q). split; auto. exists i. split; auto. replace (i - 1 + (u - 1)) with (i + u - 2) in Q by lia. lia.
  - intros u Hu. apply (shift_degree N M pattern b E u Hu).
Qed.
(*EX
Example ex_C86_shift : bipartite_shift 3 4 [3; 1] =
  Ok (mkBipartite [1; 2; 3] [4; 5; 6; 7] [(1, 4); (1, 6); (2, 5); (2, 7); (3, 6); (3, 4)]) /\ bipartite_shift 3 4 [5] = Err ValueError.
Proof. split; vm_compute; reflexivity. Qed.
EX*)
(* C86: bipartite_random_left_regular: whatever random.sample gives, every left vertex has degree min(r, d) *)
Lemma p_C86_left_regular : forall sample l r d,
  (l < 0 \/ r < 0 \/ d < 0 -> bipartite_random_left_regular sample l r d = Err ValueError) /\
  (0 <= l -> 0 <= r -> 0 <= d ->
   (forall u R k, NoDup R -> 0 <= k <= Z.of_nat (List.length R) -> sampled R (Z.to_nat k) (sample u R k)) ->
   exists b, bipartite_random_left_regular sample l r d = Ok b /\ bipartite_graph b /\
     (forall u, In u (b_left b) <-> 0 <= u < l) /\ (forall v, In v (b_right b) <-> l <= v < l + r) /\
     (forall u, 0 <= u < l -> left_degree b u = Z.min r d)).
Proof.
  intros sample l r d. split; [apply left_regular_refused|]. intros Hl Hr Hd S. destruct (left_regular_edges sample l r d Hl Hr Hd) as (b & E & L & R & B & _ & D).
  - intros u Hu. apply S; [apply range_NoDup|]. rewrite range_length. lia.
  - exists b. split; auto. split; auto. split; [|split; auto].
    + intros u. rewrite L, range_In. lia.
    + intros v. rewrite R, range_In. lia.
Qed.
(*EX
(* the first elements *)
Example ex_C86_left_regular : let sample := fun (u : Z) (R : list Z) k => firstn (Z.to_nat k) R in
  bipartite_random_left_regular sample 2 3 2 = Ok (mkBipartite [0; 1] [2; 3; 4] [(0, 2); (0, 3); (1, 2); (1, 3)]) /\
  forall u R k, NoDup R -> 0 <= k <= Z.of_nat (List.length R) -> sampled R (Z.to_nat k) (sample u R k).
Proof. split; [vm_compute; reflexivity|]. intros u R k N H. apply firstn_sampled; auto. lia. Qed.
EX*)
(* C86: bipartite_random_regular: what it returns is bipartite, no vertex has more than its degree, and with l*d edges the
   graph is regular on both sides.  With r = 0 the exception is not the documented one *)
Lemma p_C86_regular : forall randint fuel l r d, fair_randint randint ->
  (l < 0 \/ r < 0 \/ d < 0 -> bipartite_random_regular randint fuel l r d = Err ValueError) /\
  (0 <= l -> 0 <= d -> r = 0 -> bipartite_random_regular randint fuel l r d = Err ZeroDivisionError) /\
  (0 <= l -> 0 < r -> 0 <= d -> (l * d) mod r <> 0 -> bipartite_random_regular randint fuel l r d = Err ValueError) /\
  (0 <= l -> 0 < r -> 0 <= d -> (l * d) mod r = 0 -> forall e, bipartite_random_regular randint fuel l r d <> Err e) /\
  (forall b, bipartite_random_regular randint fuel l r d = Ok b ->
     bipartite_graph b /\ (forall u, In u (b_left b) <-> 0 <= u < l) /\ (forall v, In v (b_right b) <-> l <= v < l + r) /\
     (forall u, 0 <= u < l -> left_degree b u <= d) /\ (forall v, l <= v < l + r -> right_degree b v <= l * d / r) /\
     Z.of_nat (List.length (b_edges b)) <= l * d /\
     (Z.of_nat (List.length (b_edges b)) = l * d ->
        (forall u, 0 <= u < l -> left_degree b u = d) /\ (forall v, l <= v < l + r -> right_degree b v = l * d / r))).
Proof.
  intros randint fuel l r d F. destruct (random_regular_errors randint fuel l r d) as (A & B & C & D). split; auto. split; auto. split; auto. split; auto.
  intros b E. destruct (random_regular_ok randint fuel l r d b F E) as (_ & _ & _ & _ & [L R G DL DR SZ FU]).
  assert (IL : forall u, In u (b_left b) <-> 0 <= u < l) by (intros u; rewrite L, range_In; lia).
  assert (IR : forall v, In v (b_right b) <-> l <= v < l + r) by (intros v; rewrite R, range_In; lia).
  split; auto. split; auto. split; auto. split; [intros u Hu; apply DL, IL; auto|]. split; [intros v Hv; apply DR, IR; auto|]. split; auto.
  intros Q. destruct (FU Q) as [F1 F2]. split; intros x Hx; [apply F1, IL; auto|apply F2, IR; auto].
Qed.
(* C86: and it need not be regular: with unlucky outcomes of randint an edge is left out *)
Lemma p_C86_regular_unlucky : exists randint b, fair_randint randint /\ bipartite_random_regular randint 1 2 2 2 = Ok b /\ left_degree b 0 = 2 /\ left_degree b 1 = 1.
Proof.
  exists (fun t lo hi => Nat.max lo (Nat.min hi (if (t =? 27)%nat then 3 else if (2 <=? t)%nat then 2 else 0))%nat). eexists.
  split; [intros t lo hi H; lia|]. split; [vm_compute; reflexivity|]. split; vm_compute; reflexivity.
Qed.
(*EX
Example ex_C86_regular : exists b, bipartite_random_regular (fun t lo hi => if (t =? 5)%nat then hi else lo) 1 2 2 2 = Ok b /\
  List.length (b_edges b) = 4%nat.
Proof. eexists. split; [vm_compute; reflexivity|]. vm_compute. reflexivity. Qed.
EX*)
(* C86: dag_pyramid: the vertices x_{h,i}, the arcs from x_{h-1,i} and x_{h-1,i+1} into x_{h,i}; the order of the vertices is
   topological, there is no cycle, the only sink is the top *)
Lemma p_C86_pyramid : forall height, let g := dag_pyramid height in
  ordered_dag g /\ (forall v, ~ named_walk g v v) /\
  (forall t, In t (n_vertices g) <-> exists h i, 0 <= h <= height /\ 0 <= i <= height - h /\ t = x_name h i) /\
  (forall s t, named_arc g s t <-> exists h i, 1 <= h <= height /\ 0 <= i <= height - h /\ t = x_name h i /\ (s = x_name (h - 1) i \/ s = x_name (h - 1) (i + 1))) /\
  (0 <= height -> forall v, named_sink g v <-> v = x_name height 0).
Proof.
  intros height g. split; [apply pyramid_ordered|]. split; [intros v; apply ordered_acyclic, pyramid_ordered|]. split; [apply pyramid_vertices|]. split; [apply pyramid_arcs|].
  intros H v. apply pyramid_sink; auto.
Qed.
(* C86: dag_complete_binary_tree: the vertices v_1 .. v_{2^(h+1)-1} in that order, the first 2^h are the leaves, the last is
   the root, every other vertex has two predecessors and every vertex but the root has one successor *)
Lemma p_C86_tree : forall height,
  (height < 0 -> dag_complete_binary_tree height = Err TypeError) /\
  (0 <= height -> exists g, dag_complete_binary_tree height = Ok g /\ ordered_dag g /\ (forall v, ~ named_walk g v v) /\
     n_vertices g = map v_name (range 1 (2 ^ (height + 1))) /\
     (forall s t, named_arc g s t -> exists a b, 1 <= a < b /\ 2 ^ height < b < 2 ^ (height + 1) /\ s = v_name a /\ t = v_name b) /\
     (forall b s, 2 ^ height < b < 2 ^ (height + 1) -> (named_arc g s (v_name b) <-> s = v_name (2 * b - 2 ^ (height + 1)) \/ s = v_name (2 * b - 2 ^ (height + 1) - 1))) /\
     (forall a t, 1 <= a < 2 ^ (height + 1) - 1 -> (named_arc g (v_name a) t <-> t = v_name (2 ^ height + (a + 1) / 2))) /\
     (forall v, named_sink g v <-> v = v_name (2 ^ (height + 1) - 1))).
Proof.
  intros height. split; [apply tree_error|]. intros H. destruct (tree_shape height H) as (g & E & V & _). exists g. split; auto.
  pose proof (tree_ordered height g H E) as O. pose proof (fun a b => tree_arcs height g a b H E) as T.
  assert (P : 2 * 2 ^ height = 2 ^ (height + 1)) by (rewrite Z.pow_add_r by lia; lia). assert (Q : 0 < 2 ^ height) by (apply Z.pow_pos_nonneg; lia).
  assert (U : forall a t, 1 <= a < 2 ^ (height + 1) - 1 -> (named_arc g (v_name a) t <-> t = v_name (2 ^ height + (a + 1) / 2))).
  { intros a t Ha. rewrite T. pose proof (Z.div_mod (a + 1) 2 ltac:(lia)) as DM. pose proof (Z.mod_pos_bound (a + 1) 2 ltac:(lia)) as MB. split.
    - intros (j & Hj & -> & [K|K]); apply v_name_inj in K; f_equal; lia.
    - intros ->. exists (2 ^ height + (a + 1) / 2). split; [lia|]. split; auto.
      destruct (Z.eq_dec ((a + 1) mod 2) 0); [right|left]; f_equal; lia. }
  split; auto. split; [intros v; apply ordered_acyclic; auto|]. split; auto. split; [|split; [|split; [exact U|]]].
  - intros s t K. apply T in K as (j & Hj & -> & [K|K]).
    + exists (2 * j - 2 ^ (height + 1)), j. split; [lia|]. split; auto.
    + exists (2 * j - 2 ^ (height + 1) - 1), j. split; [lia|]. split; auto.
  - intros b s Hb. rewrite T. split.
    + intros (j & Hj & K & L). apply v_name_inj in K. subst j. auto.
    + intros L. exists b. auto.
  - intros v. unfold named_sink. rewrite V, in_map_iff. split.
    + intros [(a & <- & Ha) S]. apply range_In in Ha. destruct (Z.eq_dec a (2 ^ (height + 1) - 1)) as [->|N]; auto. exfalso.
      apply (S (v_name (2 ^ height + (a + 1) / 2))). apply U; auto. lia.
    + intros ->. split; [eexists; split; [reflexivity|apply range_In; lia]|]. intros w K. apply T in K as (j & Hj & -> & [K|K]); apply v_name_inj in K; lia.
Qed.
(*EX
Example ex_C86_dags : List.length (n_vertices (dag_pyramid 3)) = 10%nat /\ List.length (n_arcs (dag_pyramid 3)) = 12%nat /\
  exists g, dag_complete_binary_tree 2 = Ok g /\ List.length (n_vertices g) = 7%nat /\ named_arc g (txt "v_1") (txt "v_5").
Proof.
  split; [vm_compute; reflexivity|]. split; [vm_compute; reflexivity|]. eexists. split; [vm_compute; reflexivity|]. split; [reflexivity|].
  unfold named_arc. cbn [n_arcs]. cbn [In]. auto 10.
Qed.
EX*)

(* C87: sample_missing_edges gives m edges that are missing, none twice; --addedges adds them to the graph, which stays simple *)
Lemma p_C87_sample : forall o g m, simple_graph g -> fair_pairs g o ->
  (forall es, sample_missing_simple o g m = Ok es -> missing_edges g es /\ Z.of_nat (List.length es) = m) /\
  (sample_missing_simple o g m = Err ValueError <-> m < 0 \/ ~ can_add g m) /\
  (forall e, sample_missing_simple o g m = Err e -> e = ValueError \/
     e = RuntimeError /\ 4 * (Z.of_nat (List.length (g_edges g)) + m) < Z.of_nat (List.length (g_nodes g)) * (Z.of_nat (List.length (g_nodes g)) - 1)) /\
  sample_missing_simple o g m <> OutOfFuel.
Proof.
  intros o g m G F. split; [intros es E; apply (sample_simple_ok o g m es G F E)|]. apply (sample_simple_errors o g m G).
Qed.
Lemma p_C87_add : forall o g k, simple_graph g -> fair_pairs g o ->
  (k <= 0 -> add_edges o g k = Ok g) /\
  (0 < k -> forall h, add_edges o g k = Ok h -> simple_graph h /\ g_nodes h = g_nodes g /\
     exists es, g_edges h = g_edges g ++ es /\ missing_edges g es /\ Z.of_nat (List.length es) = k).
Proof.
  intros o g k G F. split; [intros H; unfold add_edges; replace (k <=? 0) with true by (symmetry; lia); reflexivity|]. intros H h E. apply (add_edges_ok o g k h G F H E).
Qed.
(*EX
(* a path of four vertices: the three missing edges; five are too many *)
Example ex_C87_sample : let g := mkGraph [1; 2; 3; 4] [(1, 2); (2, 3); (3, 4)] in
  let o := mkOutcomes (fun _ => (1, 3)) (fun l m => firstn m l) in
  add_edges o g 2 = Ok (mkGraph [1; 2; 3; 4] [(1, 2); (2, 3); (3, 4); (1, 3); (1, 4)]) /\ add_edges o g 4 = Err ValueError /\
  fair_pairs g o.
Proof.
  split; [vm_compute; reflexivity|]. split; [vm_compute; reflexivity|]. split; [intros t; cbn; lia|]. intros l m. apply firstn_sampled.
Qed.
(* a sparse graph *)
Example ex_C87_sparse : let g := mkGraph [1; 2; 3; 4] [] in let o := mkOutcomes (fun _ => (1, 3)) (fun l m => firstn m l) in
  add_edges o g 1 = Ok (mkGraph [1; 2; 3; 4] [(1, 3)]) /\ add_edges o g 2 = Err RuntimeError.
Proof. split; vm_compute; reflexivity. Qed.
EX*)
(* C87: the same between the sides of a bipartite graph *)
Lemma p_C87_between : forall o b m, bipartite_graph b -> fair_pairs_between b o ->
  (forall h, add_missing_edges o b m = Ok h -> bipartite_graph h /\ b_left h = b_left b /\ b_right h = b_right b /\
     exists es, b_edges h = b_edges b ++ es /\ missing_between b es /\ Z.of_nat (List.length es) = m) /\
  (add_missing_edges o b m = Err ValueError <-> m < 0 \/ ~ can_add_between b m) /\
  (forall e, add_missing_edges o b m = Err e -> e = ValueError \/
     e = RuntimeError /\ 2 * (Z.of_nat (List.length (b_edges b)) + m) < Z.of_nat (List.length (b_left b)) * Z.of_nat (List.length (b_right b))).
Proof.
  intros o b m B F. split; [intros h E; apply (add_missing_ok o b m h B F E)|]. destruct (sample_between_errors o b m B) as (A & C & D).
  unfold add_missing_edges. destruct (sample_missing_bipartite o b m) as [es|e|] eqn:E; cbn [bind].
  - split; [split; [discriminate|intros H; apply A in H; discriminate]|]. intros e H. discriminate.
  - split; [rewrite <- A; split; congruence|]. intros e' H. apply C. congruence.
  - contradiction.
Qed.
(*EX
Example ex_C87_between : let b := mkBipartite [1; 2] [3; 4] [(1, 3)] in let o := mkOutcomes (fun _ => (1, 3)) (fun l m => firstn m l) in
  add_missing_edges o b 2 = Ok (mkBipartite [1; 2] [3; 4] [(1, 3); (1, 4); (2, 3)]) /\ fair_pairs_between b o.
Proof. split; [vm_compute; reflexivity|]. split; [intros t; cbn; lia|]. intros l m. apply firstn_sampled. Qed.
EX*)
(* C87: --plantclique joins k of the vertices with each other and changes nothing else *)
Lemma p_C87_clique : forall vertices g k, simple_graph g ->
  (k <= 1 -> plant_clique vertices g k = Ok g) /\
  (1 < k -> Z.of_nat (List.length (g_nodes g)) < k -> plant_clique vertices g k = Err ValueError) /\
  (1 < k <= Z.of_nat (List.length (g_nodes g)) -> sampled (g_nodes g) (Z.to_nat k) (vertices (g_nodes g) (Z.to_nat k)) ->
   exists h, plant_clique vertices g k = Ok h /\ simple_graph h /\ g_nodes h = g_nodes g /\ exists S, Z.of_nat (List.length S) = k /\ clique h S /\
     (forall u v, adjacent h u v <-> adjacent g u v \/ In u S /\ In v S /\ u <> v)).
Proof.
  intros vertices g k G. destruct (plant_clique_errors vertices g k) as [A B]. split; auto. split; auto. intros K S. apply (plant_clique_ok vertices g k G K S).
Qed.
(* C87: --plantbiclique joins l vertices on the left with r vertices on the right *)
Lemma p_C87_biclique : forall vertices b l r, bipartite_graph b ->
  (l < 0 \/ r < 0 \/ Z.of_nat (List.length (b_left b)) < l \/ Z.of_nat (List.length (b_right b)) < r -> plant_biclique vertices b l r = Err ValueError) /\
  (0 <= l <= Z.of_nat (List.length (b_left b)) -> 0 <= r <= Z.of_nat (List.length (b_right b)) ->
   sampled (b_left b) (Z.to_nat l) (vertices (b_left b) (Z.to_nat l)) -> sampled (b_right b) (Z.to_nat r) (vertices (b_right b) (Z.to_nat r)) ->
   exists h, plant_biclique vertices b l r = Ok h /\ bipartite_graph h /\ b_left h = b_left b /\ b_right h = b_right b /\
     exists S T, NoDup S /\ incl S (b_left b) /\ Z.of_nat (List.length S) = l /\ NoDup T /\ incl T (b_right b) /\ Z.of_nat (List.length T) = r /\
       (forall u v, In (u, v) (b_edges h) <-> In (u, v) (b_edges b) \/ In u S /\ In v T)).
Proof. intros vertices b l r B. split; [apply plant_biclique_errors|]. intros Hl Hr S T. apply (plant_biclique_ok vertices b l r B Hl Hr S T). Qed.
(*EX
Example ex_C87_clique : plant_clique (fun l k => firstn k (rev l)) (mkGraph [1; 2; 3; 4] [(3, 4)]) 3 = Ok (mkGraph [1; 2; 3; 4] [(3, 4); (4, 2); (3, 2)]) /\
  sampled [1; 2; 3; 4] 3 [4; 3; 2] /\
  plant_biclique (fun l k => firstn k l) (mkBipartite [1; 2] [3; 4] [(2, 3)]) 1 2 = Ok (mkBipartite [1; 2] [3; 4] [(2, 3); (1, 3); (1, 4)]).
Proof.
  split; [vm_compute; reflexivity|]. split; [|vm_compute; reflexivity]. split; [repeat constructor; cbn; lia|]. split; [|reflexivity]. intros x H. cbn in *. tauto.
Qed.
EX*)
