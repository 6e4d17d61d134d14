(* Properties26.v -- generated by tools/genprops.py from PP26.v: property theorems, their
   assumptions, and examples showing that the hypotheses are met.  Proofs are in PP26.v. *)
From Coq Require Import String Ascii ZArith List Bool Lia Arith Sorted.
From Verif Require Import PyBase MSet MText MCnf MFam MFam2 MTrans MFile MGraph SpecCnf SpecFam SpecFam2 SpecGraph PLib PFam1 PFam2 PFam4 PFam8 PFile3 PGraph1 PGraph2 PGraph3 PGraph4 PGraph5.
Import ListNotations.
From Verif Require Import PP26.
Open Scope Z_scope.

(* C86: bipartite_shift: the left vertex u is joined to what the pattern says, shifted by u - 1 round the right side; so all
   left vertices have the same degree *)
Theorem C86_shift : forall N M pattern,
  (N < 1 \/ M < 1 \/ (exists x, In x pattern /\ ~ 1 <= x <= M) -> bipartite_shift N M pattern = Err ValueError) /\
  (1 <= N -> 1 <= M -> (forall x, In x pattern -> 1 <= x <= M) ->
   exists b, bipartite_shift N M pattern = Ok b /\ bipartite_graph b /\
     (forall u, In u (b_left b) <-> 1 <= u <= N) /\ (forall v, In v (b_right b) <-> N + 1 <= v <= N + M) /\
     (forall u j, 1 <= u <= N -> 0 <= j < M -> (In (u, N + 1 + j) (b_edges b) <-> exists i, In i pattern /\ (i - 1 + (u - 1)) mod M = j)) /\
     (forall u, 1 <= u <= N -> left_degree b u = Z.of_nat (List.length (nodup Z.eq_dec pattern)))).
Proof. exact p_C86_shift. Qed.
Print Assumptions C86_shift.

Example ex_C86_shift : bipartite_shift 3 4 [3; 1] =
  Ok (mkBipartite [1; 2; 3] [4; 5; 6; 7] [(1, 4); (1, 6); (2, 5); (2, 7); (3, 6); (3, 4)]) /\ bipartite_shift 3 4 [5] = Err ValueError.
Proof. split; vm_compute; reflexivity. Qed.

(* C86: bipartite_random_left_regular: whatever random.sample gives, every left vertex has degree min(r, d) *)
Theorem C86_left_regular : forall sample l r d,
  (l < 0 \/ r < 0 \/ d < 0 -> bipartite_random_left_regular sample l r d = Err ValueError) /\
  (0 <= l -> 0 <= r -> 0 <= d ->
   (forall u R k, NoDup R -> 0 <= k <= Z.of_nat (List.length R) -> sampled R (Z.to_nat k) (sample u R k)) ->
   exists b, bipartite_random_left_regular sample l r d = Ok b /\ bipartite_graph b /\
     (forall u, In u (b_left b) <-> 0 <= u < l) /\ (forall v, In v (b_right b) <-> l <= v < l + r) /\
     (forall u, 0 <= u < l -> left_degree b u = Z.min r d)).
Proof. exact p_C86_left_regular. Qed.
Print Assumptions C86_left_regular.

(* the first elements *)
Example ex_C86_left_regular : let sample := fun (u : Z) (R : list Z) k => firstn (Z.to_nat k) R in
  bipartite_random_left_regular sample 2 3 2 = Ok (mkBipartite [0; 1] [2; 3; 4] [(0, 2); (0, 3); (1, 2); (1, 3)]) /\
  forall u R k, NoDup R -> 0 <= k <= Z.of_nat (List.length R) -> sampled R (Z.to_nat k) (sample u R k).
Proof. split; [vm_compute; reflexivity|]. intros u R k N H. apply firstn_sampled; auto. lia. Qed.

(* C86: bipartite_random_regular: what it returns is bipartite, no vertex has more than its degree, and with l*d edges the
   graph is regular on both sides.  With r = 0 the exception is not the documented one *)
Theorem C86_regular : forall randint fuel l r d, fair_randint randint ->
  (l < 0 \/ r < 0 \/ d < 0 -> bipartite_random_regular randint fuel l r d = Err ValueError) /\
  (0 <= l -> 0 <= d -> r = 0 -> bipartite_random_regular randint fuel l r d = Err ZeroDivisionError) /\
  (0 <= l -> 0 < r -> 0 <= d -> (l * d) mod r <> 0 -> bipartite_random_regular randint fuel l r d = Err ValueError) /\
  (0 <= l -> 0 < r -> 0 <= d -> (l * d) mod r = 0 -> forall e, bipartite_random_regular randint fuel l r d <> Err e) /\
  (forall b, bipartite_random_regular randint fuel l r d = Ok b ->
     bipartite_graph b /\ (forall u, In u (b_left b) <-> 0 <= u < l) /\ (forall v, In v (b_right b) <-> l <= v < l + r) /\
     (forall u, 0 <= u < l -> left_degree b u <= d) /\ (forall v, l <= v < l + r -> right_degree b v <= l * d / r) /\
     Z.of_nat (List.length (b_edges b)) <= l * d /\
     (Z.of_nat (List.length (b_edges b)) = l * d ->
        (forall u, 0 <= u < l -> left_degree b u = d) /\ (forall v, l <= v < l + r -> right_degree b v = l * d / r))).
Proof. exact p_C86_regular. Qed.
Print Assumptions C86_regular.

(* C86: and it need not be regular: with unlucky outcomes of randint an edge is left out *)
Theorem C86_regular_unlucky : exists randint b, fair_randint randint /\ bipartite_random_regular randint 1 2 2 2 = Ok b /\ left_degree b 0 = 2 /\ left_degree b 1 = 1.
Proof. exact p_C86_regular_unlucky. Qed.
Print Assumptions C86_regular_unlucky.

Example ex_C86_regular : exists b, bipartite_random_regular (fun t lo hi => if (t =? 5)%nat then hi else lo) 1 2 2 2 = Ok b /\
  List.length (b_edges b) = 4%nat.
Proof. eexists. split; [vm_compute; reflexivity|]. vm_compute. reflexivity. Qed.

(* C86: dag_pyramid: the vertices x_{h,i}, the arcs from x_{h-1,i} and x_{h-1,i+1} into x_{h,i}; the order of the vertices is
   topological, there is no cycle, the only sink is the top *)
Theorem C86_pyramid : forall height, let g := dag_pyramid height in
  ordered_dag g /\ (forall v, ~ named_walk g v v) /\
  (forall t, In t (n_vertices g) <-> exists h i, 0 <= h <= height /\ 0 <= i <= height - h /\ t = x_name h i) /\
  (forall s t, named_arc g s t <-> exists h i, 1 <= h <= height /\ 0 <= i <= height - h /\ t = x_name h i /\ (s = x_name (h - 1) i \/ s = x_name (h - 1) (i + 1))) /\
  (0 <= height -> forall v, named_sink g v <-> v = x_name height 0).
Proof. exact p_C86_pyramid. Qed.
Print Assumptions C86_pyramid.

(* C86: dag_complete_binary_tree: the vertices v_1 .. v_{2^(h+1)-1} in that order, the first 2^h are the leaves, the last is
   the root, every other vertex has two predecessors and every vertex but the root has one successor *)
Theorem C86_tree : forall height,
  (height < 0 -> dag_complete_binary_tree height = Err TypeError) /\
  (0 <= height -> exists g, dag_complete_binary_tree height = Ok g /\ ordered_dag g /\ (forall v, ~ named_walk g v v) /\
     n_vertices g = map v_name (range 1 (2 ^ (height + 1))) /\
     (forall s t, named_arc g s t -> exists a b, 1 <= a < b /\ 2 ^ height < b < 2 ^ (height + 1) /\ s = v_name a /\ t = v_name b) /\
     (forall b s, 2 ^ height < b < 2 ^ (height + 1) -> (named_arc g s (v_name b) <-> s = v_name (2 * b - 2 ^ (height + 1)) \/ s = v_name (2 * b - 2 ^ (height + 1) - 1))) /\
     (forall a t, 1 <= a < 2 ^ (height + 1) - 1 -> (named_arc g (v_name a) t <-> t = v_name (2 ^ height + (a + 1) / 2))) /\
     (forall v, named_sink g v <-> v = v_name (2 ^ (height + 1) - 1))).
Proof. exact p_C86_tree. Qed.
Print Assumptions C86_tree.

Example ex_C86_dags : List.length (n_vertices (dag_pyramid 3)) = 10%nat /\ List.length (n_arcs (dag_pyramid 3)) = 12%nat /\
  exists g, dag_complete_binary_tree 2 = Ok g /\ List.length (n_vertices g) = 7%nat /\ named_arc g (txt "v_1") (txt "v_5").
Proof.
  split; [vm_compute; reflexivity|]. split; [vm_compute; reflexivity|]. eexists. split; [vm_compute; reflexivity|]. split; [reflexivity|].
  unfold named_arc. cbn [n_arcs]. cbn [In]. auto 10.
Qed.

(* C87: sample_missing_edges gives m edges that are missing, none twice; --addedges adds them to the graph, which stays simple *)
Theorem C87_sample : forall o g m, simple_graph g -> fair_pairs g o ->
  (forall es, sample_missing_simple o g m = Ok es -> missing_edges g es /\ Z.of_nat (List.length es) = m) /\
  (sample_missing_simple o g m = Err ValueError <-> m < 0 \/ ~ can_add g m) /\
  (forall e, sample_missing_simple o g m = Err e -> e = ValueError \/
     e = RuntimeError /\ 4 * (Z.of_nat (List.length (g_edges g)) + m) < Z.of_nat (List.length (g_nodes g)) * (Z.of_nat (List.length (g_nodes g)) - 1)) /\
  sample_missing_simple o g m <> OutOfFuel.
Proof. exact p_C87_sample. Qed.
Print Assumptions C87_sample.

Theorem C87_add : forall o g k, simple_graph g -> fair_pairs g o ->
  (k <= 0 -> add_edges o g k = Ok g) /\
  (0 < k -> forall h, add_edges o g k = Ok h -> simple_graph h /\ g_nodes h = g_nodes g /\
     exists es, g_edges h = g_edges g ++ es /\ missing_edges g es /\ Z.of_nat (List.length es) = k).
Proof. exact p_C87_add. Qed.
Print Assumptions C87_add.

(* a path of four vertices: the three missing edges; five are too many *)
Example ex_C87_sample : let g := mkGraph [1; 2; 3; 4] [(1, 2); (2, 3); (3, 4)] in
  let o := mkOutcomes (fun _ => (1, 3)) (fun l m => firstn m l) in
  add_edges o g 2 = Ok (mkGraph [1; 2; 3; 4] [(1, 2); (2, 3); (3, 4); (1, 3); (1, 4)]) /\ add_edges o g 4 = Err ValueError /\
  fair_pairs g o.
Proof.
  split; [vm_compute; reflexivity|]. split; [vm_compute; reflexivity|]. split; [intros t; cbn; lia|]. intros l m. apply firstn_sampled.
Qed.
(* a sparse graph *)
Example ex_C87_sparse : let g := mkGraph [1; 2; 3; 4] [] in let o := mkOutcomes (fun _ => (1, 3)) (fun l m => firstn m l) in
  add_edges o g 1 = Ok (mkGraph [1; 2; 3; 4] [(1, 3)]) /\ add_edges o g 2 = Err RuntimeError.
Proof. split; vm_compute; reflexivity. Qed.

(* C87: the same between the sides of a bipartite graph *)
Theorem C87_between : forall o b m, bipartite_graph b -> fair_pairs_between b o ->
  (forall h, add_missing_edges o b m = Ok h -> bipartite_graph h /\ b_left h = b_left b /\ b_right h = b_right b /\
     exists es, b_edges h = b_edges b ++ es /\ missing_between b es /\ Z.of_nat (List.length es) = m) /\
  (add_missing_edges o b m = Err ValueError <-> m < 0 \/ ~ can_add_between b m) /\
  (forall e, add_missing_edges o b m = Err e -> e = ValueError \/
     e = RuntimeError /\ 2 * (Z.of_nat (List.length (b_edges b)) + m) < Z.of_nat (List.length (b_left b)) * Z.of_nat (List.length (b_right b))).
Proof. exact p_C87_between. Qed.
Print Assumptions C87_between.

Example ex_C87_between : let b := mkBipartite [1; 2] [3; 4] [(1, 3)] in let o := mkOutcomes (fun _ => (1, 3)) (fun l m => firstn m l) in
  add_missing_edges o b 2 = Ok (mkBipartite [1; 2] [3; 4] [(1, 3); (1, 4); (2, 3)]) /\ fair_pairs_between b o.
Proof. split; [vm_compute; reflexivity|]. split; [intros t; cbn; lia|]. intros l m. apply firstn_sampled. Qed.

(* C87: --plantclique joins k of the vertices with each other and changes nothing else *)
Theorem C87_clique : forall vertices g k, simple_graph g ->
  (k <= 1 -> plant_clique vertices g k = Ok g) /\
  (1 < k -> Z.of_nat (List.length (g_nodes g)) < k -> plant_clique vertices g k = Err ValueError) /\
  (1 < k <= Z.of_nat (List.length (g_nodes g)) -> sampled (g_nodes g) (Z.to_nat k) (vertices (g_nodes g) (Z.to_nat k)) ->
   exists h, plant_clique vertices g k = Ok h /\ simple_graph h /\ g_nodes h = g_nodes g /\ exists S, Z.of_nat (List.length S) = k /\ clique h S /\
     (forall u v, adjacent h u v <-> adjacent g u v \/ In u S /\ In v S /\ u <> v)).
Proof. exact p_C87_clique. Qed.
Print Assumptions C87_clique.

(* C87: --plantbiclique joins l vertices on the left with r vertices on the right *)
Theorem C87_biclique : forall vertices b l r, bipartite_graph b ->
  (l < 0 \/ r < 0 \/ Z.of_nat (List.length (b_left b)) < l \/ Z.of_nat (List.length (b_right b)) < r -> plant_biclique vertices b l r = Err ValueError) /\
  (0 <= l <= Z.of_nat (List.length (b_left b)) -> 0 <= r <= Z.of_nat (List.length (b_right b)) ->
   sampled (b_left b) (Z.to_nat l) (vertices (b_left b) (Z.to_nat l)) -> sampled (b_right b) (Z.to_nat r) (vertices (b_right b) (Z.to_nat r)) ->
   exists h, plant_biclique vertices b l r = Ok h /\ bipartite_graph h /\ b_left h = b_left b /\ b_right h = b_right b /\
     exists S T, NoDup S /\ incl S (b_left b) /\ Z.of_nat (List.length S) = l /\ NoDup T /\ incl T (b_right b) /\ Z.of_nat (List.length T) = r /\
       (forall u v, In (u, v) (b_edges h) <-> In (u, v) (b_edges b) \/ In u S /\ In v T)).
Proof. exact p_C87_biclique. Qed.
Print Assumptions C87_biclique.

Example ex_C87_clique : plant_clique (fun l k => firstn k (rev l)) (mkGraph [1; 2; 3; 4] [(3, 4)]) 3 = Ok (mkGraph [1; 2; 3; 4] [(3, 4); (4, 2); (3, 2)]) /\
  sampled [1; 2; 3; 4] 3 [4; 3; 2] /\
  plant_biclique (fun l k => firstn k l) (mkBipartite [1; 2] [3; 4] [(2, 3)]) 1 2 = Ok (mkBipartite [1; 2] [3; 4] [(2, 3); (1, 3); (1, 4)]).
Proof.
  split; [vm_compute; reflexivity|]. split; [|vm_compute; reflexivity]. split; [repeat constructor; cbn; lia|]. split; [|reflexivity]. intros x H. cbn in *. tauto.
Qed.
