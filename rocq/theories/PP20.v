(* PP20.v -- subgraph, clique, pebbling and stone formulas of the bundled generator (C76-C77): statements and proofs. *)
From Coq Require Import String Ascii ZArith List Bool Lia Sorted.
From Verif Require Import Spec PyBase MSet MText MGen MCnf MFam MFam2 SpecCnf SpecFam SpecFam2 PLib PCnf1 PCnf2 PFam1 PFam2 PFam3 PFam4 PFam5 PFam6 PFam7 PFam10 PFam12 PFam13 PFam14 PFam15 PFam16.
Import ListNotations.
Open Scope Z_scope.

(* C76: SubgraphFormula(G, templates, symmetric) is always a formula; a model is a list of different vertices of G, as
   many as the largest template has -- S_{i,j} meaning that its i-th member is the j-th vertex of G -- whose first members
   are connected as the enforced templates *)
Lemma p_C76_subgraph_models : forall g ts s, simple_graph g -> (forall t, In t ts -> simple_graph t) -> ts <> [] ->
  exists c, SubgraphFormula g ts s = Ok c /\ made c /\
    forall a, all_hold a (cnf_clauses c) <->
      exists W, placement g (fold_right Z.max 0 (map (fun t => Z.of_nat (List.length (g_nodes t))) ts)) s W /\
        (forall i j w, (i < List.length W)%nat -> nth_error (g_nodes g) j = Some w ->
           (a (name2 (txt "S_{") (Z.of_nat i) (Z.of_nat j)) = true <-> nth_error W i = Some w)) /\
        active a ts g W.
Proof.
  intros g ts s G T NE. destruct (sub_built g ts s NE) as (c & E & M & L). exists c. split; auto. split; auto. intros a. rewrite L, sub_models_active by auto.
  change (fold_right Z.max 0 (map (fun t => Z.of_nat (List.length (g_nodes t))) ts)) with (max_order ts).
  split; intros (W & P & R & A); exists W; (split; [exact P|]); (split; [|exact A]).
  - intros i j w Hi Hj. pose proof (pl_length _ _ _ _ P). specialize (R (Z.of_nat i) (Z.of_nat j)). rewrite (vertex_nth g j w Hj), Nat2Z.id in R.
    apply R; [lia|]. apply nth_error_Some_length in Hj. unfold order. lia.
  - intros i j Hi Hj. pose proof (pl_length _ _ _ _ P). specialize (R (Z.to_nat i) (Z.to_nat j) (vertex g j)). rewrite !Z2Nat.id in R by lia. apply R; [lia|]. apply vertex_In. auto.
Qed.
(* C76: when it is satisfiable; without templates it is the empty formula *)
Lemma p_C76_subgraph_satisfiable : forall g ts s, simple_graph g -> (forall t, In t ts -> simple_graph t) ->
  (ts = [] -> SubgraphFormula g ts s = Ok empty_cnf) /\
  (ts <> [] -> exists c, SubgraphFormula g ts s = Ok c /\
    (has_model (cnf_clauses c) <->
     exists W, placement g (fold_right Z.max 0 (map (fun t => Z.of_nat (List.length (g_nodes t))) ts)) s W /\ chosen_match ts g W)).
Proof.
  intros g ts s G T. split; [intros ->; reflexivity|]. intros NE. destruct (sub_built g ts s NE) as (c & E & M & L). exists c. split; auto. rewrite L. apply sub_satisfiable; auto.
Qed.
(* C76: one template, not declared symmetric: satisfiable exactly when G has an induced subgraph isomorphic to it *)
Lemma p_C76_induced_subgraph : forall g t, simple_graph g -> simple_graph t ->
  exists c, SubgraphFormula g [t] false = Ok c /\ (has_model (cnf_clauses c) <-> exists f, induced_copy t g f).
Proof.
  intros g t G T. destruct (sub_built g [t] false) as (c & E & M & L); [discriminate|]. exists c. split; auto.
  rewrite L, copy_placement, sub_satisfiable; auto; [|intros x [<-|[]]; auto|discriminate]. cbn [chosen_match].
  assert (MO : max_order [t] = order t) by (unfold max_order, order; cbn [map fold_right]; lia). rewrite MO. tauto.
Qed.
(* C76: CliqueFormula and BinaryCliqueFormula: satisfiable exactly when G has k vertices that are pairwise adjacent; the
   binary variant fails on a graph without vertices *)
Lemma p_C76_clique : forall g k, simple_graph g -> 0 <= k ->
  (exists c, CliqueFormula g k = Ok c /\ made c /\
    (has_model (cnf_clauses c) <-> exists S, clique g S /\ Z.of_nat (List.length S) = k)) /\
  (forall bits, Z.of_nat (List.length (g_nodes g)) <= 2 ^ Z.of_nat bits -> g_nodes g <> [] ->
    exists c, BinaryCliqueFormula bits g k = Ok c /\ made c /\
      (has_model (cnf_clauses c) <-> exists S, clique g S /\ Z.of_nat (List.length S) = k)) /\
  (forall bits, g_nodes g = [] -> BinaryCliqueFormula bits g k = Err ValueError).
Proof.
  intros g k G Hk. split; [|split].
  - unfold CliqueFormula. destruct (sub_built g [complete_graph k] true) as (c & E & M & L); [discriminate|]. exists c. split; auto. split; auto. rewrite L. apply clique_satisfiable; auto.
  - intros bits HB NE. destruct (bc_built bits g k NE) as (c & E & M & L). exists c. split; auto. split; auto. rewrite L. apply bc_satisfiable; auto.
  - intros bits E. unfold BinaryCliqueFormula. rewrite E. reflexivity.
Qed.
(* C76: RamseyWitnessFormula(G, k, s) with k = s: satisfiable exactly when G has k pairwise adjacent or k pairwise
   non-adjacent vertices; in general the smaller of the two sets must be the first members of max(k,s) vertices of G in the order of G *)
Lemma p_C76_ramsey_witness : forall g k s, simple_graph g -> 0 <= k -> 0 <= s ->
  exists c, RamseyWitnessFormula g k s = Ok c /\ made c /\
    (has_model (cnf_clauses c) <->
     exists W, placement g (Z.max k s) true W /\ (clique g (firstn (Z.to_nat k) W) \/ independent g (firstn (Z.to_nat s) W))) /\
    (k = s -> (has_model (cnf_clauses c) <-> exists S, (clique g S \/ independent g S) /\ Z.of_nat (List.length S) = k)).
Proof.
  intros g k s G Hk Hs. unfold RamseyWitnessFormula. destruct (sub_built g [complete_graph k; empty_graph s] true) as (c & E & M & L); [discriminate|].
  exists c. split; auto. split; auto. rewrite L. pose proof (witness_satisfiable g k s G Hk Hs) as W. split; auto. intros <-. rewrite W, Z.max_id. split.
  - intros (V & P & H). pose proof (pl_length _ _ _ _ P). rewrite !firstn_all2 in H by lia. exists V. split; [tauto|lia].
  - intros (S & H & LS). assert (X : NoDup S /\ incl S (g_nodes g)) by (destruct H as [(A & B & _)|(A & B & _)]; auto). destruct X as [X1 X2].
    destruct (sorted_placement g S G X1 X2) as (V & P & EV). rewrite LS in P. exists V. split; auto. pose proof P as [P1 P2 P3 P4]. rewrite !firstn_all2 by lia.
    destruct H as [(A & B & C)|(A & B & C)]; [left|right]; (split; [auto|split; [auto|]]); intros u v Hu Hv; apply C; apply EV; auto.
Qed.
(*EX
(* a path with three vertices, twice *)
Definition path3 : graph := mkGraph [0; 1; 2] [(0, 1); (1, 2)].
Definition wedge : graph := mkGraph [7; 8; 9] [(7, 9); (8, 9)].
Lemma path3_simple : simple_graph path3.
Proof.
  constructor; cbn [path3 g_nodes g_edges].
  - repeat (constructor; [cbn; intuition lia|]); constructor.
  - repeat (constructor; [cbn; intuition congruence|]); constructor.
  - intros u v H K; cbn in H, K; intuition congruence.
  - intros u v H; cbn in H |- *; intuition congruence.
Qed.
Lemma wedge_simple : simple_graph wedge.
Proof.
  constructor; cbn [wedge g_nodes g_edges].
  - repeat (constructor; [cbn; intuition lia|]); constructor.
  - repeat (constructor; [cbn; intuition congruence|]); constructor.
  - intros u v H K; cbn in H, K; intuition congruence.
  - intros u v H; cbn in H |- *; intuition congruence.
Qed.
Example C76_applies :
  (exists c, SubgraphFormula path3 [wedge] false = Ok c /\ has_model (cnf_clauses c)) /\
  (exists c, CliqueFormula path3 2 = Ok c /\ has_model (cnf_clauses c)) /\
  (exists c, CliqueFormula path3 3 = Ok c /\ ~ has_model (cnf_clauses c)) /\
  (exists c, BinaryCliqueFormula 2 path3 3 = Ok c /\ ~ has_model (cnf_clauses c)).
Proof.
  assert (NT : ~ exists S, clique path3 S /\ Z.of_nat (List.length S) = 3).
  { intros (S & (N & I & C) & L).
    assert (I2 : incl [0; 1; 2] S) by (apply NoDup_length_incl; [exact N|cbn; lia|exact I]).
    specialize (C 0 2 (I2 0 ltac:(cbn; auto)) (I2 2 ltac:(cbn; auto)) ltac:(lia)). apply PFam5.has_edge_ok in C. vm_compute in C. discriminate. }
  split; [|split; [|split]].
  - destruct (C76_induced_subgraph path3 wedge path3_simple wedge_simple) as (c & E & S). exists c. split; auto. apply S.
    exists (fun u => if u =? 7 then 0 else if u =? 8 then 2 else 1). split; [|split].
    + intros u Hu. cbn [wedge g_nodes In] in Hu. destruct Hu as [<-|[<-|[<-|[]]]]; cbn; auto.
    + intros u u' Hu Hu' K. cbn [wedge g_nodes In] in *. destruct Hu as [<-|[<-|[<-|[]]]], Hu' as [<-|[<-|[<-|[]]]]; vm_compute in K; (discriminate K || reflexivity).
    + intros u u' Hu Hu'. rewrite <- !PFam5.has_edge_ok. cbn [wedge g_nodes In] in *.
      destruct Hu as [<-|[<-|[<-|[]]]], Hu' as [<-|[<-|[<-|[]]]]; vm_compute; split; intros K; (discriminate K || reflexivity).
  - destruct (proj1 (C76_clique path3 2 path3_simple ltac:(lia))) as (c & E & _ & S). exists c. split; auto. apply S. exists [0; 1]. split; [|reflexivity].
    split; [|split].
    + repeat (constructor; [cbn; intuition lia|]); constructor.
    + intros v Hv. cbn in Hv |- *. tauto.
    + intros u v Hu Hv NE. apply PFam5.has_edge_ok. cbn in Hu, Hv. destruct Hu as [<-|[<-|[]]], Hv as [<-|[<-|[]]]; try congruence; reflexivity.
  - destruct (proj1 (C76_clique path3 3 path3_simple ltac:(lia))) as (c & E & _ & S). exists c. split; auto. rewrite S. exact NT.
  - destruct (C76_clique path3 3 path3_simple ltac:(lia)) as (_ & B & _). destruct (B 2%nat) as (c & E & _ & S); [cbn; lia|discriminate|]. exists c. split; auto. rewrite S. exact NT.
Qed.
(* a defect: the path contains an edge, but the formula for the three templates edge, triangle, three vertices without
   edges is unsatisfiable: the code makes all but one of the templates match *)
Example C76_three_templates :
  (exists f, induced_copy (complete_graph 2) path3 f) /\
  exists c, SubgraphFormula path3 [complete_graph 2; complete_graph 3; empty_graph 3] false = Ok c /\ ~ has_model (cnf_clauses c).
Proof.
  split.
  - exists (fun u => u). split; [|split].
    + intros u Hu. cbn [complete_graph g_nodes] in Hu. change (range 0 2) with [0; 1] in Hu. destruct Hu as [<-|[<-|[]]]; cbn; auto.
    + intros u u' _ _ K. exact K.
    + intros u u' Hu Hu'. rewrite <- !PFam5.has_edge_ok. cbn [complete_graph g_nodes] in Hu, Hu'. change (range 0 2) with [0; 1] in *. cbn [In] in *.
      destruct Hu as [<-|[<-|[]]], Hu' as [<-|[<-|[]]]; vm_compute; split; intros K; (discriminate K || reflexivity).
  - assert (T : forall t, In t [complete_graph 2; complete_graph 3; empty_graph 3] -> simple_graph t).
    { intros t [<-|[<-|[<-|[]]]]; [apply PFam5.complete_simple|apply PFam5.complete_simple|apply PFam13.empty_simple]. }
    destruct (proj2 (C76_subgraph_satisfiable path3 _ false path3_simple T) ltac:(discriminate)) as (c & E & S). exists c. split; auto. rewrite S.
    intros (W & P & j & Hj & H). change (fold_right Z.max 0 _) with 3 in P. destruct P as [P1 P2 P3 _].
    assert (I2 : incl [0; 1; 2] W) by (apply NoDup_length_incl; [exact P2|cbn; lia|exact P3]).
    assert (PL : forall v, In v W -> exists i, (i < 3)%nat /\ nth_error W i = Some v).
    { intros v Hv. apply In_nth_error in Hv as (i & Hi). exists i. split; auto. apply PFam12.nth_error_Some_length in Hi. lia. }
    destruct (PL 0 (I2 0 ltac:(cbn; auto))) as (i0 & L0 & E0). destruct (PL 1 (I2 1 ltac:(cbn; auto))) as (i1 & L1 & E1). destruct (PL 2 (I2 2 ltac:(cbn; auto))) as (i2 & L2 & E2).
    assert (N02 : i0 <> i2) by (intros ->; congruence). assert (N01 : i0 <> i1) by (intros ->; congruence).
    assert (RN : forall i, (i < 3)%nat -> nth_error (range 0 3) i = Some (Z.of_nat i)) by (intros [|[|[|i]]] Hi; [reflexivity..|lia]).
    assert (DEC : j <> 1%nat \/ j <> 2%nat) by lia. destruct DEC as [D|D].
    + specialize (H 1%nat (complete_graph 3) eq_refl ltac:(auto) i0 i2 (Z.of_nat i0) (Z.of_nat i2) 0 2 N02 (RN i0 L0) (RN i2 L2) E0 E2).
      assert (A : adjacent (complete_graph 3) (Z.of_nat i0) (Z.of_nat i2)). { apply PFam5.complete_adjacent; lia. }
      apply H in A. apply PFam5.has_edge_ok in A. vm_compute in A. discriminate.
    + specialize (H 2%nat (empty_graph 3) eq_refl ltac:(auto) i0 i1 (Z.of_nat i0) (Z.of_nat i1) 0 1 N01 (RN i0 L0) (RN i1 L1) E0 E1).
      assert (A : adjacent path3 0 1) by (apply PFam5.has_edge_ok; reflexivity). apply H in A. apply PFam5.has_edge_ok in A. vm_compute in A. discriminate.
Qed.
(* a defect: a graph with two vertices and an edge has a clique of 2 vertices, but as a Ramsey witness for (2, 3) it is refused:
   there is no list of three vertices *)
Example C76_witness_refused :
  clique (complete_graph 2) [0; 1] /\ exists c, RamseyWitnessFormula (complete_graph 2) 2 3 = Ok c /\ ~ has_model (cnf_clauses c).
Proof.
  split.
  - split; [|split].
    + repeat (constructor; [cbn; intuition lia|]); constructor.
    + intros v Hv. cbn [complete_graph g_nodes]. change (range 0 2) with [0; 1]. exact Hv.
    + intros u v Hu Hv NE. apply PFam5.has_edge_ok. cbn in Hu, Hv. destruct Hu as [<-|[<-|[]]], Hv as [<-|[<-|[]]]; try congruence; reflexivity.
  - destruct (C76_ramsey_witness (complete_graph 2) 2 3 (PFam5.complete_simple 2) ltac:(lia) ltac:(lia)) as (c & E & _ & S & _). exists c. split; auto. rewrite S.
    intros (W & [P1 P2 P3 _] & _). pose proof (NoDup_incl_length P2 P3) as K. change (List.length (g_nodes (complete_graph 2))) with 2%nat in K. change (Z.max 2 3) with 3 in P1. lia.
Qed.
EX*)

(* C77: PebblingFormula(D), D a directed graph: not acyclic: ValueError; otherwise a formula whose models are the
   pebblings that put a pebble on each vertex whose predecessors have one, and none on a sink *)
Lemma p_C77_pebbling : forall d, proper_digraph d ->
  (~ acyclic d -> PebblingFormula d = Err ValueError) /\
  (acyclic d -> exists c, PebblingFormula d = Ok c /\ made c /\
    (forall a, all_hold a (cnf_clauses c) <->
      (forall v, In v (d_nodes d) -> (forall u, arc d u v -> a (str_Z u) = true) -> a (str_Z v) = true) /\
      (forall v, In v (d_nodes d) -> sink d v -> a (str_Z v) = false)) /\
    (has_model (cnf_clauses c) <-> d_nodes d = [])).
Proof.
  intros d P. split.
  - intros N. unfold PebblingFormula. destruct (is_dag d) eqn:E; [|reflexivity]. exfalso. apply N. apply is_dag_ok; auto.
  - intros A. apply is_dag_ok in A; auto. destruct (peb_built d P A) as (c & E & M & L). exists c. split; auto. split; auto. rewrite L. split; [intros a; apply peb_models; auto|apply peb_satisfiable; auto].
Qed.
(* C77: StoneFormula(D, n): not acyclic or n negative: ValueError; otherwise a formula whose models put stones on the
   vertices by the rules; there is no such way unless D has no vertices *)
Lemma p_C77_stone : forall d n, proper_digraph d ->
  (~ acyclic d \/ n < 0 -> StoneFormula d n = Err ValueError) /\
  (acyclic d -> 0 <= n -> exists c, StoneFormula d n = Ok c /\ made c /\
    (forall a, all_hold a (cnf_clauses c) <->
      stones_fit d (fun _ j => 1 <= j <= n) (fun v j => a (name2 (txt "P_{") v j) = true) (fun j => a (name1 (txt "R_{") j) = true)) /\
    (has_model (cnf_clauses c) <-> d_nodes d = [])).
Proof.
  intros d n P. split.
  - intros H. unfold StoneFormula. destruct (is_dag d) eqn:E; [|reflexivity]. cbn [negb]. destruct (Z.ltb_spec n 0); [reflexivity|]. exfalso.
    destruct H as [H|H]; [apply H; apply is_dag_ok; auto|lia].
  - intros A Hn. apply is_dag_ok in A; auto. destruct (stone_built d n P A Hn) as (c & E & M & L). exists c. split; auto. split; auto. rewrite L.
    split; [intros a; apply stone_models; auto|apply stone_satisfiable; auto].
Qed.
(* C77: SparseStoneFormula(D, B): the same with the stones that B allows on each vertex *)
Lemma p_C77_sparse_stone : forall d b, proper_digraph d -> bipartite_graph b ->
  (~ acyclic d \/ List.length (b_left b) <> List.length (d_nodes d) -> SparseStoneFormula d b = Err ValueError) /\
  (acyclic d -> List.length (b_left b) = List.length (d_nodes d) -> exists c, SparseStoneFormula d b = Ok c /\ made c /\
    (forall a, all_hold a (cnf_clauses c) <->
      stones_fit d (stone_allowed d b) (fun v j => a (name2 (txt "X_{") v j) = true) (fun j => a (name1 (txt "R_{") j) = true)) /\
    (has_model (cnf_clauses c) <-> d_nodes d = [])).
Proof.
  intros d b P B. split.
  - intros H. unfold SparseStoneFormula. destruct (is_dag d) eqn:E; [|reflexivity]. cbn [negb]. destruct (Nat.eqb_spec (List.length (b_left b)) (List.length (d_nodes d))); [|reflexivity]. exfalso.
    destruct H as [H|H]; [apply H; apply is_dag_ok; auto|auto].
  - intros A L. apply is_dag_ok in A; auto. destruct (sparse_built d b P A B L) as (c & E & M & K). exists c. split; auto. split; auto. rewrite K.
    split; [intros a; apply sparse_models; auto|apply sparse_satisfiable; auto].
Qed.
(*EX
(* the pyramid 1 -> 3 <- 2, and a cycle *)
Definition pyramid1 : digraph := mkDigraph [1; 2; 3] [(1, 3); (2, 3)].
Definition loop2 : digraph := mkDigraph [1; 2] [(1, 2); (2, 1)].
Definition stones_b : bipartite := mkBipartite [10; 11; 12] [20; 21] [(10, 20); (11, 20); (11, 21); (12, 21)].
Lemma pyramid1_proper : proper_digraph pyramid1.
Proof.
  constructor; cbn [pyramid1 d_nodes d_edges].
  - repeat (constructor; [cbn; intuition lia|]); constructor.
  - intros u v H; cbn in H |- *; intuition congruence.
Qed.
Lemma pyramid1_acyclic : acyclic pyramid1.
Proof. apply PFam15.is_dag_ok; [exact pyramid1_proper|reflexivity]. Qed.
Example C77_applies :
  (exists c, PebblingFormula pyramid1 = Ok c /\ ~ has_model (cnf_clauses c) /\ cnf_clauses c =
     [[(true, txt "1")]; [(true, txt "2")]; [(false, txt "1"); (false, txt "2"); (true, txt "3")]; [(false, txt "3")]]) /\
  (exists c, StoneFormula pyramid1 2 = Ok c /\ ~ has_model (cnf_clauses c)) /\
  (exists c, SparseStoneFormula pyramid1 stones_b = Ok c /\ ~ has_model (cnf_clauses c)) /\
  stone_allowed pyramid1 stones_b 2 2 /\
  PebblingFormula loop2 = Err ValueError.
Proof.
  assert (B : bipartite_graph stones_b).
  { constructor; cbn [stones_b b_left b_right b_edges].
    1, 2: repeat (constructor; [cbn; intuition lia|]); constructor.
    - repeat (constructor; [cbn; intuition congruence|]); constructor.
    - intros u v H. cbn in H |- *. intuition congruence.
    - intros v H K. cbn in H, K. intuition lia. }
  split; [|split; [|split; [|split]]].
  - destruct (proj2 (C77_pebbling pyramid1 pyramid1_proper) pyramid1_acyclic) as (c & E & _ & _ & S). exists c. split; auto. rewrite S.
    split; [discriminate|]. vm_compute in E. injection E as <-. vm_compute. reflexivity.
  - destruct (proj2 (C77_stone pyramid1 2 pyramid1_proper) pyramid1_acyclic ltac:(lia)) as (c & E & _ & _ & S). exists c. split; auto. rewrite S. discriminate.
  - destruct (proj2 (C77_sparse_stone pyramid1 stones_b pyramid1_proper B) pyramid1_acyclic ltac:(reflexivity)) as (c & E & _ & _ & S). exists c. split; auto. rewrite S. discriminate.
  - exists 1%nat, 1%nat, 11, 21. cbn. intuition.
  - apply C77_pebbling; [constructor; cbn; [repeat (constructor; [cbn; intuition lia|]); constructor|intros u v H; intuition congruence]|].
    intros A. apply (A 1). apply walk_step with 2; [|constructor]; unfold arc; cbn; auto.
Qed.
EX*)
