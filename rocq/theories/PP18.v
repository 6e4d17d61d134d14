(* PP18.v -- further formula families of the bundled generator (C70-C73): statements and proofs. *)
From Coq Require Import String Ascii ZArith List Bool Lia Sorted.
From Verif Require Import Spec PyBase MSet MText MGen MCnf MFam SpecCnf SpecFam PLib PCnf1 PCnf2 PFam1 PFam2 PFam3 PFam4 PFam5 PFam6 PFam7 PFam8 PFam9.
Import ListNotations.
Open Scope Z_scope.

(* C70: GraphOrderingPrinciple(G, ...): always a formula; a model is a relation 'u is smaller than v' on the
   vertices without u < v < u, total if asked for (the compact form is total), transitive -- with knuth=2 or 3 and
   a relation that need not be total only on the triples of Knuth's variants -- in which every vertex (with
   plant: but the last) has a smaller neighbour *)
Lemma p_C70_ordering_models : forall g total smart plant knuth, simple_graph g ->
  exists c, GraphOrderingPrinciple g total smart plant knuth = Ok c /\ made c /\
    forall a, let V := g_nodes g in let smaller := ordered_by smart V a in
      (all_hold a (cnf_clauses c) <->
       (forall u v, In u V -> In v V -> u <> v -> smaller u v -> smaller v u -> False) /\
       (total = true \/ smart = true -> forall u v, In u V -> In v V -> u <> v -> smaller u v \/ smaller v u) /\
       (forall u v w, In u V -> In v V -> In w V -> u <> v -> v <> w -> u <> w ->
          (smart = true \/ total = true \/ (~ (knuth = 2 /\ (v < u \/ v < w)) /\ ~ (knuth = 3 /\ (w < u \/ w < v)))) ->
          smaller u v -> smaller v w -> smaller u w) /\
       (forall v, In v V -> (plant = true -> List.last V 0 <> v) -> exists u, adjacent g u v /\ smaller u v)).
Proof.
  intros g t s p k G. destruct (ord_built g t s p k G) as (c & E & M & L). exists c. split; auto. split; auto. intros a V sm. rewrite L.
  apply (ord_models g t s p k a G).
Qed.
(* C70: in all these forms, Knuth's included, the formula has no model unless there is no vertex or a planted
   minimum that every vertex is connected to *)
Lemma p_C70_ordering_satisfiable : forall g total smart plant knuth, simple_graph g ->
  exists c, GraphOrderingPrinciple g total smart plant knuth = Ok c /\
    (has_model (cnf_clauses c) <->
     forall v, In v (g_nodes g) -> plant = true /\ linked g v (List.last (g_nodes g) 0)).
Proof.
  intros g t s p k G. destruct (ord_built g t s p k G) as (c & E & M & L). exists c. split; auto. rewrite L. apply ord_satisfiable; auto.
Qed.
(* C70: OrderingPrinciple(n): the same on 0 .. n-1, all adjacent; unsatisfiable for all n > 0 unless planted *)
Lemma p_C70_ordering_principle : forall n total smart plant knuth,
  exists c, OrderingPrinciple n total smart plant knuth = Ok c /\ made c /\
    (has_model (cnf_clauses c) <-> (0 < n -> plant = true)) /\
    forall a, let smaller := ordered_by smart (range 0 n) a in
      (all_hold a (cnf_clauses c) <->
       (forall u v, 0 <= u < n -> 0 <= v < n -> u <> v -> smaller u v -> smaller v u -> False) /\
       (total = true \/ smart = true -> forall u v, 0 <= u < n -> 0 <= v < n -> u <> v -> smaller u v \/ smaller v u) /\
       (forall u v w, 0 <= u < n -> 0 <= v < n -> 0 <= w < n -> u <> v -> v <> w -> u <> w ->
          (smart = true \/ total = true \/ (~ (knuth = 2 /\ (v < u \/ v < w)) /\ ~ (knuth = 3 /\ (w < u \/ w < v)))) ->
          smaller u v -> smaller v w -> smaller u w) /\
       (forall v, 0 <= v < n -> (plant = true -> n - 1 <> v) -> exists u, 0 <= u < n /\ u <> v /\ smaller u v)).
Proof.
  intros n t s p k. destruct (ord_built (complete_graph n) t s p k (complete_simple n)) as (c & E & M & L). exists c. split; auto. split; auto. rewrite L.
  split; [apply op_satisfiable|]. intros a sm. rewrite (ord_models (complete_graph n) t s p k a (complete_simple n)). cbn [complete_graph g_nodes]. fold sm.
  assert (R : forall x, In x (range 0 n) <-> 0 <= x < n) by (intros x; apply range_In).
  assert (LL : 0 < n -> List.last (range 0 n) 0 = n - 1).
  { intros H. unfold range. replace (Z.to_nat (n - 0)) with (S (Z.to_nat (n - 1))) by lia. rewrite seq_S, map_app. cbn [map]. rewrite last_last. lia. }
  assert (A : forall u v, adjacent (complete_graph n) u v <-> (0 <= u < n /\ 0 <= v < n /\ u <> v)) .
  { intros u v. split; [|intros (H1 & H2 & H3); apply complete_adjacent; auto]. intros H. split; [|split].
    - apply R. destruct H as [H|H]; apply (sg_ends _ (complete_simple n)) in H; apply H.
    - apply R. destruct H as [H|H]; apply (sg_ends _ (complete_simple n)) in H; apply H.
    - intros ->. destruct H as [H|H]; apply (sg_once _ (complete_simple n) v v H); auto. }
  setoid_rewrite R. setoid_rewrite A. split; intros (H1 & H2 & H3 & H4); repeat split; auto; try (intros; eapply H1; eassumption).
  - intros v Hv Hp. destruct (H4 v Hv) as (u & (U1 & U2 & U3) & U4); [rewrite LL by lia; auto|]. exists u. auto.
  - intros v Hv Hp. rewrite LL in Hp by lia. destruct (H4 v Hv Hp) as (u & U1 & U2 & U3). exists u. auto.
Qed.
(*EX
(* a path and a path with an isolated vertex *)
Definition path_3 : graph := mkGraph [0; 1; 2] [(0, 1); (1, 2)].
Definition lonely : graph := mkGraph [0; 1; 2] [(1, 2)].
Example C70_applies :
  simple_graph path_3 /\ simple_graph lonely /\
  (exists c, OrderingPrinciple 5 false false false 2 = Ok c /\ ~ has_model (cnf_clauses c)) /\
  (exists c, GraphOrderingPrinciple path_3 true false true 0 = Ok c /\ has_model (cnf_clauses c)) /\
  (exists c, GraphOrderingPrinciple lonely false true true 0 = Ok c /\ ~ has_model (cnf_clauses c)).
Proof.
  assert (G : simple_graph path_3 /\ simple_graph lonely).
  { split; constructor; cbn [path_3 lonely g_nodes g_edges].
    1, 5: repeat (constructor; [cbn; intuition lia|]); constructor.
    1, 4: repeat (constructor; [cbn; intuition congruence|]); constructor.
    1, 3: intros u v H K; cbn in H, K; intuition congruence.
    all: intros u v H; cbn in H |- *; intuition congruence. }
  destruct G as [G1 G2]. split; [exact G1|]. split; [exact G2|]. split; [|split].
  - destruct (C70_ordering_principle 5 false false false 2) as (c & E & _ & S & _). exists c. split; auto. rewrite S. intros K. specialize (K ltac:(lia)). discriminate.
  - destruct (C70_ordering_satisfiable path_3 true false true 0 G1) as (c & E & S). exists c. split; auto. apply S. intros v Hv. split; auto.
    assert (L2 : linked path_3 2 2) by constructor.
    assert (L1 : linked path_3 1 2) by (econstructor; [|exact L2]; unfold adjacent; cbn; auto).
    assert (L0 : linked path_3 0 2) by (econstructor; [|exact L1]; unfold adjacent; cbn; auto).
    cbn in Hv |- *. intuition (subst; auto).
  - destruct (C70_ordering_satisfiable lonely false true true 0 G2) as (c & E & S). exists c. split; auto. rewrite S. intros K.
    destruct (K 0 ltac:(cbn; auto)) as [_ L]. cbn in L. inversion L as [|? w ? A B]; subst. unfold adjacent in A. cbn in A. intuition congruence.
Qed.
EX*)

(* C71: RamseyLowerBoundFormula(s, k, N): a model is a graph on 1..N in which every s-element set contains an
   edge and every k-element set a missing edge; ValueError for negative s or k *)
Lemma p_C71_ramsey : forall s k N,
  (s < 0 \/ k < 0 -> RamseyLowerBoundFormula s k N = Err ValueError) /\
  (0 <= s -> 0 <= k -> exists c, RamseyLowerBoundFormula s k N = Ok c /\ made c /\
    (has_model (cnf_clauses c) <->
     exists edge : Z -> Z -> bool, forall S, StronglySorted Z.lt S -> (forall x, In x S -> 1 <= x <= N) ->
       (Z.of_nat (List.length S) = s -> exists u v, In u S /\ In v S /\ u < v /\ edge u v = true) /\
       (Z.of_nat (List.length S) = k -> exists u v, In u S /\ In v S /\ u < v /\ edge u v = false))).
Proof.
  intros s k N. split.
  - intros H. unfold RamseyLowerBoundFormula, py_combinations. destruct (Z.ltb_spec s 0); auto. destruct (Z.ltb_spec k 0); auto; lia.
  - intros Hs Hk. destruct (ramsey_built s k N Hs Hk) as (c & E & M & L). exists c. split; auto. split; auto. rewrite L. apply ramsey_satisfiable; auto.
Qed.
(* C71: PythagoreanTriples(N): x_{i} is the colour of i; no triple with x^2 + y^2 = z^2 up to N has one colour *)
Lemma p_C71_pythagorean : forall N, exists c, PythagoreanTriples N = Ok c /\ made c /\
  (forall a, all_hold a (cnf_clauses c) <->
     forall x y z, 1 <= x -> 1 <= y -> 1 <= z <= N -> x ^ 2 + y ^ 2 = z ^ 2 ->
       ~ (a (ptn_name x) = a (ptn_name y) /\ a (ptn_name y) = a (ptn_name z))) /\
  (has_model (cnf_clauses c) <->
     exists colour : Z -> bool, forall x y z, 1 <= x -> 1 <= y -> 1 <= z <= N -> x ^ 2 + y ^ 2 = z ^ 2 ->
       ~ (colour x = colour y /\ colour y = colour z)).
Proof.
  intros N. destruct (ptn_built N) as (c & E & M & L). exists c. split; auto. split; auto. rewrite L. split; [intros a; apply ptn_models|apply ptn_satisfiable].
Qed.
(* C71: CliqueColoring(n, k, c): a model is a graph e on 1..n, a clique of size k written as an injection q of
   1..k, and a proper colouring r with c colours: none when k > c (nor when k > n) *)
Lemma p_C71_clique_coloring : forall n k c, exists f, CliqueColoring n k c = Ok f /\ made f /\
  (forall a, let edge := fun u v => a (name2 (txt "e_{") (Z.min u v) (Z.max u v)) = true in
             let member := fun i v => a (name2 (txt "q_{") i v) = true in
             let colour := fun v l => a (name2 (txt "r_{") v l) = true in
     all_hold a (cnf_clauses f) <->
     (forall i, 1 <= i <= k -> exists v, 1 <= v <= n /\ member i v /\ forall w, 1 <= w <= n -> member i w -> w = v) /\
     (forall i j v, 1 <= i <= k -> 1 <= j <= k -> 1 <= v <= n -> member i v -> member j v -> i = j) /\
     (forall i j u v, 1 <= i <= k -> 1 <= j <= k -> i <> j -> 1 <= u <= n -> 1 <= v <= n -> u <> v -> member i u -> member j v -> edge u v) /\
     (forall v, 1 <= v <= n -> exists l, 1 <= l <= c /\ colour v l /\ forall m, 1 <= m <= c -> colour v m -> m = l) /\
     (forall u v l, 1 <= u <= n -> 1 <= v <= n -> u <> v -> 1 <= l <= c -> edge u v -> colour u l -> colour v l -> False)) /\
  (0 <= n -> 0 <= k -> 0 <= c -> (has_model (cnf_clauses f) <-> k <= n /\ k <= c /\ (1 <= n -> 1 <= c))).
Proof.
  intros n k c. destruct (cc_built n k c) as (f & E & M & L). exists f. split; auto. split; auto. rewrite L. split; [|apply cc_satisfiable].
  intros a e m r. rewrite cc_models. unfold cc_good, cc_E, cc_Q, cc_R. fold (m : Z -> Z -> Prop). split; intros (A & B & C & D & F).
  - split; [exact A|]. split; [exact B|]. split; [|split; [exact D|]].
    + intros i j u v Hi Hj N Hu Hv NE T1 T2. destruct (Z.lt_trichotomy u v) as [K|[K|K]]; [|lia|].
      * apply (C i j u v); auto; lia.
      * unfold e. rewrite Z.min_comm, Z.max_comm. apply (C j i v u); auto; lia.
    + intros u v l Hu Hv NE Hl T T1 T2. destruct (Z.lt_trichotomy u v) as [K|[K|K]]; [|lia|].
      * apply (F u v l); auto; lia.
      * apply (F v u l); auto; try lia. unfold e in T. rewrite Z.min_comm, Z.max_comm. exact T.
  - split; [exact A|]. split; [exact B|]. split; [|split; [exact D|]].
    + intros i j u v Hi Hj N Hu Hv NE T1 T2. apply (C i j u v); auto; lia.
    + intros u v l Hu Hv NE Hl T T1 T2. apply (F u v l); auto; lia.
Qed.
(*EX
(* no clique of size 4 has a 3-colouring; the 5-cycle shows R(3,3) > 5 *)
Definition pentagon (u v : Z) : bool := (v - u =? 1) || (v - u =? 4).
Example C71_applies :
  (exists f, CliqueColoring 6 4 3 = Ok f /\ ~ has_model (cnf_clauses f)) /\
  (exists f, CliqueColoring 6 3 3 = Ok f /\ has_model (cnf_clauses f)) /\
  (exists c, RamseyLowerBoundFormula 3 3 5 = Ok c /\ has_model (cnf_clauses c)) /\
  (exists c, PythagoreanTriples 13 = Ok c /\ List.length (cnf_clauses c) = 6%nat /\ has_model (cnf_clauses c)).
Proof.
  split; [|split; [|split]].
  - destruct (C71_clique_coloring 6 4 3) as (f & E & _ & _ & S). exists f. split; auto. rewrite S by lia. lia.
  - destruct (C71_clique_coloring 6 3 3) as (f & E & _ & _ & S). exists f. split; auto. rewrite S by lia. lia.
  - destruct (proj2 (C71_ramsey 3 3 5) ltac:(lia) ltac:(lia)) as (c & E & _ & S). exists c. split; auto. apply S. exists pentagon.
    intros l Hl R. split; intros H; (destruct l as [|x [|y [|z [|w l]]]]; cbn [List.length] in H; try lia);
      inversion Hl as [|? ? H1 F1]; subst; inversion H1 as [|? ? H2 F2]; subst;
      inversion F1 as [|? ? L1 F3]; subst; inversion F3; subst; inversion F2; subst;
      pose proof (R x ltac:(cbn; auto)); pose proof (R y ltac:(cbn; auto)); pose proof (R z ltac:(cbn; auto)); unfold pentagon.
    + destruct (Z.eq_dec (y - x) 1); [exists x, y; cbn; intuition lia|]. destruct (Z.eq_dec (z - y) 1); [exists y, z; cbn; intuition lia|].
      exists x, z. cbn. intuition lia.
    + destruct (Z.eq_dec (y - x) 1); [|exists x, y; cbn; intuition lia]. destruct (Z.eq_dec (z - y) 1); [|exists y, z; cbn; intuition lia].
      exists x, z. cbn. intuition lia.
  - destruct (C71_pythagorean 13) as (c & E & _ & _ & S). exists c. split; auto. split.
    + assert (K : exists d, PythagoreanTriples 13 = Ok d /\ List.length (cnf_clauses d) = 6%nat) by (eexists; split; [vm_compute; reflexivity|vm_compute; reflexivity]).
      destruct K as (d & E' & K). rewrite E in E'. injection E' as ->. exact K.
    + apply S. exists (fun x => (x =? 5) || (x =? 10)). intros x y z Hx Hy Hz Eq [A B].
      assert (C : In z (range 1 14)) by (apply range_In; lia).
      assert (x < z /\ y < z) as [X Y] by nia.
      assert (T : forallb (fun z => forallb (fun x => forallb (fun y => implb (x ^ 2 + y ^ 2 =? z ^ 2)
        (negb (Bool.eqb ((x =? 5) || (x =? 10)) ((y =? 5) || (y =? 10)) && Bool.eqb ((y =? 5) || (y =? 10)) ((z =? 5) || (z =? 10)))))
        (range 1 14)) (range 1 14)) (range 1 14) = true) by (vm_compute; reflexivity).
      rewrite forallb_forall in T. specialize (T z C). rewrite forallb_forall in T. specialize (T x ltac:(apply range_In; lia)).
      rewrite forallb_forall in T. specialize (T y ltac:(apply range_In; lia)). rewrite (proj2 (Z.eqb_eq _ _) Eq) in T. cbn [implb] in T.
      rewrite A, B in T. rewrite Bool.eqb_reflx in T. discriminate.
Qed.
EX*)

(* C72: GraphColoringFormula(G, colours): a model gives every vertex a colour, exactly one if asked for, ends of
   an edge no common one; satisfiable exactly when the graph has a proper colouring; a colour listed twice:
   ValueError *)
Lemma p_C72_coloring : forall g colours functional, simple_graph g ->
  (~ NoDup colours -> g_nodes g <> [] -> GraphColoringFormula g colours functional = Err ValueError) /\
  (NoDup colours -> exists c, GraphColoringFormula g colours functional = Ok c /\ made c /\
    (forall a, let has := fun v k => a (name2 (txt "x_{") v k) = true in
       all_hold a (cnf_clauses c) <->
       (forall v, In v (g_nodes g) -> exists k, In k colours /\ has v k) /\
       (functional = true -> forall v k k', In v (g_nodes g) -> In k colours -> In k' colours -> has v k -> has v k' -> k = k') /\
       (forall u v k, adjacent g u v -> In k colours -> has u k -> has v k -> False)) /\
    (has_model (cnf_clauses c) <->
     exists colour : Z -> Z, (forall v, In v (g_nodes g) -> In (colour v) colours) /\ forall u v, adjacent g u v -> colour u <> colour v)).
Proof.
  intros g cs f G. split; [apply col_repeated|]. intros N. destruct (col_built g cs f G N) as (c & E & M & L). exists c. split; auto. split; auto. rewrite L. split.
  - intros a has. apply (col_models g cs f a G N).
  - apply col_satisfiable; auto.
Qed.
(* C72: EvenColoringFormula(G): ValueError when a degree is odd; otherwise a model selects half of the edges at
   every vertex, and there is one exactly when every set of vertices closed under adjacency -- every component --
   has an even number of edges *)
Lemma p_C72_even_coloring : forall g, simple_graph g ->
  ((exists v, In v (g_nodes g) /\ degree g v mod 2 = 1) -> EvenColoringFormula g = Err ValueError) /\
  ((forall v, In v (g_nodes g) -> degree g v mod 2 = 0) -> exists c, EvenColoringFormula g = Ok c /\ made c /\
    (forall a, all_hold a (cnf_clauses c) <->
       forall v, In v (g_nodes g) -> 2 * how_many (fun u => a (edge_name u v)) (neighbors g v) = degree g v) /\
    (has_model (cnf_clauses c) <-> forall l, NoDup l -> incl l (g_nodes g) -> (forall u w, In u l -> adjacent g u w -> In w l) ->
       Z.of_nat (List.length (filter (fun e => zmem (fst e) l) (g_edges g))) mod 2 = 0)).
Proof.
  intros g G. split; [apply even_odd; auto|]. intros D. destruct (even_built g G D) as (c & E & M & L). exists c. split; auto. split; auto. rewrite L. split.
  - intros a. apply even_models; auto.
  - apply even_satisfiable; auto.
Qed.
(* C72: DominatingSet(G, d), in both forms: always a formula; satisfiable exactly when the graph has a dominating
   set of at most d vertices, which the variables x_{v} of a model select *)
Lemma p_C72_dominating_set : forall g d alternative, simple_graph g -> 0 <= d ->
  exists c, DominatingSet g d alternative = Ok c /\ made c /\
    (has_model (cnf_clauses c) <->
     exists S, NoDup S /\ incl S (g_nodes g) /\ Z.of_nat (List.length S) <= d /\
       forall v, In v (g_nodes g) -> exists u, In u S /\ (u = v \/ adjacent g u v)) /\
    (forall a, all_hold a (cnf_clauses c) ->
       let chosen := filter (fun v => a (name1 (txt "x_{") v)) (g_nodes g) in
       Z.of_nat (List.length chosen) <= d /\ forall v, In v (g_nodes g) -> exists u, In u chosen /\ (u = v \/ adjacent g u v)).
Proof.
  intros g d alt G Hd. destruct (dom_built g d alt G) as (c & E & M & L). exists c. split; auto. split; auto. rewrite L. split; [apply dom_satisfiable; auto|].
  intros a H. apply (dom_selects g d alt a G Hd H).
Qed.
(*EX
(* two triangles sharing a vertex, five vertices but six edges; a cycle of five vertices *)
Definition bowtie : graph := mkGraph [0; 1; 2; 3; 4] [(0, 1); (1, 2); (0, 2); (0, 3); (3, 4); (0, 4)].
Definition cycle5 : graph := mkGraph [0; 1; 2; 3; 4] [(0, 1); (1, 2); (2, 3); (3, 4); (0, 4)].
Definition half_of_bowtie (t : text) : bool := existsb (text_eqb t) [edge_name 0 1; edge_name 0 2; edge_name 3 4].
Example C72_applies :
  simple_graph bowtie /\ simple_graph cycle5 /\
  (exists c, EvenColoringFormula bowtie = Ok c /\ has_model (cnf_clauses c)) /\
  (exists c, EvenColoringFormula cycle5 = Ok c /\ ~ has_model (cnf_clauses c)) /\
  (exists c, GraphColoringFormula cycle5 [1; 2; 3] true = Ok c /\ has_model (cnf_clauses c)) /\
  (exists c, GraphColoringFormula bowtie [1; 2] false = Ok c /\ ~ has_model (cnf_clauses c)) /\
  (exists c, DominatingSet bowtie 1 true = Ok c /\ has_model (cnf_clauses c)) /\
  (exists c, DominatingSet cycle5 1 false = Ok c /\ ~ has_model (cnf_clauses c)).
Proof.
  assert (G : simple_graph bowtie /\ simple_graph cycle5).
  { split; constructor; cbn [bowtie cycle5 g_nodes g_edges].
    1, 5: repeat (constructor; [cbn; intuition lia|]); constructor.
    1, 4: repeat (constructor; [cbn; intuition congruence|]); constructor.
    1, 3: intros u v H K; cbn in H, K; intuition congruence.
    all: intros u v H; cbn in H |- *; intuition congruence. }
  destruct G as [G1 G2]. split; [exact G1|]. split; [exact G2|]. split; [|split; [|split; [|split; [|split]]]].
  - destruct (proj2 (C72_even_coloring bowtie G1)) as (c & E & _ & S & _).
    { intros v Hv. cbn in Hv. intuition (subst; reflexivity). }
    exists c. split; auto. exists half_of_bowtie. apply S. intros v Hv. cbn [bowtie g_nodes] in Hv. destruct Hv as [<-|[<-|[<-|[<-|[<-|[]]]]]]; vm_compute; reflexivity.
  - destruct (proj2 (C72_even_coloring cycle5 G2)) as (c & E & _ & _ & S).
    { intros v Hv. cbn in Hv. intuition (subst; reflexivity). }
    exists c. split; auto. intros K. pose proof (proj1 S K [0; 1; 2; 3; 4]) as S'. assert (X : 5 mod 2 = 0); [|discriminate]. apply S'; [apply (sg_nodes _ G2)|apply incl_refl|].
    intros u w _ A. apply (adjacent_nodes _ _ _ G2 A).
  - destruct (proj2 (C72_coloring cycle5 [1; 2; 3] true G2)) as (c & E & _ & _ & S); [repeat (constructor; [cbn; lia|]); constructor|]. exists c. split; auto. apply S.
    exists (fun v => if v =? 4 then 3 else v mod 2 + 1). split; [intros v Hv; cbn in Hv; intuition (subst; cbn; auto)|].
    intros u v A. unfold adjacent in A. cbn in A. intuition (try congruence); match goal with H : (_, _) = _ |- _ => injection H as <- <- end; vm_compute in *; congruence.
  - destruct (proj2 (C72_coloring bowtie [1; 2] false G1)) as (c & E & _ & _ & S); [repeat (constructor; [cbn; lia|]); constructor|]. exists c. split; auto. rewrite S.
    intros (f & A & B). pose proof (A 0 ltac:(cbn; auto)). pose proof (A 1 ltac:(cbn; auto)). pose proof (A 2 ltac:(cbn; auto)).
    pose proof (B 0 1 ltac:(unfold adjacent; cbn; auto)). pose proof (B 1 2 ltac:(unfold adjacent; cbn; auto)). pose proof (B 0 2 ltac:(unfold adjacent; cbn; auto)). cbn [In] in *. lia.
  - destruct (C72_dominating_set bowtie 1 true G1 ltac:(lia)) as (c & E & _ & S & _). exists c. split; auto. apply S. exists [0].
    split; [repeat (constructor; [cbn; lia|]); constructor|]. split; [intros x [<-|[]]; cbn; auto|]. split; [cbn; lia|].
    intros v Hv. exists 0. split; [cbn; auto|]. unfold adjacent. cbn in Hv |- *. intuition (subst; auto 10).
  - destruct (C72_dominating_set cycle5 1 false G2 ltac:(lia)) as (c & E & _ & S & _). exists c. split; auto. rewrite S. intros (l & N & I & Len & D).
    destruct l as [|x [|y l]]; cbn [List.length] in Len; try lia.
    + destruct (D 0 ltac:(cbn; auto)) as (u & [] & _).
    + assert (K : forall v, In v [0; 1; 2; 3; 4] -> x = v \/ adjacent cycle5 x v) by (intros v Hv; destruct (D v Hv) as (u & [<-|[]] & K); exact K).
      pose proof (I x ltac:(cbn; auto)) as Hx. cbn in Hx.
      assert (Z' : x = 0 \/ x = 1 \/ x = 2 \/ x = 3 \/ x = 4) by intuition.
      destruct Z' as [->|[->|[->|[->| ->]]]].
      * destruct (K 2 ltac:(cbn; auto)) as [Q|Q]; unfold adjacent in *; cbn in Q; intuition congruence.
      * destruct (K 3 ltac:(cbn; auto)) as [Q|Q]; unfold adjacent in *; cbn in Q; intuition congruence.
      * destruct (K 4 ltac:(cbn; auto 10)) as [Q|Q]; unfold adjacent in *; cbn in Q; intuition congruence.
      * destruct (K 0 ltac:(cbn; auto)) as [Q|Q]; unfold adjacent in *; cbn in Q; intuition congruence.
      * destruct (K 1 ltac:(cbn; auto)) as [Q|Q]; unfold adjacent in *; cbn in Q; intuition congruence.
Qed.
EX*)

(* C73: SubsetCardinalityFormula(B): a model selects at least half of the edges at every left vertex and at most
   half at every right one (with equalities: exactly half, rounded up on the left and down on the right);
   there is one exactly when all degrees are even *)
Lemma p_C73_subset_cardinality : forall b equalities, bipartite_graph b ->
  exists c, SubsetCardinalityFormula b equalities = Ok c /\ made c /\
    (forall a, let chosen_left := fun u => how_many (fun v => a (edge_name u v)) (left_neighbors b u) in
               let chosen_right := fun v => how_many (fun u => a (edge_name u v)) (right_neighbors b v) in
       all_hold a (cnf_clauses c) <->
       (forall u, In u (b_left b) -> let d := Z.of_nat (List.length (left_neighbors b u)) in
          2 * chosen_left u >= d /\ (equalities = true -> 2 * chosen_left u <= d + 1)) /\
       (forall v, In v (b_right b) -> let d := Z.of_nat (List.length (right_neighbors b v)) in
          2 * chosen_right v <= d /\ (equalities = true -> 2 * chosen_right v >= d - 1))) /\
    (has_model (cnf_clauses c) <->
       (forall u, In u (b_left b) -> Z.of_nat (List.length (left_neighbors b u)) mod 2 = 0) /\
       (forall v, In v (b_right b) -> Z.of_nat (List.length (right_neighbors b v)) mod 2 = 0)).
Proof.
  intros b e G. destruct (sc_built b e G) as (c & E & M & L). exists c. split; auto. split; auto. rewrite L. split; [intros a; apply (sc_models b e a G)|apply sc_satisfiable; auto].
Qed.
(*EX
(* a cycle of length 4; a path of length 3 *)
Definition square : bipartite := mkBipartite [1; 2] [3; 4] [(1, 3); (1, 4); (2, 3); (2, 4)].
Definition zigzag : bipartite := mkBipartite [1; 2] [3; 4] [(1, 3); (1, 4); (2, 4)].
Example C73_applies :
  bipartite_graph square /\ bipartite_graph zigzag /\
  (exists c, SubsetCardinalityFormula square true = Ok c /\ has_model (cnf_clauses c)) /\
  (exists c, SubsetCardinalityFormula zigzag false = Ok c /\ ~ has_model (cnf_clauses c)).
Proof.
  assert (B : bipartite_graph square /\ bipartite_graph zigzag).
  { split; constructor; cbn [square zigzag b_left b_right b_edges].
    1, 2, 6, 7: repeat (constructor; [cbn; intuition lia|]); constructor.
    1, 4: repeat (constructor; [cbn; intuition congruence|]); constructor.
    1, 3: intros u v H; cbn in H |- *; intuition congruence.
    all: intros v H K; cbn in H, K; lia. }
  destruct B as [B1 B2]. split; [exact B1|]. split; [exact B2|]. split.
  - destruct (C73_subset_cardinality square true B1) as (c & E & _ & _ & S). exists c. split; auto. apply S.
    split; intros v Hv; cbn in Hv; intuition (subst; reflexivity).
  - destruct (C73_subset_cardinality zigzag false B2) as (c & E & _ & _ & S). exists c. split; auto. intros K. apply S in K as [K _].
    specialize (K 2 ltac:(cbn; auto)). vm_compute in K. discriminate.
Qed.
EX*)
