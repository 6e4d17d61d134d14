(* PP17.v -- formula families of the bundled generator (C68-C69): statements and proofs. *)
From Coq Require Import String Ascii ZArith List Bool Lia Sorted.
From Verif Require Import Spec PyBase MSet MText MGen MCnf MFam SpecCnf SpecFam PLib PCnf1 PCnf2 PFam1 PFam2 PFam3 PFam4.
Import ListNotations.
Open Scope Z_scope.

(* C68: the clauses of unary_mapping(D, R, ...) hold exactly for the relations between D and R with the
   properties asked for; nondecreasing: later elements of D do not get earlier elements of R *)
Lemma p_C68_unary_mapping : forall (D R : list Z) name functional surjective injective nondecreasing (a : text -> bool),
  NoDup D -> NoDup R ->
  (all_hold a (um_clauses (plain_mapping D R name functional surjective injective nondecreasing)) <->
   (forall d, In d D -> exists e, In e R /\ a (name d e) = true) /\
   (functional = true -> forall d e e', In d D -> In e R -> In e' R -> a (name d e) = true -> a (name d e') = true -> e = e') /\
   (surjective = true -> forall e, In e R -> exists d, In d D /\ a (name d e) = true) /\
   (injective = true -> forall d d' e, In d D -> In d' D -> In e R -> a (name d e) = true -> a (name d' e) = true -> d = d') /\
   (nondecreasing = true -> forall i i' j j' d d' e e', (i < i')%nat ->
      nth_error D i = Some d -> nth_error D i' = Some d' -> nth_error R j = Some e -> nth_error R j' = Some e' ->
      a (name d e) = true -> a (name d' e') = true -> (j <= j')%nat)).
Proof.
  intros D R name f s i nd a ND NR. rewrite unary_models by (intros; auto). unfold is_mapping, plain_mapping.
  cbn [um_complete um_surjective um_injective um_functional um_nondecreasing um_domain um_range um_images um_counterimages um_name um_rank].
  assert (RK : forall l j e k, NoDup l -> nth_error l j = Some e -> rank_of e l k = k + Z.of_nat j).
  { clear. induction l as [|x l IH]; intros j e k N H; [destruct j; discriminate|]. inversion N as [|? ? N1 N2]; subst. destruct j as [|j]; cbn [rank_of].
    - injection H as ->. rewrite Z.eqb_refl. lia.
    - cbn in H. destruct (Z.eqb_spec e x) as [->|]; [apply nth_error_In in H; contradiction|]. rewrite (IH j e (k + 1) N2 H). lia. }
  split.
  - intros (A & B & C & E & G). split; [auto|]. split; [auto|]. split; [auto|]. split; [intros X d d' e Hd Hd' He; apply C; auto|].
    intros X k k' j j' d d' e e' L K1 K2 K3 K4 T1 T2.
    assert (rank_of e R 1 <= rank_of e' R 1).
    { apply (G X d d' e e'); auto; [|eapply nth_error_In; eauto|eapply nth_error_In; eauto]. apply pairs_nth. exists k, k'. auto. }
    rewrite (RK _ _ _ _ NR K3), (RK _ _ _ _ NR K4) in H. lia.
  - intros (A & B & C & E & G). split; [auto|]. split; [auto|]. split; [intros X e d d' He Hd Hd'; apply E; auto|]. split; [auto|].
    intros X d d' e e' HP He He' T1 T2. apply pairs_nth in HP as (k & k' & L & K1 & K2).
    apply In_nth_error in He as (j & K3). apply In_nth_error in He' as (j' & K4).
    rewrite (RK _ _ _ _ NR K3), (RK _ _ _ _ NR K4). specialize (G X k k' j j' d d' e e' L K1 K2 K3 K4 T1 T2). lia.
Qed.
(* C68: in binary_mapping(D, R, ...), with enough bits, an assignment gives every element of D a number; the
   clauses hold exactly when all numbers are positions in R and, if asked for, different and nondecreasing *)
Lemma p_C68_binary_mapping : forall (D R : list Z) bits name injective nondecreasing (a : text -> bool),
  NoDup D -> (List.length R <= 2 ^ bits)%nat ->
  let number := fun d => bits_value (map (fun b => a (name d (Z.of_nat b))) (seq 0 bits)) in
  (all_hold a (bm_clauses (mkBinary D R bits name injective nondecreasing)) <->
   (forall d, In d D -> number d < Z.of_nat (List.length R)) /\
   (injective = true -> forall d d', In d D -> In d' D -> number d = number d' -> d = d') /\
   (nondecreasing = true -> forall i i' d d', (i < i')%nat -> nth_error D i = Some d -> nth_error D i' = Some d' -> number d <= number d')).
Proof.
  intros D R bits name i nd a ND H number. rewrite binary_models by auto. cbn [bm_domain bm_range bm_injective bm_nondecreasing].
  unfold code. cbn [bm_name bm_bits]. fold number. split.
  - intros (A & B & C). split; auto. split.
    + intros X d d' Hd Hd' E. destruct (Z.eq_dec d d'); auto. destruct (pairs_total D d d' Hd Hd' n) as [K|K]; exfalso; apply (B X) in K; auto.
    + intros X k k' d d' L K1 K2. apply (C X). apply pairs_nth. exists k, k'. auto.
  - intros (A & B & C). split; auto. split.
    + intros X d d' HP E. pose proof (pairs_neq D d d' ND HP). apply pairs_In in HP as [Hd Hd']. auto.
    + intros X d d' HP. apply pairs_nth in HP as (k & k' & L & K1 & K2). eapply C; eauto.
Qed.
(* C68: PigeonholePrinciple: always a formula; its models are the assignments of pigeons to holes, p_{i,j}
   meaning pigeon i in hole j; one exists exactly when there are enough holes, as many as pigeons if the
   assignment has to be a bijection (and with no pigeon but with holes none is onto) *)
Lemma p_C68_pigeonhole : forall pigeons holes functional onto,
  exists c, PigeonholePrinciple pigeons holes functional onto = Ok c /\ made c /\
    (forall a, all_hold a (cnf_clauses c) <->
       assigns (fun i => 1 <= i <= pigeons) (fun j => 1 <= j <= holes) (fun _ _ => True) functional onto
               (fun i j => a (name2 (txt "p_{") i j) = true)) /\
    (0 <= pigeons -> 0 <= holes ->
     (has_model (cnf_clauses c) <->
      pigeons <= holes /\ (onto = true -> functional = true -> pigeons = holes) /\ (onto = true -> pigeons = 0 -> holes = 0))).
Proof.
  intros p h f o. destruct (php_built p h f o) as (c & E & M & L & _). exists c. split; auto. split; auto. rewrite L. split.
  - intros a. apply php_models.
  - apply php_satisfiable.
Qed.
(* C68: the same along the edges of a bipartite graph: always a formula; a model is an assignment along edges;
   unless it may give several holes to a pigeon, one exists exactly when the graph has a matching of the left
   side, and, if it has to be onto, sides of the same size *)
Lemma p_C68_graph_pigeonhole : forall b functional onto, bipartite_graph b ->
  exists c, GraphPigeonholePrinciple b functional onto = Ok c /\ made c /\
    (forall a, all_hold a (cnf_clauses c) <->
       assigns (fun i => In i (b_left b)) (fun j => In j (b_right b)) (fun i j => In (i, j) (b_edges b)) functional onto
               (fun i j => a (name2 (txt "p_{") i j) = true)) /\
    (has_model (cnf_clauses c) <-> exists r : Z -> Z -> bool,
       assigns (fun i => In i (b_left b)) (fun j => In j (b_right b)) (fun i j => In (i, j) (b_edges b)) functional onto
               (fun i j => r i j = true)) /\
    ((onto = true -> functional = true) ->
     (has_model (cnf_clauses c) <->
      (exists mate : Z -> Z, (forall u, In u (b_left b) -> In (u, mate u) (b_edges b)) /\
         forall u u', In u (b_left b) -> In u' (b_left b) -> mate u = mate u' -> u = u') /\
      (onto = true -> List.length (b_left b) = List.length (b_right b)))).
Proof.
  intros b f o G. destruct (gphp_built b f o G) as (c & E & M & L). exists c. split; auto. split; auto. rewrite L. split; [|split].
  - intros a. apply gphp_models; auto.
  - apply gphp_satisfiable; auto.
  - apply gphp_matching; auto.
Qed.
(* C68: BinaryPigeonholePrinciple: the hole of a pigeon is written in binary; ValueError without holes *)
Lemma p_C68_binary_pigeonhole : forall bits pigeons holes,
  (holes < 1 -> BinaryPigeonholePrinciple bits pigeons holes = Err ValueError) /\
  (1 <= holes -> exists c, BinaryPigeonholePrinciple bits pigeons holes = Ok c /\ made c /\
    (0 <= pigeons -> holes <= 2 ^ Z.of_nat bits ->
     (forall a, let hole := fun i => bits_value (map (fun b => a (name2 (txt "Y_{") i (Z.of_nat b))) (seq 0 bits)) in
        (all_hold a (cnf_clauses c) <->
         (forall i, 1 <= i <= pigeons -> hole i < holes) /\
         (forall i j, 1 <= i <= pigeons -> 1 <= j <= pigeons -> i <> j -> hole i <> hole j))) /\
     (has_model (cnf_clauses c) <-> pigeons <= holes))).
Proof.
  intros bits p h. split.
  - intros H. unfold BinaryPigeonholePrinciple. destruct (Z.ltb_spec h 1); auto; lia.
  - intros H. destruct (bphp_built bits p h H) as (c & E & M & L). exists c. split; auto. split; auto. rewrite L. intros Hp Hh. split.
    + intros a. apply (bphp_models bits p h a); auto.
    + apply bphp_satisfiable; auto.
Qed.
(*EX
(* four pigeons and three holes, three pigeons and three holes; a graph with left side 1, 2, 3 and right side 4, 5 *)
Definition left_heavy : bipartite := mkBipartite [1; 2; 3] [4; 5; 6] [(1, 4); (2, 4); (2, 5); (3, 5)].
Example C68_applies :
  bipartite_graph left_heavy /\
  (exists c, PigeonholePrinciple 4 3 true false = Ok c /\ ~ has_model (cnf_clauses c)) /\
  (exists c, PigeonholePrinciple 3 3 true true = Ok c /\ has_model (cnf_clauses c)) /\
  (exists c, BinaryPigeonholePrinciple 2 4 3 = Ok c /\ ~ has_model (cnf_clauses c)) /\
  (exists c, GraphPigeonholePrinciple left_heavy true false = Ok c /\ ~ has_model (cnf_clauses c)).
Proof.
  assert (B : bipartite_graph left_heavy).
  { constructor; cbn [left_heavy b_left b_right b_edges].
    - repeat (constructor; [cbn; intuition lia|]). constructor.
    - repeat (constructor; [cbn; intuition lia|]). constructor.
    - repeat (constructor; [cbn; intuition congruence|]). constructor.
    - intros u v H. cbn in H. intuition (try congruence); injection H0 as <- <- || injection H as <- <-; cbn; auto.
    - intros v H K. cbn in H, K. lia. }
  split; [exact B|]. split; [|split; [|split]].
  - destruct (C68_pigeonhole 4 3 true false) as (c & E & _ & _ & S). exists c. split; auto. rewrite S by lia. lia.
  - destruct (C68_pigeonhole 3 3 true true) as (c & E & _ & _ & S). exists c. split; auto. rewrite S by lia. lia.
  - destruct (proj2 (C68_binary_pigeonhole 2 4 3)) as (c & E & _ & S); [lia|]. exists c. split; auto. rewrite (proj2 (S ltac:(lia) ltac:(cbn; lia))). lia.
  - destruct (C68_graph_pigeonhole left_heavy true false B) as (c & E & _ & _ & _ & S). exists c. split; auto.
    rewrite S by discriminate. intros [(m & A & I) _]. cbn [left_heavy b_left b_edges] in *.
    pose proof (A 1 ltac:(cbn; auto)) as A1. pose proof (A 2 ltac:(cbn; auto)) as A2. pose proof (A 3 ltac:(cbn; auto)) as A3.
    assert (m 1 = 4) by (cbn in A1; intuition congruence). assert (m 3 = 5) by (cbn in A3; intuition congruence).
    assert (m 2 = 4 \/ m 2 = 5) as [K|K] by (cbn in A2; intuition congruence).
    + pose proof (I 1 2 ltac:(cbn; auto) ltac:(cbn; auto) ltac:(congruence)). lia.
    + pose proof (I 2 3 ltac:(cbn; auto) ltac:(cbn; auto) ltac:(congruence)). lia.
Qed.
EX*)

(* C69: CountingPrinciple(M, p): a formula about a set of p-element subsets of 0..M-1, written as increasing
   lists, that every element belongs to exactly one of them: satisfiable exactly when p divides M; ValueError
   for negative p *)
Lemma p_C69_counting : forall M p,
  (p < 0 -> CountingPrinciple M p = Err ValueError) /\
  (0 <= p -> exists c, CountingPrinciple M p = Ok c /\ made c /\
    (forall a, all_hold a (cnf_clauses c) <->
       forall el, 0 <= el < M ->
         exists S, (StronglySorted Z.lt S /\ Z.of_nat (List.length S) = p /\ (forall x, In x S -> 0 <= x < M)) /\
                   In el S /\ a (part_name S) = true /\
           forall S', StronglySorted Z.lt S' -> Z.of_nat (List.length S') = p -> (forall x, In x S' -> 0 <= x < M) ->
                      In el S' -> a (part_name S') = true -> S' = S) /\
    (0 <= M -> (has_model (cnf_clauses c) <-> (p | M)))).
Proof.
  intros M p. split.
  - intros H. unfold CountingPrinciple, py_combinations. destruct (Z.ltb_spec p 0); auto; lia.
  - intros H. destruct (counting_built M p H) as (c & E & MM & L). exists c. split; auto. split; auto. rewrite L. split.
    + intros a. rewrite counting_models.
      assert (K : forall S, In S (combinations (range 0 M) (Z.to_nat p)) <->
        StronglySorted Z.lt S /\ Z.of_nat (List.length S) = p /\ (forall x, In x S -> 0 <= x < M)).
      { intros S. rewrite combinations_sorted by apply range_sorted. split; intros (A & B & C); split; auto; split; try lia.
        - intros x Hx. apply range_In. auto.
        - intros x Hx. apply range_In. auto. }
      split; intros X el Hel; specialize (X el Hel).
      * apply how_many_1 in X as (S & HS & T & U); [|apply combinations_distinct, range_NoDup]. apply andb_true_iff in T as [T1 T2].
        exists S. split; [apply K; auto|]. split; [apply zmem_In; auto|]. split; auto. intros S' A B C D T'. apply U; [apply K; auto|].
        apply andb_true_iff. split; auto. apply zmem_In. auto.
      * destruct X as (S & HS & T1 & T2 & U). apply how_many_1; [apply combinations_distinct, range_NoDup|]. exists S. split; [apply K; auto|].
        split; [apply andb_true_iff; split; auto; apply zmem_In; auto|]. intros S' HS' T. apply K in HS' as (A & B & C).
        apply andb_true_iff in T as [T3 T4]. apply zmem_In in T3. auto.
    + intros HM. apply counting_satisfiable; auto.
Qed.
(* C69: PerfectMatchingPrinciple(G): a model selects edges so that every vertex is on exactly one; satisfiable
   exactly when the graph has a perfect matching, so never with an odd number of vertices *)
Lemma p_C69_perfect_matching : forall g, simple_graph g ->
  exists c, PerfectMatchingPrinciple g = Ok c /\ made c /\
    (forall a, all_hold a (cnf_clauses c) <->
       forall v, In v (g_nodes g) -> exists u, adjacent g v u /\ a (edge_name v u) = true /\
         forall w, adjacent g v w -> a (edge_name v w) = true -> w = u) /\
    (has_model (cnf_clauses c) <->
       exists mate : Z -> Z, forall v, In v (g_nodes g) -> adjacent g v (mate v) /\ mate (mate v) = v) /\
    (Nat.Odd (List.length (g_nodes g)) -> ~ has_model (cnf_clauses c)).
Proof.
  intros g G. destruct (matching_built g G) as (c & E & M & L). exists c. split; auto. split; auto. rewrite L. split; [|split].
  - intros a. apply matching_models; auto.
  - apply matching_satisfiable; auto.
  - intros O K. apply matching_even in K; auto. apply (Nat.Even_Odd_False _ K O).
Qed.
(*EX
(* a path of four vertices and a star with three leaves *)
Definition path4 : graph := mkGraph [0; 1; 2; 3] [(0, 1); (1, 2); (2, 3)].
Definition star3 : graph := mkGraph [0; 1; 2; 3] [(0, 1); (0, 2); (0, 3)].
Example C69_applies :
  simple_graph path4 /\ simple_graph star3 /\
  (exists c, CountingPrinciple 7 3 = Ok c /\ ~ has_model (cnf_clauses c)) /\
  (exists c, CountingPrinciple 6 3 = Ok c /\ has_model (cnf_clauses c)) /\
  (exists c, PerfectMatchingPrinciple path4 = Ok c /\ has_model (cnf_clauses c)) /\
  (exists c, PerfectMatchingPrinciple star3 = Ok c /\ ~ has_model (cnf_clauses c)).
Proof.
  assert (G : simple_graph path4 /\ simple_graph star3).
  { split; constructor; cbn [path4 star3 g_nodes g_edges].
    1, 5: repeat (constructor; [cbn; intuition lia|]); constructor.
    1, 4: repeat (constructor; [cbn; intuition congruence|]); constructor.
    1, 3: intros u v H K; cbn in H, K; intuition congruence.
    all: intros u v H; cbn in H |- *; intuition congruence. }
  destruct G as [G1 G2]. split; [exact G1|]. split; [exact G2|]. split; [|split; [|split]].
  - destruct (proj2 (C69_counting 7 3)) as (c & E & _ & _ & S); [lia|]. exists c. split; auto. rewrite S by lia. intros (k & K). lia.
  - destruct (proj2 (C69_counting 6 3)) as (c & E & _ & _ & S); [lia|]. exists c. split; auto. rewrite S by lia. exists 2. reflexivity.
  - destruct (C69_perfect_matching path4 G1) as (c & E & _ & _ & S & _). exists c. split; auto. apply S.
    exists (fun v => Z.lxor v 1). intros v H. cbn in H. unfold adjacent. cbn [path4 g_edges].
    destruct H as [<-|[<-|[<-|[<-|[]]]]]; (split; [cbn; auto 6|reflexivity]).
  - destruct (C69_perfect_matching star3 G2) as (c & E & _ & _ & S & _). exists c. split; auto. rewrite S.
    intros (m & Hm). assert (K : forall v, In v [1; 2; 3] -> m v = 0).
    { intros v Hv. destruct (Hm v) as [[A|A] _]; [cbn in *; tauto| |]; cbn in A, Hv;
        repeat (destruct A as [A|A]; [injection A; intros; lia|]); destruct A. }
    pose proof (K 1 ltac:(cbn; auto)). pose proof (K 2 ltac:(cbn; auto)).
    pose proof (proj2 (Hm 1 ltac:(cbn; auto))). pose proof (proj2 (Hm 2 ltac:(cbn; auto))). congruence.
Qed.
EX*)
