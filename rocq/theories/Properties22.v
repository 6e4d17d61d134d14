(* Properties22.v -- generated by tools/genprops.py from PP22.v: property theorems, their
   assumptions, and examples showing that the hypotheses are met.  Proofs are in PP22.v. *)
From Coq Require Import String Ascii ZArith List Bool Lia Sorted Permutation.
From Verif Require Import Spec PyBase MSet MText MCnf MFam MFam2 SpecCnf SpecFam SpecFam2 PLib PCnf1 PCnf2 PFam1 PFam2 PFam3 PFam4 PFam5 PFam6 PFam7 PFam8 PFam9 PFam10 PFam11 PFam16 PTrans1 PNames.
Import ListNotations.
From Verif Require Import PP22.
Open Scope Z_scope.

(* C81: the variables of the pigeonhole formulas, in the order of their DIMACS numbers: p_{i,j} row by row *)
Theorem C81_pigeonhole_names :
  (forall pigeons holes f o c, PigeonholePrinciple pigeons holes f o = Ok c ->
     cn_names c = flat_map (fun i => map (fun j => name2 (txt "p_{") i j) (range 1 (holes + 1))) (range 1 (pigeons + 1))) /\
  (forall bits pigeons holes c, BinaryPigeonholePrinciple bits pigeons holes = Ok c ->
     cn_names c = flat_map (fun i => map (fun b => name2 (txt "Y_{") i b) (range 0 (Z.of_nat bits))) (range 1 (pigeons + 1))) /\
  (forall b f o c, bipartite_graph b -> GraphPigeonholePrinciple b f o = Ok c ->
     exists nb, (forall u, StronglySorted Z.lt (nb u) /\ forall v, In v (nb u) <-> In (u, v) (b_edges b)) /\
       cn_names c = flat_map (fun u => map (fun v => name2 (txt "p_{") u v) (nb u)) (b_left b)).
Proof. exact p_C81_pigeonhole_names. Qed.
Print Assumptions C81_pigeonhole_names.

(* C81: of the formulas about numbers: e_{u,v} for u < v row by row, x_{i}, and e, q, r of clique-coloring *)
Theorem C81_number_names :
  (forall s k N c, RamseyLowerBoundFormula s k N = Ok c ->
     cn_names c = flat_map (fun u => map (fun v => name2 (txt "e_{") u v) (range (u + 1) (N + 1))) (range 1 (N + 1))) /\
  (forall N c, PythagoreanTriples N = Ok c -> cn_names c = map (fun i => name1 (txt "x_{") i) (range 1 (N + 1))) /\
  (forall n k m c, CliqueColoring n k m = Ok c ->
     cn_names c = flat_map (fun u => map (fun v => name2 (txt "e_{") u v) (range (u + 1) (n + 1))) (range 1 (n + 1)) ++
                  flat_map (fun i => map (fun v => name2 (txt "q_{") i v) (range 1 (n + 1))) (range 1 (k + 1)) ++
                  flat_map (fun v => map (fun l => name2 (txt "r_{") v l) (range 1 (m + 1))) (range 1 (n + 1))).
Proof. exact p_C81_number_names. Qed.
Print Assumptions C81_number_names.

(* C81: of the formulas about graphs, in the order of the vertices and edges of the graph *)
Theorem C81_graph_names : forall g, simple_graph g ->
  (forall t p k c, GraphOrderingPrinciple g t false p k = Ok c ->
     cn_names c = flat_map (fun u => map (fun v => name2 (txt "x_{") u v) (filter (fun v => negb (v =? u)) (g_nodes g))) (g_nodes g)) /\
  (forall t p k c, GraphOrderingPrinciple g t true p k = Ok c ->
     cn_names c = flat_map (fun i => map (fun v => name2 (txt "x_{") (nth i (g_nodes g) 0) v) (skipn (S i) (g_nodes g))) (seq 0 (List.length (g_nodes g)))) /\
  (forall h c, simple_graph h -> GraphIsomorphism g h = Ok c ->
     cn_names c = flat_map (fun u => map (fun v => name2 (txt "x_{") u v) (g_nodes h)) (g_nodes g)) /\
  (forall c, GraphAutomorphism g = Ok c ->
     cn_names c = flat_map (fun u => map (fun v => name2 (txt "x_{") u v) (g_nodes g)) (g_nodes g)) /\
  (forall colors f c, NoDup colors -> GraphColoringFormula g colors f = Ok c ->
     cn_names c = flat_map (fun v => map (fun k => name2 (txt "x_{") v k) colors) (g_nodes g)) /\
  (forall c, EvenColoringFormula g = Ok c ->
     cn_names c = map (fun e => name2 (txt "x_{") (Z.min (fst e) (snd e)) (Z.max (fst e) (snd e))) (g_edges g)) /\
  (forall d alt c, DominatingSet g d alt = Ok c ->
     cn_names c = map (fun v => name1 (txt "x_{") v) (g_nodes g) ++
                  flat_map (fun i => map (fun v => name2 (txt "g_{") v i) (g_nodes g)) (range 1 (d + 1))).
Proof. exact p_C81_graph_names. Qed.
Print Assumptions C81_graph_names.

(* C81: TseitinFormula: one variable E_{u,v} per edge, sorted by the smaller and then the larger end;
   SubsetCardinalityFormula: one variable x_{u,v} per edge, by left vertices *)
Theorem C81_edge_names :
  (forall g charges c, simple_graph g -> TseitinFormula g charges = Ok c ->
     exists es, Permutation es (g_edges g) /\
       StronglySorted (fun e f => Z.min (fst e) (snd e) < Z.min (fst f) (snd f) \/
         (Z.min (fst e) (snd e) = Z.min (fst f) (snd f) /\ Z.max (fst e) (snd e) < Z.max (fst f) (snd f))) es /\
       cn_names c = map (fun e => name2 (txt "E_{") (fst e) (snd e)) es) /\
  (forall b equal c, bipartite_graph b -> SubsetCardinalityFormula b equal = Ok c ->
     exists nb, (forall u, StronglySorted Z.lt (nb u) /\ forall v, In v (nb u) <-> In (u, v) (b_edges b)) /\
       cn_names c = flat_map (fun u => map (fun v => name2 (txt "x_{") (Z.min u v) (Z.max u v)) (nb u)) (b_left b)).
Proof. exact p_C81_edge_names. Qed.
Print Assumptions C81_edge_names.

(* C81: of the pebbling and stone formulas, in the order of the vertices *)
Theorem C81_pebbling_names : forall d, proper_digraph d ->
  (forall c, PebblingFormula d = Ok c -> cn_names c = map str_Z (d_nodes d)) /\
  (forall n c, StoneFormula d n = Ok c ->
     cn_names c = flat_map (fun v => map (fun j => name2 (txt "P_{") v j) (range 1 (n + 1))) (d_nodes d) ++
                  map (fun j => name1 (txt "R_{") j) (range 1 (n + 1))) /\
  (forall b c, bipartite_graph b -> SparseStoneFormula d b = Ok c ->
     exists st, (forall v, NoDup (st v)) /\ (forall v j, In v (d_nodes d) -> (In j (st v) <-> stone_allowed d b v j)) /\
       cn_names c = flat_map (fun v => map (fun j => name2 (txt "X_{") v j) (st v)) (d_nodes d) ++
                    map (fun j => name1 (txt "R_{") j) (range 1 (Z.of_nat (List.length (b_right b)) + 1))).
Proof. exact p_C81_pebbling_names. Qed.
Print Assumptions C81_pebbling_names.

(* C81: of the subgraph formulas: the selectors of the templates, then S_{i,j} row by row *)
Theorem C81_subgraph_names : forall g ts s c, ts <> [] -> SubgraphFormula g ts s = Ok c ->
  cn_names c =
    match ts with
    | [_] => []
    | [_; _] => [txt "c"]
    | _ => map (fun i => name1 (txt "c_{") i) (range 0 (Z.of_nat (List.length ts)))
    end ++
    flat_map (fun i => map (fun j => name2 (txt "S_{") i j) (range 0 (Z.of_nat (List.length (g_nodes g)))))
      (range 0 (fold_right Z.max 0 (map (fun t => Z.of_nat (List.length (g_nodes t))) ts))).
Proof. exact p_C81_subgraph_names. Qed.
Print Assumptions C81_subgraph_names.

(* C81: CountingPrinciple and PerfectMatchingPrinciple declare no variables beforehand: they have one for every p-element
   set and every edge, none twice *)
Theorem C81_matching_names :
  (forall M p c, 0 < p -> CountingPrinciple M p = Ok c -> NoDup (cn_names c) /\
     forall n, In n (cn_names c) <-> exists S, StronglySorted Z.lt S /\ (forall x, In x S -> 0 <= x < M) /\ Z.of_nat (List.length S) = p /\
       n = txt "Y_{{" ++ join (txt ",") (map str_Z S) ++ txt "}}") /\
  (forall g c, simple_graph g -> PerfectMatchingPrinciple g = Ok c -> NoDup (cn_names c) /\
     forall n, In n (cn_names c) <-> exists u v, adjacent g u v /\ n = name2 (txt "x_{") (Z.min u v) (Z.max u v)).
Proof. exact p_C81_matching_names. Qed.
Print Assumptions C81_matching_names.

(* the numbers of a few variables *)
Definition triangle3 : graph := mkGraph [5; 3; 4] [(5, 3); (4, 5); (3, 4)].
Lemma triangle3_simple : simple_graph triangle3.
Proof.
  constructor; cbn [triangle3 g_nodes g_edges].
  - repeat (constructor; [cbn; intuition lia|]); constructor.
  - repeat (constructor; [cbn; intuition congruence|]); constructor.
  - intros u v H K; cbn in H, K; intuition congruence.
  - intros u v H; cbn in H |- *; intuition congruence.
Qed.
Example C81_applies :
  (exists c, PigeonholePrinciple 3 2 true false = Ok c /\ nth_error (cn_names c) 3 = Some (txt "p_{2,2}")) /\
  (exists c, RamseyLowerBoundFormula 3 3 4 = Ok c /\ nth_error (cn_names c) 5 = Some (txt "e_{3,4}")) /\
  (exists c, GraphOrderingPrinciple triangle3 true false false 0 = Ok c /\ nth_error (cn_names c) 2 = Some (txt "x_{3,5}")) /\
  (exists c, EvenColoringFormula triangle3 = Ok c /\ cn_names c = [txt "x_{3,5}"; txt "x_{4,5}"; txt "x_{3,4}"]) /\
  (exists c, TseitinFormula triangle3 None = Ok c /\ cn_names c = [txt "E_{3,4}"; txt "E_{5,3}"; txt "E_{4,5}"]) /\
  (exists c, CountingPrinciple 4 2 = Ok c /\ In (txt "Y_{{1,3}}") (cn_names c)) /\
  (exists c, RamseyWitnessFormula triangle3 3 2 = Ok c /\ nth_error (cn_names c) 0 = Some (txt "c")).
Proof.
  repeat split.
  1-5, 7: eexists; (split; [vm_compute; reflexivity|vm_compute; reflexivity]).
  eexists. split; [vm_compute; reflexivity|]. vm_compute. tauto.
Qed.

(* C82: OrFormula(P, N) and AndFormula(P, N) over x_0 .. x_{P-1}, y_0 .. y_{N-1}: one of the x true or one of the y
   false, all x true and all y false; EmptyFormula and EmptyClauseFormula have no variables, the second no model *)
Theorem C82_simple_formulas : forall P N,
  (exists c, OrFormula P N = Ok c /\ made c /\
     cn_names c = map (fun i => txt "x_" ++ str_Z i) (range 0 P) ++ map (fun i => txt "y_" ++ str_Z i) (range 0 N) /\
     List.length (cn_clauses c) = 1%nat /\
     forall a, all_hold a (cnf_clauses c) <->
       (exists i, 0 <= i < P /\ a (txt "x_" ++ str_Z i) = true) \/ (exists i, 0 <= i < N /\ a (txt "y_" ++ str_Z i) = false)) /\
  (exists c, AndFormula P N = Ok c /\ made c /\
     cn_names c = map (fun i => txt "x_" ++ str_Z i) (range 0 P) ++ map (fun i => txt "y_" ++ str_Z i) (range 0 N) /\
     (forall cl, In cl (cn_clauses c) -> List.length cl = 1%nat) /\
     forall a, all_hold a (cnf_clauses c) <->
       (forall i, 0 <= i < P -> a (txt "x_" ++ str_Z i) = true) /\ (forall i, 0 <= i < N -> a (txt "y_" ++ str_Z i) = false)).
Proof. exact p_C82_simple_formulas. Qed.
Print Assumptions C82_simple_formulas.

(* C82 *)
Theorem C82_empty_formulas :
  (exists c, EmptyFormula = Ok c /\ cn_names c = [] /\ cn_clauses c = [] /\ has_model (cnf_clauses c)) /\
  (exists c, EmptyClauseFormula = Ok c /\ cn_names c = [] /\ cn_clauses c = [[]] /\ ~ has_model (cnf_clauses c)).
Proof. exact p_C82_empty_formulas. Qed.
Print Assumptions C82_empty_formulas.

(* two positive, one negative literal *)
Example C82_applies : exists c, OrFormula 2 1 = Ok c /\ cn_clauses c = [[1; 2; -3]] /\ exists d, AndFormula 2 1 = Ok d /\ cn_clauses d = [[1]; [2]; [-3]] /\ OrFormula (-1) 0 = EmptyClauseFormula.
Proof. eexists. split; [reflexivity|]. split; [reflexivity|]. eexists. split; [reflexivity|]. split; reflexivity. Qed.
