(* MFam.v -- the formula families of the bundled generator, software/cnfgen/cnfformula/families/*.py.
   Simplifications: vertices of graphs are integers; a graph is the list of its vertices and of its edges (each
   edge once), in the order enumerate_vertices and enumerate_edges give them; the headers of the formulas, which are comments in the file, are left out. *)
From Coq Require Import String Ascii ZArith List Bool.
From Verif Require Import PyBase MText MCnf.
Import ListNotations.
Open Scope Z_scope.

(* '<prefix>{0}}'.format(i), '<prefix>{0},{1}}'.format(i,j) *)
Definition name1 (prefix : text) (i : Z) : text := prefix ++ str_Z i ++ txt "}".
Definition name2 (prefix : text) (i j : Z) : text := prefix ++ str_Z i ++ txt "," ++ str_Z j ++ txt "}".

(* the usual shape of a generator: variables first, then clauses *)
Definition build (add : list (plit text) -> cnf -> result cnf) (vs : list text) (cls : list (list (plit text))) : result cnf :=
  add_all add cls (add_variables vs empty_cnf).

(* combinations(l, k) for an integer k *)
Definition py_combinations {A} (l : list A) (k : Z) : result (list (list A)) :=
  if k <? 0 then Err ValueError else Ok (combinations l (Z.to_nat k)).

(* ---- pigeonhole.py ---- *)
Definition php_name : Z -> Z -> text := name2 (txt "p_{").
Definition mapping_formula {A B} (m : unary_mapping A B) : result cnf := build add_clause_unsafe (um_variables m) (um_clauses m).
(* pigeonhole.py:17-96 *)
Definition PigeonholePrinciple (pigeons holes : Z) (functional onto : bool) : result cnf :=
  mapping_formula (plain_mapping (range 1 (pigeons + 1)) (range 1 (holes + 1)) php_name functional onto true false).
(* pigeonhole.py:166-192; the default var_name of binary_mapping (cnf.py:1275-1277) *)
Definition binary_name : Z -> Z -> text := name2 (txt "Y_{").
Definition BinaryPigeonholePrinciple (bits : nat) (pigeons holes : Z) : result cnf :=
  if holes <? 1 then Err ValueError            (* log of 0 *)
  else let m := mkBinary (range 1 (pigeons + 1)) (range 1 (holes + 1)) bits binary_name true false in
       build add_clause_unsafe (bm_variables m) (bm_clauses m).

(* ---- counting.py ---- *)
(* counting.py:34-35: the doubled braces are literal, format is not applied *)
Definition part_name (tpl : list Z) : text := txt "Y_{{" ++ join (txt ",") (map str_Z tpl) ++ txt "}}".
(* counting.py:17-51 *)
Definition CountingPrinciple (M p : Z) : result cnf :=
  parts <- py_combinations (range 0 M) p ;;
  add_all cnf_add_clause
    (flat_map (fun el => equal_to_constraint (map part_name (filter (zmem el) parts)) 1) (range 0 M)) empty_cnf.

(* ---- ramsey.py ---- *)
Definition edge_var (e : Z * Z) : text := name2 (txt "e_{") (fst e) (snd e).
(* ramsey.py:72-115 *)
Definition RamseyLowerBoundFormula (s k N : Z) : result cnf :=
  let V := range 1 (N + 1) in
  ss <- py_combinations V s ;;
  ks <- py_combinations V k ;;
  build add_clause_strict (map edge_var (pairs V))
    (map (fun S => map (fun e => (true, edge_var e)) (pairs S)) ss ++
     map (fun S => map (fun e => (false, edge_var e)) (pairs S)) ks).
(* ramsey.py:16-68; int(sqrt(x)) is exact below 2^52 *)
Definition ptn_name (i : Z) : text := name1 (txt "x_{") i.
Definition PythagoreanTriples (N : Z) : result cnf :=
  build add_clause_strict (map ptn_name (range 1 (N + 1)))
    (flat_map (fun xy =>
       let x := fst xy in let y := snd xy in let z := Z.sqrt (x ^ 2 + y ^ 2) in
       if (z <=? N) && (z ^ 2 =? x ^ 2 + y ^ 2)
       then [map (fun i => (true, ptn_name i)) [x; y; z]; map (fun i => (false, ptn_name i)) [x; y; z]] else [])
     (pairs (range 1 (N + 1)))).

(* ---- cliquecoloring.py:14-106 ---- *)
Definition cc_E (u v : Z) : text := name2 (txt "e_{") (Z.min u v) (Z.max u v).
Definition cc_Q : Z -> Z -> text := name2 (txt "q_{").
Definition cc_R : Z -> Z -> text := name2 (txt "r_{").
Definition CliqueColoring (n k c : Z) : result cnf :=
  let V := range 1 (n + 1) in let K := range 1 (k + 1) in let C := range 1 (c + 1) in
  build add_clause_strict
    (flat_map (fun u => map (cc_E u) (range (u + 1) (n + 1))) V ++
     flat_map (fun i => map (cc_Q i) V) K ++
     flat_map (fun v => map (cc_R v) C) V)
    (flat_map (fun i => equal_to_constraint (map (cc_Q i) V) 1) K ++
     flat_map (fun v => map (fun ij => [(false, cc_Q (fst ij) v); (false, cc_Q (snd ij) v)]) (pairs K)) V ++
     flat_map (fun uv => map (fun ij => [(true, cc_E (fst uv) (snd uv)); (false, cc_Q (fst ij) (fst uv)); (false, cc_Q (snd ij) (snd uv))])
                             (permutations2 K)) (pairs V) ++
     flat_map (fun v => equal_to_constraint (map (cc_R v) C) 1) V ++
     flat_map (fun uv => map (fun l => [(false, cc_E (fst uv) (snd uv)); (false, cc_R (fst uv) l); (false, cc_R (snd uv) l)]) C) (pairs V)).

(* ---- simple.py ---- *)
Definition simple_name (p : text) (i : Z) : text := p ++ str_Z i.
(* simple.py:30-41, 63-74, 90-98, 113-121 *)
Definition OrFormula (P N : Z) : result cnf :=
  cnf_of [map (fun i => (true, simple_name (txt "x_") i)) (range 0 P) ++ map (fun i => (false, simple_name (txt "y_") i)) (range 0 N)].
Definition AndFormula (P N : Z) : result cnf :=
  cnf_of (map (fun i => [(true, simple_name (txt "x_") i)]) (range 0 P) ++ map (fun i => [(false, simple_name (txt "y_") i)]) (range 0 N)).
Definition EmptyFormula : result cnf := cnf_of [].
Definition EmptyClauseFormula : result cnf := cnf_of [[]].

(* ---- graphs ---- *)
Record graph := mkGraph { g_nodes : list Z; g_edges : list (Z * Z) }.
Definition is_edge (u v : Z) (e : Z * Z) : bool := ((fst e =? u) && (snd e =? v)) || ((fst e =? v) && (snd e =? u)).
Definition has_edge (g : graph) (u v : Z) : bool := existsb (is_edge u v) (g_edges g).
(* graphs.py:433-460: the attributes ordered_vertices, ordered_edges if present, else the sorted lists *)
Definition enumerate_vertices (g : graph) : list Z := g_nodes g.
Definition enumerate_edges (g : graph) : list (Z * Z) := g_edges g.
Definition edge_ltb (a b : Z * Z) : bool := (fst a <? fst b) || ((fst a =? fst b) && (snd a <? snd b)).
(* graphs.py:463-472 *)
Definition neighbors (g : graph) (v : Z) : list Z :=
  sort_by Z.ltb (flat_map (fun e => if fst e =? v then [snd e] else if snd e =? v then [fst e] else []) (g_edges g)).
Definition degree (g : graph) (v : Z) : Z := Z.of_nat (List.length (neighbors g v)).
(* networkx.complete_graph, empty_graph *)
Definition complete_graph (n : Z) : graph := mkGraph (range 0 n) (pairs (range 0 n)).
Definition empty_graph (n : Z) : graph := mkGraph (range 0 n) [].

(* graphs.py:424-427: a graph with the attribute 'bipartite' as left and right vertices, both sorted, and edges,
   the left vertex first *)
Record bipartite := mkBipartite { b_left : list Z; b_right : list Z; b_edges : list (Z * Z) }.
(* neighbors(graph, v) of a left and of a right vertex *)
Definition left_neighbors (b : bipartite) (v : Z) : list Z :=
  sort_by Z.ltb (map snd (filter (fun e => fst e =? v) (b_edges b))).
Definition right_neighbors (b : bipartite) (v : Z) : list Z :=
  sort_by Z.ltb (map fst (filter (fun e => snd e =? v) (b_edges b))).
(* pigeonhole.py:99-164; a mapping with sparsity_pattern (cnf.py:1172-1220): the pattern is the graph itself *)
Definition GraphPigeonholePrinciple (b : bipartite) (functional onto : bool) : result cnf :=
  mapping_formula (mkUnary (b_left b) (b_right b) (left_neighbors b) (right_neighbors b)
    (fun r => rank_of r (b_right b) 1) php_name true functional onto true false).

(* x_{u,v} with the smaller vertex first (counting.py:76-80, coloring.py:120-124, subsetcardinality.py:98-105) *)
Definition edge_name (u v : Z) : text := if u <=? v then name2 (txt "x_{") u v else name2 (txt "x_{") v u.
(* counting.py:55-92 *)
Definition PerfectMatchingPrinciple (g : graph) : result cnf :=
  add_all cnf_add_clause
    (flat_map (fun v => equal_to_constraint (map (fun u => edge_name u v) (neighbors g v)) 1) (enumerate_vertices g)) empty_cnf.

(* ---- coloring.py ---- *)
Definition col_name : Z -> Z -> text := name2 (txt "x_{").
(* coloring.py:20-82: variables appear with the clauses; the strict clauses only mention variables of earlier ones *)
Fixpoint coloring_vertices (colors : list Z) (functional : bool) (vs : list Z) (c : cnf) : result cnf :=
  match vs with
  | [] => Ok c
  | v :: t =>
      c' <- cnf_add_clause (map (fun k => (true, col_name v k)) colors) c ;;
      c'' <- (if functional
              then add_all add_clause_strict (map (fun cc => [(false, col_name v (fst cc)); (false, col_name v (snd cc))]) (pairs colors)) c'
              else Ok c') ;;
      coloring_vertices colors functional t c''
  end.
Definition GraphColoringFormula (g : graph) (colors : list Z) (functional : bool) : result cnf :=
  c1 <- coloring_vertices colors functional (enumerate_vertices g) empty_cnf ;;
  add_all add_clause_strict
    (flat_map (fun e => map (fun k => [(false, col_name (fst e) k); (false, col_name (snd e) k)]) colors) (enumerate_edges g)) c1.
(* coloring.py:86-141 *)
Fixpoint even_vertices (g : graph) (vs : list Z) (c : cnf) : result cnf :=
  match vs with
  | [] => Ok c
  | v :: t =>
      if degree g v mod 2 =? 1 then Err ValueError
      else let es := map (fun u => edge_name u v) (neighbors g v) in
           c' <- add_all add_clause_strict (equal_to_constraint es (Z.of_nat (List.length es) / 2)) c ;; even_vertices g t c'
  end.
Definition EvenColoringFormula (g : graph) : result cnf :=
  even_vertices g (enumerate_vertices g) (add_variables (map (fun e => edge_name (fst e) (snd e)) (enumerate_edges g)) empty_cnf).

(* ---- dominatingset.py:18-109 ---- *)
Definition dom_D (v : Z) : text := name1 (txt "x_{") v.
Definition dom_M (v i : Z) : text := name2 (txt "g_{") v i.
(* N(v): v and its neighbours, sorted *)
Definition closed_neighborhood (g : graph) (v : Z) : list Z := sort_by Z.ltb (v :: neighbors g v).
(* combinations_with_replacement(l, 2) *)
Fixpoint pairs_with_replacement {A} (l : list A) : list (A * A) :=
  match l with [] => [] | x :: t => map (pair x) (x :: t) ++ pairs_with_replacement t end.
Fixpoint list_ltb (a b : list Z) : bool :=
  match a, b with
  | _, [] => false
  | [], _ :: _ => true
  | x :: a', y :: b' => (x <? y) || ((x =? y) && list_ltb a' b')
  end.
(* sorted(set(...)): without repetition, sorted *)
Definition list_zeqb (a b : list Z) : bool := if list_eq_dec Z.eq_dec a b then true else false.
Fixpoint set_of (l : list (list Z)) : list (list Z) :=
  match l with [] => [] | x :: t => x :: filter (fun y => negb (list_zeqb x y)) (set_of t) end.
Definition DominatingSet (g : graph) (d : Z) (alternative : bool) : result cnf :=
  let V := enumerate_vertices g in let I := range 1 (d + 1) in
  let c0 := add_variables (map dom_D V ++ flat_map (fun i => map (fun v => dom_M v i) V) I) empty_cnf in
  add_all cnf_add_clause
    ((if alternative
      then flat_map (fun uv => map (fun i => [(false, dom_D (fst uv)); (false, dom_D (snd uv)); (false, dom_M (fst uv) i); (false, dom_M (snd uv) i)]) I) (pairs V)
      else flat_map (fun i => less_or_equal_constraint (map (fun v => dom_M v i) V) 1) I) ++
     (if alternative
      then flat_map (fun v => map (fun ij => [(false, dom_D v); (false, dom_M v (fst ij)); (false, dom_M v (snd ij))]) (pairs I)) V
      else flat_map (fun ij => map (fun uv => [(false, dom_M (Z.max (fst uv) (snd uv)) (Z.min (fst ij) (snd ij)));
                                               (false, dom_M (Z.min (fst uv) (snd uv)) (Z.max (fst ij) (snd ij)))]) (pairs V))
             (pairs_with_replacement I)) ++
     (if alternative then [] else flat_map (fun i => map (fun v => [(false, dom_M v i); (true, dom_D v)]) V) I) ++
     map (fun v => (false, dom_D v) :: map (fun i => (true, dom_M v i)) I) V ++
     map (fun n => map (fun v => (true, dom_D v)) n) (sort_by list_ltb (set_of (map (closed_neighborhood g) V)))) c0.

(* ---- subsetcardinality.py:16-119 ---- *)
Definition SubsetCardinalityFormula (b : bipartite) (equalities : bool) : result cnf :=
  build add_clause_strict
    (flat_map (fun u => map (fun v => edge_name u v) (left_neighbors b u)) (b_left b))
    (flat_map (fun u => let es := map (fun v => edge_name u v) (left_neighbors b u) in
                        if equalities then exactly_half_ceil es else loose_majority_constraint es) (b_left b) ++
     flat_map (fun v => let es := map (fun u => edge_name u v) (right_neighbors b v) in
                        if equalities then exactly_half_floor es else loose_minority_constraint es) (b_right b)).

(* ---- ordering.py ---- *)
Definition ord_name : Z -> Z -> text := name2 (txt "x_{").
(* ordering.py:79-91: the clause of the vertex at some place of V, given those before and after *)
Definition non_minimality (g : graph) (smart : bool) (before : list Z) (med : Z) (after : list Z) : list (plit text) :=
  map (fun lo => (true, ord_name lo med)) (filter (fun lo => has_edge g med lo) before) ++
  map (fun hi => if smart then (false, ord_name med hi) else (true, ord_name hi med)) (filter (fun hi => has_edge g med hi) after).
Fixpoint non_minimality_axioms (g : graph) (smart plant : bool) (before V : list Z) : list (list (plit text)) :=
  match V with
  | [] => []
  | [v] => if plant then [] else [non_minimality g smart before v []]
  | v :: after => non_minimality g smart before v after :: non_minimality_axioms g smart plant (before ++ [v]) after
  end.
(* ordering.py:97-139; triples and permutations of fewer than three vertices are none *)
Definition transitivity_axioms (total smart : bool) (knuth : Z) (V : list Z) : list (list (plit text)) :=
  if smart then
    flat_map (fun t => let '(v1, v2, v3) := t in
      [[(true, ord_name v1 v2); (true, ord_name v2 v3); (false, ord_name v1 v3)];
       [(false, ord_name v1 v2); (false, ord_name v2 v3); (true, ord_name v1 v3)]]) (triples V)
  else if total then
    flat_map (fun t => let '(v1, v2, v3) := t in
      [[(false, ord_name v1 v2); (false, ord_name v2 v3); (false, ord_name v3 v1)];
       [(false, ord_name v1 v3); (false, ord_name v3 v2); (false, ord_name v2 v1)]]) (triples V)
  else
    flat_map (fun t => let '(v1, v2, v3) := t in
      if (knuth =? 2) && ((v2 <? v1) || (v2 <? v3)) then []
      else if (knuth =? 3) && ((v3 <? v1) || (v3 <? v2)) then []
      else [[(false, ord_name v1 v2); (false, ord_name v2 v3); (true, ord_name v1 v3)]]) (permutations3 V).
(* ordering.py:141-153 *)
Definition order_axioms (total smart : bool) (V : list Z) : list (list (plit text)) :=
  if smart then []
  else map (fun vv => [(false, ord_name (fst vv) (snd vv)); (false, ord_name (snd vv) (fst vv))]) (pairs V) ++
       (if total then map (fun vv => [(true, ord_name (fst vv) (snd vv)); (true, ord_name (snd vv) (fst vv))]) (pairs V) else []).
(* ordering.py:36-155 *)
Definition GraphOrderingPrinciple (g : graph) (total smart plant : bool) (knuth : Z) : result cnf :=
  let V := enumerate_vertices g in
  build add_clause_strict (map (fun vv => ord_name (fst vv) (snd vv)) (if smart then pairs V else permutations2 V))
    (non_minimality_axioms g smart plant [] V ++ transitivity_axioms total smart knuth V ++ order_axioms total smart V).
(* ordering.py:18-30 *)
Definition OrderingPrinciple (size : Z) (total smart plant : bool) (knuth : Z) : result cnf :=
  GraphOrderingPrinciple (complete_graph size) total smart plant knuth.

(* ---- tseitin.py:16-53 ---- *)
(* edgename[(u,v)] and edgename[(v,u)]: the name of the edge as networkx reports it *)
Definition tse_name (g : graph) (u v : Z) : text :=
  match find (is_edge u v) (g_edges g) with Some e => name2 (txt "E_{") (fst e) (snd e) | None => [] end.
Definition sorted_pair (e : Z * Z) : Z * Z := (Z.min (fst e) (snd e), Z.max (fst e) (snd e)).
Definition charge_bit (c : Z) : Z := if c =? 0 then 0 else 1.
Definition TseitinFormula (g : graph) (charges : option (list Z)) : result cnf :=
  let V := enumerate_vertices g in
  let ch := match charges with None => 1 :: repeat 0 (List.length V - 1) | Some l => map charge_bit l end in
  let ch := ch ++ repeat 0 (List.length V - List.length ch) in
  build add_clause_strict
    (map (fun e => name2 (txt "E_{") (fst e) (snd e)) (sort_by (fun a b => edge_ltb (sorted_pair a) (sorted_pair b)) (g_edges g)))
    (flat_map (fun vc => parity_constraint (map (fun u => tse_name g u (fst vc)) (neighbors g (fst vc))) (snd vc)) (combine V ch)).

(* ---- graphisomorphism.py ---- *)
Definition iso_name : Z -> Z -> text := name2 (txt "x_{").
Definition iso_clauses (G1 G2 : graph) : list (list (plit text)) :=
  let U := enumerate_vertices G1 in let V := enumerate_vertices G2 in
  map (fun u => map (fun v => (true, iso_name u v)) V) U ++
  map (fun v => map (fun u => (true, iso_name u v)) U) V ++
  flat_map (fun u => map (fun vv => [(false, iso_name u (fst vv)); (false, iso_name u (snd vv))]) (pairs V)) U ++
  flat_map (fun v => map (fun uu => [(false, iso_name (fst uu) v); (false, iso_name (snd uu) v)]) (pairs U)) V ++
  flat_map (fun uu => flat_map (fun vv =>
    if negb (Bool.eqb (has_edge G1 (fst uu) (snd uu)) (has_edge G2 (fst vv) (snd vv)))
    then [[(false, iso_name (fst uu) (fst vv)); (false, iso_name (snd uu) (snd vv))];
          [(false, iso_name (fst uu) (snd vv)); (false, iso_name (snd uu) (fst vv))]] else []) (pairs V)) (pairs U).
(* graphisomorphism.py:23-78, 82-108 *)
Definition GraphIsomorphism (G1 G2 : graph) : result cnf :=
  build add_clause_strict
    (flat_map (fun u => map (iso_name u) (enumerate_vertices G2)) (enumerate_vertices G1)) (iso_clauses G1 G2).
Definition GraphAutomorphism (g : graph) : result cnf :=
  c <- GraphIsomorphism g g ;; add_clause_strict (map (fun u => (false, iso_name u u)) (enumerate_vertices g)) c.
