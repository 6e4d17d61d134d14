(* MFam2.v -- more formula families of the bundled generator: families/subgraph.py, pebbling.py, randomformulas.py.
   Simplifications: as in MFam.v. *)
From Coq Require Import String Ascii ZArith List Bool.
From Verif Require Import PyBase MText MCnf MFam.
Import ListNotations.
Open Scope Z_scope.

(* ---- subgraph.py ---- *)
Definition order (g : graph) : Z := Z.of_nat (List.length (g_nodes g)).
(* gV[j] *)
Definition vertex (g : graph) (j : Z) : Z := nth (Z.to_nat j) (enumerate_vertices g) 0.
(* subgraph.py:96 *)
Definition sub_S : Z -> Z -> text := name2 (txt "S_{").
(* subgraph.py:64-71; no template is dealt with before *)
Definition selectors (n : nat) : list text :=
  match n with
  | 1%nat => []
  | 2%nat => [txt "c"]
  | _ => map (name1 (txt "c_{")) (range 0 (Z.of_nat n))
  end.
(* subgraph.py:117-126 *)
Definition activation_prefix (n : nat) (i : nat) : list (plit text) :=
  match n with
  | 1%nat => []
  | 2%nat => [(match i with O => true | _ => false end, txt "c")]
  | _ => [(true, name1 (txt "c_{") (Z.of_nat i))]
  end.
(* subgraph.py:129-157: the clauses of one template *)
Definition template_clauses (g : graph) (symmetric : bool) (prefix : list (plit text)) (t : graph) : list (list (plit text)) :=
  let N := range 0 (order g) in
  flat_map (fun ii => flat_map (fun jj =>
    if Bool.eqb (has_edge t (vertex t (fst ii)) (vertex t (snd ii))) (has_edge g (vertex g (fst jj)) (vertex g (snd jj))) then []
    else [prefix ++ [(false, sub_S (fst ii) (fst jj)); (false, sub_S (snd ii) (snd jj))]])
    (if symmetric then pairs N else permutations2 N)) (pairs (range 0 (order t))).
(* for i in range(len(templates)): clauses of template i *)
Fixpoint templates_clauses (g : graph) (symmetric : bool) (n : nat) (i : nat) (ts : list graph) : list (list (plit text)) :=
  match ts with
  | [] => []
  | t :: rest => template_clauses g symmetric (activation_prefix n i) t ++ templates_clauses g symmetric n (S i) rest
  end.
Definition max_order (ts : list graph) : Z := fold_right Z.max 0 (map order ts).
(* subgraph.py:93-105 *)
Definition sub_mapping (g : graph) (k : Z) (symmetric : bool) : unary_mapping Z Z :=
  plain_mapping (range 0 k) (range 0 (order g)) sub_S true false true symmetric.
(* subgraph.py:25-159 *)
Definition SubgraphFormula (g : graph) (templates : list graph) (symmetric : bool) : result cnf :=
  match templates with
  | [] => Ok empty_cnf
  | _ =>
      let n := List.length templates in
      let sel := selectors n in
      c1 <- (if (1 <? Z.of_nat (List.length sel)) then add_all add_clause_strict (equal_to_constraint sel 1) (add_variables sel empty_cnf)
             else Ok (add_variables sel empty_cnf)) ;;
      let m := sub_mapping g (max_order templates) symmetric in
      c2 <- add_all add_clause_strict (um_clauses m) (add_variables (um_variables m) c1) ;;
      add_all add_clause_strict (templates_clauses g symmetric n 0 templates) c2
  end.
(* subgraph.py:164-182, 229-251 *)
Definition CliqueFormula (g : graph) (k : Z) : result cnf := SubgraphFormula g [complete_graph k] true.
Definition RamseyWitnessFormula (g : graph) (k s : Z) : result cnf := SubgraphFormula g [complete_graph k; empty_graph s] true.
(* subgraph.py:186-225; here g_nodes is the order of G.nodes(), which need not be that of enumerate_vertices; bits
   as for BinaryPigeonholePrinciple *)
Definition BinaryCliqueFormula (bits : nat) (g : graph) (k : Z) : result cnf :=
  match g_nodes g with
  | [] => Err ValueError            (* log of 0 *)
  | _ =>
      let m := mkBinary (range 1 (k + 1)) (g_nodes g) bits binary_name true true in
      build add_clause_strict (bm_variables m)
        (bm_clauses m ++
         flat_map (fun ii => flat_map (fun vv =>
           if has_edge g (fst (fst vv)) (fst (snd vv)) then []
           else [forbid_image m (fst ii) (snd (fst vv)) ++ forbid_image m (snd ii) (snd (snd vv))])
           (pairs (coded_range m))) (pairs (bm_domain m)))
  end.

(* ---- pebbling.py ---- *)
(* a directed graph: vertices as enumerate_vertices lists them, arcs (from, to); a graph with the attribute
   topologically_sorted is taken to satisfy what is_dag asserts about it *)
Record digraph := mkDigraph { d_nodes : list Z; d_edges : list (Z * Z) }.
(* networkx.is_directed_acyclic_graph (graphs.py:377-399): vertices without predecessors are removed until none is left *)
Definition peel (d : digraph) (rem : list Z) : list Z :=
  filter (fun v => existsb (fun e => (snd e =? v) && zmem (fst e) rem) (d_edges d)) rem.
Definition is_dag (d : digraph) : bool :=
  match Nat.iter (List.length (d_nodes d)) (peel d) (d_nodes d) with [] => true | _ => false end.
(* sorted(digraph.predecessors(v), key=position) *)
Definition predecessors (d : digraph) (v : Z) : list Z := filter (fun u => existsb (fun e => (fst e =? u) && (snd e =? v)) (d_edges d)) (d_nodes d).
Definition is_sink (d : digraph) (v : Z) : bool := negb (existsb (fun e => fst e =? v) (d_edges d)).
(* pebbling.py:40-77; the variable of a vertex is the vertex itself, here its decimal form *)
Definition PebblingFormula (d : digraph) : result cnf :=
  if negb (is_dag d) then Err ValueError
  else build add_clause_unsafe (map str_Z (d_nodes d))
    (flat_map (fun v => (map (fun p => (false, str_Z p)) (predecessors d v) ++ [(true, str_Z v)]) ::
                        (if is_sink d v then [[(false, str_Z v)]] else [])) (d_nodes d)).
(* pebbling.py:27-35 *)
Fixpoint uniqify (l : list Z) : list Z := match l with [] => [] | x :: t => x :: filter (fun y => negb (y =? x)) (uniqify t) end.
Definition stone_P : Z -> Z -> text := name2 (txt "P_{").
Definition stone_R (j : Z) : text := name1 (txt "R_{") j.
(* pebbling.py:126-141 and 241-253: the clauses of the vertices in order *)
Definition stone_clauses (d : digraph) (P : Z -> Z -> text) (images : Z -> list Z) : list (list (plit text)) :=
  flat_map (fun v =>
    flat_map (fun j =>
      let pred := predecessors d v in
      map (fun tuple => map (fun ps => (false, P (fst ps) (snd ps))) (combine pred tuple) ++ [(false, P v j)] ++
                        map (fun s => (false, stone_R s)) (uniqify tuple) ++ [(true, stone_R j)])
          (products (map (fun p => filter (fun s => negb (s =? j)) (images p)) pred))) (images v) ++
    (if is_sink d v then map (fun j => [(false, P v j); (false, stone_R j)]) (images v) else [])) (d_nodes d).
(* pebbling.py:147-255 *)
Definition StoneFormula (d : digraph) (nstones : Z) : result cnf :=
  if negb (is_dag d) then Err ValueError
  else if nstones <? 0 then Err ValueError
  else let stones := range 1 (nstones + 1) in
       build add_clause_unsafe (flat_map (fun v => map (stone_P v) stones) (d_nodes d) ++ map stone_R stones)
         (map (fun v => map (fun j => (true, stone_P v j)) stones) (d_nodes d) ++ stone_clauses d stone_P (fun _ => stones)).
(* pebbling.py:82-143, 258-336; mapping.images(v) (cnf.py:1208-1220): the vertex of B at the place of v, the stones at the places of its neighbours *)
Definition sparse_X : Z -> Z -> text := name2 (txt "X_{").
Definition sparse_images (d : digraph) (b : bipartite) (v : Z) : list Z :=
  map (fun u => rank_of u (b_right b) 1) (left_neighbors b (nth (Z.to_nat (rank_of v (d_nodes d) 0)) (b_left b) 0)).
Definition sparse_counterimages (d : digraph) (b : bipartite) (j : Z) : list Z :=
  map (fun u => nth (Z.to_nat (rank_of u (b_left b) 0)) (d_nodes d) 0) (right_neighbors b (nth (Z.to_nat (j - 1)) (b_right b) 0)).
Definition SparseStoneFormula (d : digraph) (b : bipartite) : result cnf :=
  if negb (is_dag d) then Err ValueError
  else if negb (Nat.eqb (List.length (b_left b)) (List.length (d_nodes d))) then Err ValueError
  else let stones := range 1 (Z.of_nat (List.length (b_right b)) + 1) in
       let m := mkUnary (d_nodes d) stones (sparse_images d b) (sparse_counterimages d b) (fun r => r) sparse_X true false false false false in
       c1 <- add_all add_clause_unsafe (um_clauses m) (add_variables (um_variables m ++ map stone_R stones) empty_cnf) ;;
       add_all add_clause_strict (stone_clauses d sparse_X (sparse_images d b)) c1.
