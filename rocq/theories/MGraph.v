(* MGraph.v -- graphs constructed by the bundled generator: graphs.py:866-1225, and the changes to a graph that its command
   line offers (cmdline.py:488-503, 724-744).  The outcomes of the random module are parameters.
   Simplifications: an undirected graph between two disjoint sides keeps its edges as pairs (left, right); names of graphs are
   left out; total_number_of_edges is an exact number, not a float. *)
From Coq Require Import String Ascii ZArith List Bool.
From Verif Require Import PyBase MSet MText MCnf MFam MFam2 MTrans MFile.
Import ListNotations.
Open Scope Z_scope.

(* exceptions without a name of their own *)
Definition ZeroDivisionError : exn := OtherException.
Definition RuntimeError : exn := OtherException.

(* graphs.py:923-980; add_edge does nothing for an edge that is there; the list pattern is sorted in place *)
Definition bipartite_shift (N M : Z) (pattern : list Z) : result bipartite :=
  if (N <? 1) || (M <? 1) then Err ValueError
  else if existsb (fun x => (x <? 1) || (M <? x)) pattern then Err ValueError
  else let L := range 1 (N + 1) in
       let R := range (N + 1) (N + M + 1) in
       let pattern := sort_by Z.ltb pattern in
       Ok (mkBipartite L R
             (fold_left (add_edge true) (flat_map (fun u => map (fun i => (u, N + 1 + (i + u - 2) mod M)) pattern) L) [])).

(* graphs.py:866-921; sample u R d is the outcome of random.sample(R, d) for the left vertex u *)
Definition bipartite_random_left_regular (sample : Z -> list Z -> Z -> list Z) (l r d : Z) : result bipartite :=
  if (l <? 0) || (r <? 0) || (d <? 0) then Err ValueError
  else let L := range 0 l in
       let R := range l (l + r) in
       let d := Z.min r d in
       Ok (mkBipartite L R (fold_left (add_edge true) (flat_map (fun u => map (pair u) (sort_by Z.ltb (sample u R d))) L) [])).

(* ---- graphs.py:983-1070 ---- *)
(* A[i],A[j] = A[j],A[i] *)
Fixpoint update (l : list Z) (i : nat) (x : Z) : list Z :=
  match l, i with
  | [], _ => []
  | _ :: t, O => x :: t
  | y :: t, S i' => y :: update t i' x
  end.
Definition swap (l : list Z) (i j : nat) : list Z :=
  let x := nth i l 0 in let y := nth j l 0 in update (update l i y) j x.
Record slots := mkSlots { s_edges : list (Z * Z); s_A : list Z; s_B : list Z; s_time : nat }.
Definition joined_pair (es : list (Z * Z)) (u v : Z) : bool := existsb (same_edge true (u, v)) es.
(* graphs.py:1049-1056: the outcomes of randint(i, hi) are randint 0 i hi, randint 1 i hi, ...; None when no round found an edge *)
Fixpoint try_edges (randint : nat -> nat -> nat -> nat) (retries i hi : nat) (s : slots) : slots * bool :=
  match retries with
  | O => (s, false)
  | S retries' =>
      let ea := randint (s_time s) i hi in
      let eb := randint (S (s_time s)) i hi in
      let u := nth ea (s_A s) 0 in
      let v := nth eb (s_B s) 0 in
      if negb (joined_pair (s_edges s) u v)
      then (mkSlots (s_edges s ++ [(u, v)]) (swap (s_A s) i ea) (swap (s_B s) i eb) (S (S (s_time s))), true)
      else try_edges randint retries' i hi (mkSlots (s_edges s) (s_A s) (s_B s) (S (S (s_time s))))
  end.
(* graphs.py:1046-1068: i runs through range(l*d), n = l*d; None: start again *)
Fixpoint fill_slots (randint : nat -> nat -> nat -> nat) (retries n : nat) (is : list nat) (s : slots) : slots * bool :=
  match is with
  | [] => (s, true)
  | i :: is' =>
      let '(s', found) := try_edges randint retries i (n - 1) s in
      if found then fill_slots randint retries n is' s'
      else if existsb (fun ea => existsb (fun eb => negb (joined_pair (s_edges s') (nth ea (s_A s') 0) (nth eb (s_B s') 0))) (seq i (n - i))) (seq i (n - i))
           then fill_slots randint retries n is' s'
           else (s', false)
  end.
Fixpoint regular_attempts (randint : nat -> nat -> nat -> nat) (fuel : nat) (l r d : Z) (time : nat) : result bipartite :=
  match fuel with
  | O => OutOfFuel
  | S fuel' =>
      let L := range 0 l in
      let R := range l (l + r) in
      let A := concat (repeat L (Z.to_nat d)) in
      let B := concat (repeat R (Z.to_nat (l * d / r))) in
      let n := Z.to_nat (l * d) in
      let '(s, complete) := fill_slots randint (Z.to_nat (3 * d * d)) n (seq 0 n) (mkSlots [] A B time) in
      if complete then Ok (mkBipartite L R (s_edges s)) else regular_attempts randint fuel' l r d (s_time s)
  end.
(* a further attempt is a further nested call *)
Definition bipartite_random_regular (randint : nat -> nat -> nat -> nat) (fuel : nat) (l r d : Z) : result bipartite :=
  if (l <? 0) || (r <? 0) || (d <? 0) then Err ValueError
  else if r =? 0 then Err ZeroDivisionError
  else if negb ((l * d) mod r =? 0) then Err ValueError
  else regular_attempts randint fuel l r d 0.

(* ---- directed graphs whose vertices are names ---- *)
(* ordered_vertices and arcs *)
Record named_digraph := mkNamed { n_vertices : list text; n_arcs : list (text * text) }.
Definition pyramid_vertex (h i : Z) : text := name2 (txt "x_{") h i.
(* graphs.py:1073-1104 *)
Definition dag_pyramid (height : Z) : named_digraph :=
  mkNamed (flat_map (fun h => map (pyramid_vertex h) (range 0 (height - h + 1))) (range 0 (height + 1)))
          (flat_map (fun h => flat_map (fun i => [(pyramid_vertex (h - 1) i, pyramid_vertex h i); (pyramid_vertex (h - 1) (i + 1), pyramid_vertex h i)])
                                       (range 0 (height - h + 1)))
                    (range 1 (height + 1))).
(* graphs.py:1106-1132; for a negative height range() gets a float *)
Definition tree_vertex (i : Z) : text := txt "v_" ++ str_Z i.
Definition dag_complete_binary_tree (height : Z) : result named_digraph :=
  if height <? 0 then Err TypeError
  else let vert := map tree_vertex (range 1 (2 * 2 ^ height)) in
       let N := Z.of_nat (List.length vert) - 1 in
       let at_ k := nth (Z.to_nat k) vert [] in
       Ok (mkNamed vert (flat_map (fun i => [(at_ (N - 2 * i - 1), at_ (N - i)); (at_ (N - 2 * i - 2), at_ (N - i))])
                                  (range 0 (Z.of_nat (List.length vert) / 2)))).

(* ---- graphs.py:1134-1225 ---- *)
(* the outcomes of random: the pair of round t, random.sample(population, m); a set of pairs in order of insertion *)
Record pair_outcomes := mkOutcomes { o_pair : nat -> Z * Z; o_sample : list (Z * Z) -> nat -> list (Z * Z) }.
Definition chosen (s : list (Z * Z)) (u v : Z) : bool := existsb (fun e => (fst e =? u) && (snd e =? v)) s.
Fixpoint sample_pairs (joined : Z -> Z -> bool) (pair_of : nat -> Z * Z) (m rounds t : nat) (s : list (Z * Z)) : list (Z * Z) :=
  match rounds with
  | O => s
  | S rounds' =>
      if (m <=? List.length s)%nat then s
      else let '(u, v) := pair_of t in
           sample_pairs joined pair_of m rounds' (S t)
             (if negb (chosen s u v) && negb (chosen s v u) && negb (joined u v) then s ++ [(u, v)] else s)
  end.
(* total, edges: numbers of possible and present edges; total2 is twice the first *)
Definition sample_missing (o : pair_outcomes) (joined : Z -> Z -> bool) (available : list (Z * Z)) (total2 edges m : Z) : result (list (Z * Z)) :=
  if m <? 0 then Err ValueError
  else if total2 - 2 * edges <? 2 * m then Err ValueError
  else if total2 <=? 4 * (edges + m) then
    if (List.length available <? Z.to_nat m)%nat then Err ValueError else Ok (o_sample o available (Z.to_nat m))
  else let s := sample_pairs joined (o_pair o) (Z.to_nat m) (Z.to_nat (100 * m)) 0 [] in
       if (Z.to_nat m <=? List.length s)%nat then Ok s else Err RuntimeError.
Definition length_Z {A} (l : list A) : Z := Z.of_nat (List.length l).
(* of a graph with the attribute bipartite *)
Definition sample_missing_bipartite (o : pair_outcomes) (b : bipartite) (m : Z) : result (list (Z * Z)) :=
  sample_missing o (joined_pair (b_edges b))
    (flat_map (fun u => map (pair u) (filter (fun v => negb (joined_pair (b_edges b) u v)) (b_right b))) (b_left b))
    (2 * (length_Z (b_left b) * length_Z (b_right b))) (length_Z (b_edges b)) m.
(* of another graph; networkx.non_edges gives every pair once *)
Definition sample_missing_simple (o : pair_outcomes) (g : graph) (m : Z) : result (list (Z * Z)) :=
  sample_missing o (has_edge g) (filter (fun e => negb (has_edge g (fst e) (snd e))) (pairs (g_nodes g)))
    (length_Z (g_nodes g) * (length_Z (g_nodes g) - 1)) (length_Z (g_edges g)) m.

(* ---- changes to a graph ---- *)
(* cmdline.py:489-497: --plantclique; vertices: the outcome of random.sample *)
Definition add_edges_from (g : graph) (es : list (Z * Z)) : graph := mkGraph (g_nodes g) (fold_left (add_edge false) es (g_edges g)).
Definition plant_clique (vertices : list Z -> nat -> list Z) (g : graph) (k : Z) : result graph :=
  if k <=? 1 then Ok g
  else if length_Z (g_nodes g) <? k then Err ValueError
  else Ok (add_edges_from g (pairs (vertices (g_nodes g) (Z.to_nat k)))).
(* cmdline.py:499-503: --addedges *)
Definition add_edges (o : pair_outcomes) (g : graph) (k : Z) : result graph :=
  if k <=? 0 then Ok g else es <- sample_missing_simple o g k ;; Ok (add_edges_from g es).
(* cmdline.py:724-735: --plantbiclique; random.sample refuses a negative number *)
Definition add_bipartite_edges (b : bipartite) (es : list (Z * Z)) : bipartite :=
  mkBipartite (b_left b) (b_right b) (fold_left (add_edge true) es (b_edges b)).
Definition plant_biclique (vertices : list Z -> nat -> list Z) (b : bipartite) (l r : Z) : result bipartite :=
  if (length_Z (b_left b) <? l) || (length_Z (b_right b) <? r) then Err ValueError
  else if (l <? 0) || (r <? 0) then Err ValueError
  else let left := vertices (b_left b) (Z.to_nat l) in
       let right := vertices (b_right b) (Z.to_nat r) in
       Ok (add_bipartite_edges b (flat_map (fun u => map (pair u) right) left)).
(* cmdline.py:737-744: --addedges *)
Definition add_missing_edges (o : pair_outcomes) (b : bipartite) (k : Z) : result bipartite :=
  es <- sample_missing_bipartite o b k ;; Ok (add_bipartite_edges b es).
