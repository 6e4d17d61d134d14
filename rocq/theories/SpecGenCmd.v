(* SpecGenCmd.v -- what the subcommands and options of the bundled generator stand for.  Definitions only. *)
From Coq Require Import String Ascii ZArith List Bool Sorted.
From Verif Require Import Spec SpecInput SpecFile PyBase MText MCnf MFam MFam2 MFile MTrans MTool MGraph MGenCmd SpecCnf SpecFam SpecFam2 SpecTrans SpecTool SpecGraph.
Import ListNotations.
Open Scope Z_scope.

Definition count {A} (l : list A) : Z := Z.of_nat (List.length l).
Definition vertices (g : graph) (lo hi : Z) : Prop := forall v, In v (g_nodes g) <-> lo <= v <= hi.
Definition sides (b : bipartite) (l r : Z) : Prop := (forall u, In u (b_left b) <-> 0 <= u < l) /\ (forall v, In v (b_right b) <-> l <= v < l + r).

(* ---- what networkx, random and math promise ---- *)
Record fair (E : chance) : Prop := mkFairChance {
  fc_regular : forall n d, 0 <= d < n -> Z.Even (n * d) ->
    simple_graph (ch_regular E d n) /\ vertices (ch_regular E d n) 0 (n - 1) /\ forall v, 0 <= v < n -> degree (ch_regular E d n) v = d;
  fc_gnp : forall n, 0 < n -> simple_graph (ch_gnp E n) /\ vertices (ch_gnp E n) 0 (n - 1);
  fc_gnm : forall n m, 0 < n -> 0 < m ->
    simple_graph (ch_gnm E n m) /\ vertices (ch_gnm E n m) 0 (n - 1) /\ count (g_edges (ch_gnm E n m)) = Z.min m (n * (n - 1) / 2);
  fc_bp : forall l r, 0 < l -> 0 < r -> bipartite_graph (ch_bp E l r) /\ sides (ch_bp E l r) l r;
  (* with one vertex on a side networkx returns no edges *)
  fc_bm : forall l r m, 0 < l -> 0 < r -> 0 < m -> bipartite_graph (ch_bm E l r m) /\ sides (ch_bm E l r m) l r /\
    (1 < l -> 1 < r -> m <= l * r -> count (b_edges (ch_bm E l r m)) = m);
  fc_left : forall u R k, NoDup R -> 0 <= k <= count R -> sampled R (Z.to_nat k) (ch_left E u R k);
  fc_randint : fair_randint (ch_randint E);
  fc_vertices : forall l k, NoDup l -> (k <= List.length l)%nat -> sampled l k (ch_vertices E l k);
  fc_new : forall g, simple_graph g -> 2 <= count (g_nodes g) -> fair_pairs g (ch_new E g);
  fc_new_between : forall b, bipartite_graph b -> b_left b <> [] -> b_right b <> [] -> fair_pairs_between b (ch_new_between E b);
  fc_bit : forall i, ch_bit E i = 0 \/ ch_bit E i = 1;
  fc_clauses : lawful (ch_clauses E);
  fc_bits : forall n, 0 < n -> n <= 2 ^ Z.of_nat (ch_bits E n)
}.

(* ---- graphs ---- *)
(* the points of a grid, and the pairs of points one step apart; on a torus the last coordinate is next to the first *)
Definition point (dims p : list Z) : Prop := Forall2 (fun x d => 0 <= x < d) p dims.
Definition next_to (torus : bool) (d a b : Z) : Prop := if torus then b = (a + 1) mod d \/ a = (b + 1) mod d else b = a + 1 \/ a = b + 1.
Inductive step_apart (torus : bool) : list Z -> list Z -> list Z -> Prop :=
| step_here d dims a b p : next_to torus d a b -> step_apart torus (d :: dims) (a :: p) (b :: p)
| step_later d dims a p q : step_apart torus dims p q -> step_apart torus (d :: dims) (a :: p) (a :: q).
Definition is_grid (torus : bool) (dims : list Z) (g : graph) : Prop :=
  count (g_nodes g) = fold_right Z.mul 1 dims /\
  exists place : list Z -> Z, (forall v, In v (g_nodes g) <-> exists p, point dims p /\ place p = v) /\
    (forall p q, point dims p -> point dims q -> place p = place q -> p = q) /\
    (forall p q, point dims p -> point dims q -> (adjacent g (place p) (place q) <-> step_apart torus dims p q)).
(* the graph that the source of the command line stands for *)
Definition from_source (s : simple_source) (input : text) (g : graph) : Prop :=
  match s with
  | S_gnd n d => vertices g 0 (n - 1) /\ forall v, 0 <= v < n -> degree g v = d
  | S_gnp n => vertices g 0 (n - 1)
  | S_gnm n m => vertices g 0 (n - 1) /\ count (g_edges g) = Z.min m (n * (n - 1) / 2)
  | S_grid dims => is_grid false dims g
  | S_torus dims => is_grid true dims g
  | S_complete n => vertices g 0 (n - 1) /\ forall u v, adjacent g u v <-> 0 <= u < n /\ 0 <= v < n /\ u <> v
  | S_empty n => vertices g 0 (n - 1) /\ forall u v, ~ adjacent g u v
  | S_stdin F_kthlist => exists lines name n adj, Forall one_line lines /\ input = ended lines /\ kthlist_file lines name n adj /\
      vertices g 1 n /\ forall u v, adjacent g u v <-> listed adj u v \/ listed adj v u
  | S_stdin F_dimacs => exists lines name n m es, Forall one_line lines /\ input = ended lines /\ edge_file lines name (Some (n, m)) es /\
      (forall w, In w (g_nodes g) <-> 1 <= w <= n \/ exists u v, In (u, v) es /\ (w = u \/ w = v)) /\
      forall u v, adjacent g u v <-> In (u, v) es \/ In (v, u) es
  | S_stdin _ => False
  end.
(* --plantclique k *)
Definition clique_planted (k : option Z) (g h : graph) : Prop :=
  match k with
  | None => h = g
  | Some k => g_nodes h = g_nodes g /\ exists S, NoDup S /\ incl S (g_nodes g) /\ count S = k /\
      forall u v, adjacent h u v <-> adjacent g u v \/ In u S /\ In v S /\ u <> v
  end.
(* --addedges k *)
Definition edges_added (k : option Z) (g h : graph) : Prop :=
  match k with
  | None => h = g
  | Some k => g_nodes h = g_nodes g /\ exists es, missing_edges g es /\ count es = k /\
      forall u v, adjacent h u v <-> adjacent g u v \/ In (u, v) es \/ In (v, u) es
  end.
Definition from_options (o : simple_options) (input : text) (h : graph) : Prop :=
  simple_graph h /\ exists g g', from_source (so_source o) input g /\ clique_planted (so_plantclique o) g g' /\ edges_added (so_addedges o) g' h.

(* a source that delivers a graph: for standard input, a well-formed file without loops *)
Definition delivers (s : simple_source) (input : text) : Prop :=
  match s with
  | S_gnd n d => 0 < d < n /\ Z.Even (n * d)
  | S_gnp n | S_complete n | S_empty n => 0 < n
  | S_gnm n m => 0 < n /\ 0 < m
  | S_grid dims => dims <> [] /\ forall d, In d dims -> 0 < d
  | S_torus dims => dims <> [] /\ forall d, In d dims -> 1 < d
  | S_stdin F_kthlist => exists lines name n adj, Forall one_line lines /\ input = ended lines /\ kthlist_file lines name n adj /\ forall v, ~ listed adj v v
  | S_stdin F_dimacs => exists lines name n es, Forall one_line lines /\ input = ended lines /\ edge_file lines name (Some (n, count es)) es /\
      forall u v, In (u, v) es -> 1 <= u <= n /\ 1 <= v <= n /\ u <> v
  | S_stdin _ => False
  end.
Definition positive_if_given (z : option Z) : Prop := forall k, z = Some k -> 0 < k.
(* cliques are planted in graphs of this size only *)
Definition size_of (s : simple_source) (input : text) (n : Z) : Prop :=
  match s with
  | S_gnd n' _ | S_gnp n' | S_gnm n' _ | S_complete n' | S_empty n' => n = n'
  | S_grid dims | S_torus dims => n = fold_right Z.mul 1 dims
  | S_stdin F_kthlist => exists lines name adj, Forall one_line lines /\ input = ended lines /\ kthlist_file lines name n adj
  | S_stdin _ => exists lines name es, Forall one_line lines /\ input = ended lines /\ edge_file lines name (Some (n, count es)) es
  end.
Definition obtainable (o : simple_options) (input : text) : Prop :=
  delivers (so_source o) input /\ positive_if_given (so_plantclique o) /\ positive_if_given (so_addedges o) /\
  forall k, so_plantclique o = Some k -> exists n, size_of (so_source o) input n /\ k <= n.
(* after reading, standard input is empty *)
Definition rest_of_input (o : simple_options) (input : text) : text := match so_source o with S_stdin _ => [] | _ => input end.

Definition from_bipartite_source (s : bipartite_source) (input : text) (b : bipartite) : Prop :=
  match s with
  | B_bp l r => sides b l r
  | B_bm l r m => sides b l r /\ (1 < l -> 1 < r -> count (b_edges b) = m)
  | B_bd l r d => sides b l r /\ forall u, 0 <= u < l -> left_degree b u = d
  | B_bregular l r d => sides b l r /\ (forall u, 0 <= u < l -> left_degree b u <= d) /\ (forall v, l <= v < l + r -> right_degree b v <= l * d / r)
  | B_bshift (N :: M :: pattern) => (forall u, In u (b_left b) <-> 1 <= u <= N) /\ (forall v, In v (b_right b) <-> N + 1 <= v <= N + M) /\
      forall u j, 1 <= u <= N -> 0 <= j < M -> (In (u, N + 1 + j) (b_edges b) <-> exists i, In i pattern /\ (i - 1 + (u - 1)) mod M = j)
  | B_bshift _ => False
  | B_bcomplete l r => sides b l r /\ forall u v, In (u, v) (b_edges b) <-> 0 <= u < l /\ l <= v < l + r
  | B_stdin F_kthlist => exists lines name n adj, Forall one_line lines /\ input = ended lines /\ kthlist_file lines name n adj /\
      (forall w, In w (b_left b) \/ In w (b_right b) <-> 1 <= w <= n) /\ (forall w, In w (b_left b) <-> exists us, In (w, us) adj) /\
      forall u v, In (u, v) (b_edges b) <-> listed adj v u
  | B_stdin _ => False
  end.
Definition biclique_planted (lr : option (Z * Z)) (b h : bipartite) : Prop :=
  match lr with
  | None => h = b
  | Some (l, r) => b_left h = b_left b /\ b_right h = b_right b /\
      exists S T, NoDup S /\ incl S (b_left b) /\ count S = l /\ NoDup T /\ incl T (b_right b) /\ count T = r /\
        forall u v, In (u, v) (b_edges h) <-> In (u, v) (b_edges b) \/ In u S /\ In v T
  end.
Definition edges_added_between (k : option Z) (b h : bipartite) : Prop :=
  match k with
  | None => h = b
  | Some k => b_left h = b_left b /\ b_right h = b_right b /\ exists es, missing_between b es /\ count es = k /\ b_edges h = b_edges b ++ es
  end.
Definition from_bipartite_options (o : bipartite_options) (input : text) (h : bipartite) : Prop :=
  bipartite_graph h /\ exists b b', from_bipartite_source (bo_source o) input b /\ biclique_planted (bo_plantbiclique o) b b' /\ edges_added_between (bo_addedges o) b' h.
(* in the file only left vertices have lists *)
Definition delivers_bipartite (s : bipartite_source) (input : text) : Prop :=
  match s with
  | B_bp l r | B_bcomplete l r => 0 < l /\ 0 < r
  | B_bm l r m => 0 < l /\ 0 < r /\ 0 < m <= l * r
  | B_bd l r d => 0 < l /\ 0 < r /\ 0 < d <= r
  | B_bregular l r d => 0 < l /\ 0 < r /\ 0 < d <= r /\ (l * d) mod r = 0
  | B_bshift (N :: M :: pattern) => 0 < N /\ 0 < M /\ NoDup pattern /\ forall x, In x pattern -> 1 <= x <= M
  | B_bshift _ => False
  | B_stdin F_kthlist => exists lines name n adj, Forall one_line lines /\ input = ended lines /\ kthlist_file lines name n adj /\
      forall u v us, listed adj u v -> ~ In (u, us) adj
  | B_stdin _ => False
  end.
Definition sizes_of (s : bipartite_source) (input : text) (l r : Z) : Prop :=
  match s with
  | B_bp l' r' | B_bcomplete l' r' | B_bm l' r' _ | B_bd l' r' _ | B_bregular l' r' _ => l = l' /\ r = r'
  | B_bshift (N :: M :: _) => l = N /\ r = M
  | B_bshift _ => False
  | B_stdin _ => False
  end.
(* a clique is planted in constructed graphs only *)
Definition obtainable_bipartite (o : bipartite_options) (input : text) : Prop :=
  delivers_bipartite (bo_source o) input /\ positive_if_given (bo_addedges o) /\
  forall l r, bo_plantbiclique o = Some (l, r) -> 0 < l /\ 0 < r /\ exists l' r', sizes_of (bo_source o) input l' r' /\ l <= l' /\ r <= r'.

(* the i-th vertex of row r of a pyramid whose rows 0, 1, .. h have h+1, h, .. 1 vertices, counted row after row from 1 *)
Definition pyramid_place (h r i : Z) : Z := 1 + i + (r * (2 * h + 3 - r)) / 2.
(* a tree of this height: the vertices 1 .. 2^(h+1)-1, the leaves first, every other vertex entered from the two children;
   a pyramid: every vertex above the lowest row is entered from the two vertices below it *)
Definition from_dag_source (s : dag_source) (input : text) (d : digraph) : Prop :=
  proper_digraph d /\ acyclic d /\
  match s with
  | D_tree h => d_nodes d = range 1 (2 ^ (h + 1)) /\
      forall u v, arc d u v <-> 2 ^ h < v < 2 ^ (h + 1) /\ (u = 2 * v - 2 ^ (h + 1) \/ u = 2 * v - 2 ^ (h + 1) - 1)
  | D_pyramid h => d_nodes d = range 1 (pyramid_place h h 0 + 1) /\
      forall u v, arc d u v <-> exists r i, 1 <= r <= h /\ 0 <= i <= h - r /\ v = pyramid_place h r i /\
        (u = pyramid_place h (r - 1) i \/ u = pyramid_place h (r - 1) (i + 1))
  | D_stdin F_kthlist => exists lines name n adj, Forall one_line lines /\ input = ended lines /\ kthlist_file lines name n adj /\
      d_nodes d = range 1 (n + 1) /\ forall u v, arc d u v <-> listed adj u v
  | D_stdin _ => False
  end.
(* no circle among the lists of the file: the vertices have heights that decrease along the arcs *)
Definition delivers_dag (s : dag_source) (input : text) : Prop :=
  match s with
  | D_tree h | D_pyramid h => 0 < h
  | D_stdin F_kthlist => exists lines name n adj (height : Z -> nat), Forall one_line lines /\ input = ended lines /\ kthlist_file lines name n adj /\
      forall u v, listed adj u v -> (height v < height u)%nat
  | D_stdin _ => False
  end.
Definition rest_after_dag (s : dag_source) (input : text) : text := match s with D_stdin _ => [] | _ => input end.

(* ---- the subcommands ---- *)
(* what the formula is about: the graphs, the charges, the clauses that were drawn *)
Inductive subject :=
| About_nothing | About_graph (g : graph) | About_graphs (g h : graph) | About_bipartite (b : bipartite) | About_dag (d : digraph)
| About_dag_and_bipartite (d : digraph) (b : bipartite) | About_charges (g : graph) (odd : Z -> bool) | About_clauses (L : list (list (bool * text))).
(* the charges: odd at the first vertex only; any; an odd, an even number of odd ones *)
Definition charges_drawn (c : charge) (g : graph) (odd : Z -> bool) : Prop :=
  let total := count (filter odd (g_nodes g)) in
  match c with
  | C_first => forall v, In v (g_nodes g) -> (odd v = true <-> hd_error (g_nodes g) = Some v)
  | C_random => True
  | C_randomodd => g_nodes g <> [] -> total mod 2 = 1
  | C_randomeven => total mod 2 = 0
  end.
(* which subjects a command can have *)
Definition concerns (gen : generator) (input : text) (x : subject) : Prop :=
  match gen, x with
  | (G_php _ _ _ _ | G_bphp _ _ | G_parity _ | G_count _ _ | G_op _ _ _ _ _ | G_ram _ _ _ | G_ptn _ | G_cliquecoloring _ _ _ | G_or _ _ | G_and _ _ | G_empty | G_emptyclause), About_nothing => True
  | (G_gphp B _ _ | G_subsetcard _ B), About_bipartite b => from_bipartite_options B input b
  | (G_matching G | G_gop G _ _ _ _ | G_kcolor _ G | G_ec G | G_domset _ _ G | G_gauto G | G_kclique _ G | G_kcliquebin _ G | G_ramlb _ _ G), About_graph g => from_options G input g
  | G_giso G H, About_graphs g h => from_options G input g /\ from_options H (rest_of_input G input) h
  | G_subgraph G H, About_graphs g h => from_options G input g /\ from_options H (rest_of_input G input) h
  | G_tseitin c G, About_charges g odd => from_options G input g /\ charges_drawn c g odd
  | (G_peb D | G_stone D _), About_dag d => from_dag_source D input d
  | G_stonesparse D B, About_dag_and_bipartite d b => from_dag_source D input d /\ from_bipartite_options B (rest_after_dag D input) b
  | G_randkcnf k n m, About_clauses L => NoDup L /\ count L = m /\ forall cl, In cl L -> k_clause k n [] cl
  | _, _ => False
  end.
(* the question that the formula asks *)
Definition question (gen : generator) (x : subject) : Prop :=
  match gen, x with
  | G_php p h f o, _ => p <= h /\ (o = true -> f = true -> p = h) /\ (o = true -> p = 0 -> h = 0)
  | G_gphp _ f o, About_bipartite b => exists r : Z -> Z -> bool,
      assigns (fun i => In i (b_left b)) (fun j => In j (b_right b)) (fun i j => In (i, j) (b_edges b)) f o (fun i j => r i j = true)
  | G_bphp p h, _ => p <= h
  | G_parity N, _ => (2 | N)
  | G_count M p, _ => (p | M)
  | G_matching _, About_graph g => exists mate : Z -> Z, forall v, In v (g_nodes g) -> adjacent g v (mate v) /\ mate (mate v) = v
  | G_op N _ _ plant _, _ => 0 < N -> plant = true
  | G_gop _ _ _ plant _, About_graph g => forall v, In v (g_nodes g) -> plant = true /\ linked g v (List.last (g_nodes g) 0)
  | G_ram s k N, _ => exists edge : Z -> Z -> bool, forall S, StronglySorted Z.lt S -> (forall x, In x S -> 1 <= x <= N) ->
      (count S = s -> exists u v, In u S /\ In v S /\ u < v /\ edge u v = true) /\
      (count S = k -> exists u v, In u S /\ In v S /\ u < v /\ edge u v = false)
  | G_ptn N, _ => exists colour : Z -> bool, forall x y z, 1 <= x -> 1 <= y -> 1 <= z <= N -> x ^ 2 + y ^ 2 = z ^ 2 ->
      ~ (colour x = colour y /\ colour y = colour z)
  | G_cliquecoloring n k c, _ => k <= n /\ k <= c /\ (1 <= n -> 1 <= c)
  | G_kcolor k _, About_graph g => exists colour : Z -> Z, (forall v, In v (g_nodes g) -> 1 <= colour v <= k) /\ forall u v, adjacent g u v -> colour u <> colour v
  | G_ec _, About_graph g => forall l, NoDup l -> incl l (g_nodes g) -> (forall u w, In u l -> adjacent g u w -> In w l) ->
      count (filter (fun e => zmem (fst e) l) (g_edges g)) mod 2 = 0
  | G_domset d _ _, About_graph g => exists S, NoDup S /\ incl S (g_nodes g) /\ count S <= d /\
      forall v, In v (g_nodes g) -> exists u, In u S /\ (u = v \/ adjacent g u v)
  | G_subsetcard _ _, About_bipartite b => (forall u, In u (b_left b) -> left_degree b u mod 2 = 0) /\ (forall v, In v (b_right b) -> right_degree b v mod 2 = 0)
  | G_gauto _, About_graph g => exists f, isomorphism g g f /\ exists u, In u (g_nodes g) /\ f u <> u
  | G_giso _ _, About_graphs g h => exists f, isomorphism g h f
  | G_subgraph _ _, About_graphs g t => exists f, induced_copy t g f
  | G_tseitin _ _, About_charges g odd => forall l, NoDup l -> incl l (g_nodes g) -> (forall u w, In u l -> adjacent g u w -> In w l) -> count (filter odd l) mod 2 = 0
  | (G_kclique k _ | G_kcliquebin k _), About_graph g => exists S, clique g S /\ count S = k
  | G_ramlb k s _, About_graph g => exists W, placement g (Z.max k s) true W /\ (clique g (firstn (Z.to_nat k) W) \/ independent g (firstn (Z.to_nat s) W))
  | (G_peb _ | G_stone _ _), About_dag d => d_nodes d = []
  | G_stonesparse _ _, About_dag_and_bipartite d _ => d_nodes d = []
  | G_randkcnf _ _ _, About_clauses L => has_model L
  | G_or P N, _ => 0 < P + N
  | (G_and _ _ | G_empty), _ => True
  | _, _ => False
  end.
(* arguments in the domain of the subcommand *)
Definition sensible (gen : generator) : Prop :=
  match gen with
  | G_php p h _ _ => 0 <= p /\ 0 <= h
  | G_bphp p h => 0 <= p /\ 1 <= h
  | G_parity N => 0 <= N
  | G_count M p => 0 <= M /\ 0 <= p
  | G_ram s k _ => 0 <= s /\ 0 <= k
  | G_cliquecoloring n k c => 0 <= n /\ 0 <= k /\ 0 <= c
  | G_domset d _ _ => 0 <= d
  | G_kclique k _ | G_kcliquebin k _ => 0 <= k
  | G_ramlb k s _ => 0 <= k /\ 0 <= s
  | G_stone _ s => 0 <= s
  | G_randkcnf k n m => 0 <= k <= n /\ 0 <= m <= binomial (Z.to_nat n) (Z.to_nat k) * 2 ^ k
  | G_or P N | G_and P N => 0 <= P /\ 0 <= N
  | _ => True
  end.
Definition graphs_obtainable (gen : generator) (input : text) : Prop :=
  match gen with
  | G_gphp B _ _ | G_subsetcard _ B => obtainable_bipartite B input
  | G_matching G | G_gop G _ _ _ _ | G_kcolor _ G | G_ec G | G_domset _ _ G | G_gauto G | G_tseitin _ G | G_kclique _ G | G_kcliquebin _ G
  | G_ramlb _ _ G => obtainable G input
  | G_giso G H | G_subgraph G H => obtainable G input /\ obtainable H (rest_of_input G input)
  | G_peb D | G_stone D _ => delivers_dag D input
  | G_stonesparse D B => delivers_dag D input /\ obtainable_bipartite B (rest_after_dag D input)
  | _ => True
  end.
(* some graphs are refused: odd degrees; no vertices; a mapping for another number of vertices *)
Definition accepts (gen : generator) (x : subject) : Prop :=
  match gen, x with
  | G_ec _, About_graph g => forall v, In v (g_nodes g) -> degree g v mod 2 = 0
  | G_kcliquebin _ _, About_graph g => g_nodes g <> []
  | G_stonesparse _ _, About_dag_and_bipartite d b => List.length (b_left b) = List.length (d_nodes d)
  | _, _ => True
  end.
Definition refusal (gen : generator) : Z := match gen with G_stonesparse _ _ => -1 | _ => 65 end.
(* new edges are drawn; or a regular bipartite graph, by attempts without end *)
Definition adds_edges (gen : generator) : Prop :=
  match gen with
  | G_gphp B _ _ | G_subsetcard _ B | G_stonesparse _ B => bo_addedges B <> None
  | G_matching G | G_gop G _ _ _ _ | G_kcolor _ G | G_ec G | G_domset _ _ G | G_gauto G | G_tseitin _ G | G_kclique _ G | G_kcliquebin _ G
  | G_ramlb _ _ G => so_addedges G <> None
  | G_giso G H | G_subgraph G H => so_addedges G <> None \/ so_addedges H <> None
  | _ => False
  end.
Definition draws_regular (gen : generator) : Prop :=
  match gen with
  | G_gphp B _ _ | G_subsetcard _ B | G_stonesparse _ B => match bo_source B with B_bregular _ _ _ => True | _ => False end
  | _ => False
  end.
(* transformations that keep satisfiability *)
Definition keeps (t : transformation) : Prop := ~ compresses t /\ proper t 0.

(* ---- the command line ---- *)
(* its words: the name of the program, the formula, then -T and a transformation, any number of times *)
Definition typed (prog : text) (w0 : list text) (ws : list (list text)) : list text := (prog :: w0) ++ concat (map (cons (txt "-T")) ws).
(* argparse (pl, pt) makes of them a formula and transformations; None: -T without a transformation *)
Record understood (pl : list text -> outcome parsed_line) (pt : list text -> outcome (option transformation)) (prog : text) (w0 : list text) (ws : list (list text))
    (l : parsed_line) (ts : list (option transformation)) : Prop := mkUnderstood {
  un_formula : ~ In (txt "-T") (prog :: w0);
  un_rest : Forall (fun w => ~ In (txt "-T") w) ws;
  un_line : pl w0 = Gives l;
  un_transformations : Forall2 (fun w t => pt w = Gives t) ws ts
}.
(* transformations applied one after the other *)
Inductive in_turn : list transformation -> text * cnf -> text * cnf -> Prop :=
| turn_none hc : in_turn [] hc hc
| turn_one t ts h c c' hc : transform t c = Ok c' -> in_turn ts (transform_header t h, c') hc -> in_turn (t :: ts) (h, c) hc.
(* the first graph that a subcommand asks for *)
Definition takes (gen : generator) (o : simple_options) : Prop :=
  match gen with
  | G_matching G | G_gop G _ _ _ _ | G_kcolor _ G | G_ec G | G_domset _ _ G | G_gauto G | G_tseitin _ G | G_kclique _ G | G_kcliquebin _ G
  | G_ramlb _ _ G | G_giso G _ | G_subgraph G _ => G = o
  | _ => False
  end.
Definition takes_bipartite (gen : generator) (o : bipartite_options) : Prop := match gen with G_gphp B _ _ | G_subsetcard _ B => B = o | _ => False end.
Definition takes_dag (gen : generator) (s : dag_source) : Prop := match gen with G_peb D | G_stone D _ | G_stonesparse D _ => D = s | _ => False end.
