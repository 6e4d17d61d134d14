(* MGenCmd.v -- the command line of the bundled generator: cnfgen.py, the graph helpers of cmdline.py and the subcommands
   of families/*.py.  Simplifications: argparse is a parameter (it delivers the subcommand with its options, except for
   the checks that cmdline.py itself makes, which are modelled); the
   formats gml and dot, --savegraph, -i FILE and -o FILE (these fail in Python 3) are left out; the header of a formula
   (its description) is a parameter; networkx and random are parameters; the vertices of trees, pyramids, grids are their
   positions in the list of vertices, not texts (the names of variables do not reach the output); standard output takes
   text although it is opened with the mode wb (as up to Python 3.10). *)
From Coq Require Import String Ascii ZArith List Bool.
From Verif Require Import PyBase MSet MText MCnf MFam MFam2 MTrans MFile MTool MGraph.
Import ListNotations.
Open Scope Z_scope.

(* how a run can end: with a value, with exit(status), with an exception; Runs: it is still running *)
Inductive outcome (A : Type) := Gives (a : A) | Exits (status : Z) | Raises (e : exn) | Runs.
Arguments Gives {A} _. Arguments Exits {A} _. Arguments Raises {A} _. Arguments Runs {A}.
Definition andthen {A B} (o : outcome A) (f : A -> outcome B) : outcome B :=
  match o with Gives a => f a | Exits s => Exits s | Raises e => Raises e | Runs => Runs end.
Definition plain {A} (r : result A) : outcome A := match r with Ok a => Gives a | Err e => Raises e | OutOfFuel => Runs end.
(* except ValueError: ... exit(-1) *)
Definition exit_on_value_error {A} (r : result A) : outcome A := match r with Err ValueError => Exits (-1) | _ => plain r end.
(* networkx.NetworkXError and NameError *)
Definition NetworkXError : exn := OtherException.
Definition NameError : exn := OtherException.

(* the outcomes of networkx, random and math.log during the construction of one graph or formula *)
Record chance := mkChance {
  ch_regular : Z -> Z -> graph;                       (* random_regular_graph(d,n) *)
  ch_gnp : Z -> graph;                                (* gnp_random_graph(n,p) *)
  ch_gnm : Z -> Z -> graph;                           (* gnm_random_graph(n,m) *)
  ch_bp : Z -> Z -> bipartite;                        (* bipartite_random_graph(l,r,p) *)
  ch_bm : Z -> Z -> Z -> bipartite;                   (* bipartite_gnmk_random_graph(l,r,m) *)
  ch_left : Z -> list Z -> Z -> list Z;               (* random.sample in bipartite_random_left_regular *)
  ch_randint : nat -> nat -> nat -> nat;              (* random.randint in bipartite_random_regular *)
  ch_steps : nat;                                     (* how many attempts of bipartite_random_regular are followed *)
  ch_vertices : list Z -> nat -> list Z;              (* random.sample for planted cliques *)
  ch_new : graph -> pair_outcomes;                    (* sample_missing_edges *)
  ch_new_between : bipartite -> pair_outcomes;
  ch_bit : nat -> Z;                                  (* random.randint(0,1) *)
  ch_clauses : randomness;                            (* RandomKCNF *)
  ch_bits : Z -> nat                                  (* int(ceil(log(n,2))) *)
}.

(* ---- simple graphs, cmdline.py:337-512 ---- *)
(* -gf; without it, autodetect *)
Inductive file_format := F_autodetect | F_kthlist | F_dimacs | F_matrix.
Inductive simple_source :=
| S_gnd (n d : Z) | S_gnp (n : Z) | S_gnm (n m : Z) | S_grid (dims : list Z) | S_torus (dims : list Z) | S_complete (n : Z) | S_empty (n : Z)
| S_stdin (f : file_format).
(* networkx.grid_graph(dims, periodic): the cartesian product of paths or of cycles (a cycle of one vertex is a loop);
   the vertices are numbered in lexicographic order, the edges are sorted *)
Definition joined_on_line (periodic : bool) (d a b : Z) : bool :=
  if periodic then ((a + 1) mod d =? b) || ((b + 1) mod d =? a) else (a + 1 =? b) || (b + 1 =? a).
Fixpoint one_step (periodic : bool) (dims p q : list Z) : bool :=
  match dims, p, q with
  | d :: dims', a :: p', b :: q' =>
      (joined_on_line periodic d a b && if list_eq_dec Z.eq_dec p' q' then true else false) || ((a =? b) && one_step periodic dims' p' q')
  | _, _, _ => false
  end.
Definition grid_points (dims : list Z) : list (list Z) := products (map (range 0) dims).
Definition grid_graph (periodic : bool) (dims : list Z) : graph :=
  let P := grid_points dims in
  let V := range 0 (Z.of_nat (List.length P)) in
  mkGraph V (filter (fun e => one_step periodic dims (nth (Z.to_nat (fst e)) P []) (nth (Z.to_nat (snd e)) P [])) (pairs_with_replacement V)).
Record simple_options := mkSimpleOptions { so_source : simple_source; so_plantclique : option Z; so_addedges : option Z }.
(* graphs.py:194-296; the name of standard input has no extension (graphs.py:173-182), matrix is no choice here *)
Definition read_simple (f : file_format) (input : text) : result graph :=
  match f with
  | F_kthlist => g <- readGraph_kthlist Simple input ;; Ok (to_graph g)
  | F_dimacs => g <- read_dimacs_graph false input ;; Ok (to_graph g)
  | F_autodetect | F_matrix => Err ValueError
  end.
(* cmdline.py:439-486; with what is left of the standard input *)
Definition source_simple (E : chance) (s : simple_source) (input : text) : outcome (graph * text) :=
  match s with
  | S_gnd n d =>
      if (n * d) mod 2 =? 1 then Raises ValueError
      else if negb ((0 <=? d) && (d <? n)) then Raises NetworkXError     (* random_regular_graph *)
      else Gives (ch_regular E d n, input)
  | S_gnp n => Gives (ch_gnp E n, input)
  | S_gnm n m => Gives (ch_gnm E n m, input)
  | S_grid dims => Gives (grid_graph false dims, input)
  | S_torus dims => Gives (grid_graph true dims, input)
  | S_complete n => Gives (complete_graph n, input)
  | S_empty n => Gives (empty_graph n, input)
  | S_stdin f => andthen (exit_on_value_error (read_simple f input)) (fun g => Gives (g, []))
  end.
(* cmdline.py:433-512 *)
Definition obtain_simple (E : chance) (o : simple_options) (input : text) : outcome (graph * text) :=
  andthen (source_simple E (so_source o) input) (fun gt =>
  andthen (match so_plantclique o with None => Gives (fst gt) | Some k => plain (plant_clique (ch_vertices E) (fst gt) k) end) (fun g =>
  andthen (match so_addedges o with None => Gives g | Some k => plain (add_edges (ch_new E g) g k) end) (fun g' =>
  Gives (g', snd gt)))).

(* ---- bipartite graphs, cmdline.py:515-754 ---- *)
Inductive bipartite_source :=
| B_bp (l r : Z) | B_bm (l r m : Z) | B_bd (l r d : Z) | B_bregular (l r d : Z) | B_bshift (values : list Z) | B_bcomplete (l r : Z)
| B_stdin (f : file_format).
Record bipartite_options := mkBipartiteOptions { bo_source : bipartite_source; bo_plantbiclique : option (Z * Z); bo_addedges : option Z }.
(* networkx complete_bipartite_graph and cmdline.py:697-706 *)
Definition complete_bipartite (l r : Z) : bipartite :=
  mkBipartite (range 0 l) (range l (l + r)) (flat_map (fun u => map (pair u) (range l (l + r))) (range 0 l)).
Definition read_bipartite (f : file_format) (input : text) : result bipartite :=
  match f with
  | F_kthlist => g <- readGraph_kthlist Bipartite input ;; Ok (to_bipartite g)
  | F_matrix => g <- read_matrix input ;; Ok (to_bipartite g)
  | F_autodetect | F_dimacs => Err ValueError
  end.
(* cmdline.py:576,694-695: N, M and the sorted pattern *)
Definition shift_of (values : list Z) : result bipartite :=
  match values with N :: M :: pattern => bipartite_shift N M (sort_by Z.ltb pattern) | _ => Err ValueError end.
(* cmdline.py:672-721 *)
Definition source_bipartite (E : chance) (s : bipartite_source) (input : text) : outcome (bipartite * text) :=
  match s with
  | B_bp l r => Gives (ch_bp E l r, input)
  | B_bm l r m => Gives (ch_bm E l r m, input)
  | B_bd l r d => andthen (plain (bipartite_random_left_regular (ch_left E) l r d)) (fun b => Gives (b, input))
  | B_bregular l r d => andthen (plain (bipartite_random_regular (ch_randint E) (ch_steps E) l r d)) (fun b => Gives (b, input))
  | B_bshift values => andthen (plain (shift_of values)) (fun b => Gives (b, input))
  | B_bcomplete l r => Gives (complete_bipartite l r, input)
  | B_stdin f => andthen (exit_on_value_error (read_bipartite f input)) (fun b => Gives (b, []))
  end.
(* cmdline.py:665-754 *)
Definition obtain_bipartite (E : chance) (o : bipartite_options) (input : text) : outcome (bipartite * text) :=
  andthen (source_bipartite E (bo_source o) input) (fun bt =>
  andthen (match bo_plantbiclique o with None => Gives (fst bt) | Some (l, r) => plain (plant_biclique (ch_vertices E) (fst bt) l r) end) (fun b =>
  andthen (match bo_addedges o with None => Gives b | Some k => plain (add_missing_edges (ch_new_between E b) b k) end) (fun b' =>
  Gives (b', snd bt)))).

(* ---- directed acyclic graphs, cmdline.py:241-334 ---- *)
Inductive dag_source := D_tree (height : Z) | D_pyramid (height : Z) | D_stdin (f : file_format).
(* the vertices replaced by their positions, from 1 *)
Definition position_of (t : text) (l : list text) : Z := match position t l 1 with Some i => i | None => 0 end.
Definition numbered (g : named_digraph) : digraph :=
  mkDigraph (range 1 (Z.of_nat (List.length (n_vertices g)) + 1))
    (map (fun e => (position_of (fst e) (n_vertices g), position_of (snd e) (n_vertices g))) (n_arcs g)).
Definition read_dag (f : file_format) (input : text) : result digraph :=
  match f with
  | F_kthlist => g <- readGraph_kthlist Dag input ;; Ok (to_digraph g)
  | F_autodetect | F_dimacs | F_matrix => Err ValueError
  end.
(* cmdline.py:300-334 *)
Definition obtain_dag (s : dag_source) (input : text) : outcome (digraph * text) :=
  match s with
  | D_tree h => andthen (plain (dag_complete_binary_tree h)) (fun g => Gives (numbered g, input))
  | D_pyramid h => Gives (numbered (dag_pyramid h), input)
  | D_stdin f => andthen (exit_on_value_error (read_dag f input)) (fun d => Gives (d, []))
  end.

(* ---- the subcommands, families/*.py ---- *)
Inductive charge := C_first | C_random | C_randomodd | C_randomeven.
Inductive generator :=
| G_php (pigeons holes : Z) (functional onto : bool) | G_gphp (B : bipartite_options) (functional onto : bool) | G_bphp (pigeons holes : Z)
| G_parity (N : Z) | G_count (M p : Z) | G_matching (G : simple_options)
| G_op (N : Z) (total smart plant : bool) (knuth : option Z) | G_gop (G : simple_options) (total smart plant : bool) (knuth : option Z)
| G_ram (s k N : Z) | G_ptn (N : Z) | G_cliquecoloring (n k c : Z)
| G_kcolor (k : Z) (G : simple_options) | G_ec (G : simple_options) | G_domset (d : Z) (alternative : bool) (G : simple_options)
| G_subsetcard (equal : bool) (B : bipartite_options)
| G_gauto (G : simple_options) | G_giso (G1 G2 : simple_options) | G_tseitin (c : charge) (G : simple_options)
| G_subgraph (G T : simple_options) | G_kclique (k : Z) (G : simple_options) | G_kcliquebin (k : Z) (G : simple_options)
| G_ramlb (k s : Z) (G : simple_options)
| G_peb (D : dag_source) | G_stone (D : dag_source) (s : Z) | G_stonesparse (D : dag_source) (B : bipartite_options)
| G_randkcnf (k n m : Z) | G_or (P N : Z) | G_and (P N : Z) | G_empty | G_emptyclause.

(* knuth: None, 2 or 3; GraphOrderingPrinciple compares it with 2 and 3 only *)
Definition knuth_of (k : option Z) : Z := match k with Some z => z | None => 0 end.
(* tseitin.py:89-108 *)
Definition charges_of (E : chance) (c : charge) (g : graph) : option (list Z) :=
  let n := order g in
  if n <? 1 then None
  else
    let random := map (ch_bit E) (seq 0 (Z.to_nat (n - 1))) in
    let parity := fold_right Z.add 0 random mod 2 in
    match c with
    | C_first => Some (1 :: repeat 0 (Z.to_nat (n - 1)))
    | C_random => Some (random ++ [ch_bit E (Z.to_nat (n - 1))])
    | C_randomodd => Some (random ++ [1 - parity])
    | C_randomeven => Some (random ++ [parity])
    end.
(* build_cnf of the helpers: cliquecoloring.py:133, coloring.py:169-170,186-187, counting.py:114,136-137,164,
   dominatingset.py:138-139, graphisomorphism.py:135-136,165-167, ordering.py:189,224-225, pebbling.py:362-367,394-399,
   426-432, pigeonhole.py:223-226,257-260,288-289, ramsey.py:143,169, randomformulas.py:149, simple.py, subgraph.py:279-280,
   308-309,339-340,367-369, subsetcardinality.py:138-139, tseitin.py:87-110.  E numbers the outcomes of the first and of the
   second graph *)
Definition build_cnf (E : nat -> chance) (gen : generator) (input : text) : outcome cnf :=
  match gen with
  | G_php p h f o => plain (PigeonholePrinciple p h f o)
  | G_gphp B f o => andthen (obtain_bipartite (E 0%nat) B input) (fun b => plain (GraphPigeonholePrinciple (fst b) f o))
  | G_bphp p h => plain (BinaryPigeonholePrinciple (ch_bits (E 0%nat) h) p h)
  | G_parity N => plain (CountingPrinciple N 2)
  | G_count M p => plain (CountingPrinciple M p)
  | G_matching G => andthen (obtain_simple (E 0%nat) G input) (fun g => plain (PerfectMatchingPrinciple (fst g)))
  | G_op N t s p k => plain (OrderingPrinciple N t s p (knuth_of k))
  | G_gop G t s p k => andthen (obtain_simple (E 0%nat) G input) (fun g => plain (GraphOrderingPrinciple (fst g) t s p (knuth_of k)))
  | G_ram s k N => plain (RamseyLowerBoundFormula s k N)
  | G_ptn N => plain (PythagoreanTriples N)
  | G_cliquecoloring n k c => plain (CliqueColoring n k c)
  | G_kcolor k G => andthen (obtain_simple (E 0%nat) G input) (fun g => plain (GraphColoringFormula (fst g) (range 1 (k + 1)) true))
  | G_ec G => andthen (obtain_simple (E 0%nat) G input) (fun g => plain (EvenColoringFormula (fst g)))
  | G_domset d a G => andthen (obtain_simple (E 0%nat) G input) (fun g => plain (DominatingSet (fst g) d a))
  | G_subsetcard e B => andthen (obtain_bipartite (E 0%nat) B input) (fun b => plain (SubsetCardinalityFormula (fst b) e))
  | G_gauto G => andthen (obtain_simple (E 0%nat) G input) (fun g => plain (GraphAutomorphism (fst g)))
  | G_giso G1 G2 =>
      andthen (obtain_simple (E 0%nat) G1 input) (fun g1 => andthen (obtain_simple (E 1%nat) G2 (snd g1)) (fun g2 =>
      plain (GraphIsomorphism (fst g1) (fst g2))))
  | G_tseitin c G => andthen (obtain_simple (E 0%nat) G input) (fun g => plain (TseitinFormula (fst g) (charges_of (E 0%nat) c (fst g))))
  | G_subgraph G T =>
      andthen (obtain_simple (E 0%nat) G input) (fun g => andthen (obtain_simple (E 1%nat) T (snd g)) (fun t =>
      plain (SubgraphFormula (fst g) [fst t] false)))
  | G_kclique k G => andthen (obtain_simple (E 0%nat) G input) (fun g => plain (CliqueFormula (fst g) k))
  | G_kcliquebin k G => andthen (obtain_simple (E 0%nat) G input) (fun g => plain (BinaryCliqueFormula (ch_bits (E 0%nat) (order (fst g))) (fst g) k))
  | G_ramlb k s G => andthen (obtain_simple (E 0%nat) G input) (fun g => plain (RamseyWitnessFormula (fst g) k s))
  | G_peb D => andthen (obtain_dag D input) (fun d => exit_on_value_error (PebblingFormula (fst d)))
  | G_stone D s => andthen (obtain_dag D input) (fun d => exit_on_value_error (StoneFormula (fst d) s))
  | G_stonesparse D B =>
      andthen (obtain_dag D input) (fun d => andthen (obtain_bipartite (E 0%nat) B (snd d)) (fun b =>
      exit_on_value_error (SparseStoneFormula (fst d) (fst b))))
  | G_randkcnf k n m => plain (RandomKCNF (ch_clauses (E 0%nat)) k n m [])
  | G_or P N => plain (OrFormula P N)
  | G_and P N => plain (AndFormula P N)
  | G_empty => plain EmptyFormula
  | G_emptyclause => plain EmptyClauseFormula
  end.

(* ---- the checks of cmdline.py while the options are parsed ---- *)
(* type=positive_int: argparse reports the error and exits with 2; in the actions that convert or compare themselves
   the error handler uses e.message, an attribute that exceptions of Python 3 do not have *)
Definition positive (zs : list Z) : outcome unit := if forallb (Z.ltb 0) zs then Gives tt else Exits 2.
Definition positive_option (z : option Z) : outcome unit := match z with Some z => positive [z] | None => Gives tt end.
Definition required (b : bool) : outcome unit := if b then Gives tt else Raises AttributeError.
(* cmdline.py:340-430 *)
Definition check_simple (o : simple_options) : outcome unit :=
  andthen (match so_source o with
           | S_gnd n d => positive [n; d]
           | S_gnp n => required (0 <? n)
           | S_gnm n m => positive [n; m]
           | S_grid dims | S_torus dims => positive dims
           | S_complete n | S_empty n => positive [n]
           | S_stdin _ => Gives tt
           end) (fun _ => andthen (positive_option (so_plantclique o)) (fun _ => positive_option (so_addedges o))).
Fixpoint adjacent_equal (l : list Z) : bool :=
  match l with x :: ((y :: _) as t) => (x =? y) || adjacent_equal t | _ => false end.
(* cmdline.py:518-662 *)
Definition check_bipartite (o : bipartite_options) : outcome unit :=
  andthen (match bo_source o with
           | B_bp l r => required ((0 <? l) && (0 <? r))
           | B_bm l r m => andthen (positive [l; r; m]) (fun _ => required (m <=? r * l))
           | B_bd l r d => andthen (positive [l; r; d]) (fun _ => required (d <=? r))
           | B_bregular l r d => required ((0 <? l) && (0 <? r) && (0 <? d) && (d <=? r) && ((d * l) mod r =? 0))
           | B_bshift values => andthen (positive values) (fun _ =>
               match values with
               | N :: M :: pattern => required (negb (adjacent_equal (sort_by Z.ltb pattern)) && forallb (fun x => x <=? M) pattern)
               | _ => Raises AttributeError
               end)
           | B_bcomplete l r => positive [l; r]
           | B_stdin _ => Gives tt
           end) (fun _ => andthen (match bo_plantbiclique o with Some (l, r) => positive [l; r] | None => Gives tt end)
                            (fun _ => positive_option (bo_addedges o))).
Definition check_dag (s : dag_source) : outcome unit :=
  match s with D_tree h | D_pyramid h => positive [h] | D_stdin _ => Gives tt end.
(* setup_command_line of the helpers: which graphs a subcommand takes *)
Definition check_generator (gen : generator) : outcome unit :=
  match gen with
  | G_gphp B _ _ | G_subsetcard _ B => check_bipartite B
  | G_matching G | G_gop G _ _ _ _ | G_kcolor _ G | G_ec G | G_domset _ _ G | G_gauto G | G_tseitin _ G | G_kclique _ G | G_kcliquebin _ G
  | G_ramlb _ _ G => check_simple G
  | G_giso G H | G_subgraph G H => andthen (check_simple G) (fun _ => check_simple H)
  | G_peb D | G_stone D _ => check_dag D
  | G_stonesparse D B => andthen (check_dag D) (fun _ => check_bipartite B)
  | _ => Gives tt
  end.

(* ---- cnfgen.py ---- *)
(* cnfgen.py:197-205 *)
Fixpoint splitlist (L : list text) (key : text) (argbuffer : list text) : list (list text) :=
  match L with
  | [] => [argbuffer]
  | e :: t => if text_eqb e key then argbuffer :: splitlist t key [] else splitlist t key (argbuffer ++ [e])
  end.
(* what argparse makes of the words before the first -T: a subcommand or none, -of latex, -v or -q *)
Record parsed_line := mkParsedLine { pl_generator : option generator; pl_latex : bool; pl_verbose : bool }.
Fixpoint each {A B} (f : A -> outcome B) (l : list A) : outcome (list B) :=
  match l with [] => Gives [] | x :: t => andthen (f x) (fun y => andthen (each f t) (fun ys => Gives (y :: ys))) end.
(* cnfgen.py:223-228: except (ValueError, AttributeError): exit(os.EX_DATAERR) *)
Definition data_error {A} (o : outcome A) : outcome A :=
  match o with Raises ValueError | Raises AttributeError => Exits 65 | _ => o end.
Definition generate (E : nat -> chance) (gen : option generator) (input : text) : outcome cnf :=
  data_error (match gen with None => Raises AttributeError | Some g => build_cnf E g input end).
(* transform_cnf; no subcommand after -T: there is no attribute transformation *)
Definition apply_transformation (t : option transformation) (hc : text * cnf) : outcome (text * cnf) :=
  match t with
  | None => Raises AttributeError
  | Some t =>
      andthen (match t with
               | T_xorcomp b => exit_on_value_error (VariableCompression (snd hc) b (txt "xor"))
               | T_majcomp b => exit_on_value_error (VariableCompression (snd hc) b (txt "maj"))
               | _ => plain (transform t (snd hc))
               end) (fun c => Gives (transform_header t (fst hc), c))
  end.
Fixpoint apply_transformations (ts : list (option transformation)) (hc : text * cnf) : outcome (text * cnf) :=
  match ts with [] => Gives hc | t :: rest => andthen (apply_transformation t hc) (apply_transformations rest) end.
(* cnfgen.py:222-268: what follows the parsing; words are argv[1:]; search_cmdline_input_file, called for latex only, uses
   the name file, which Python 3 does not have *)
Definition cnfgen_parsed (E : nat -> chance) (header : text) (l : parsed_line) (ts : list (option transformation)) (words : list text) (input : text) : outcome text :=
  andthen (generate E (pl_generator l) input) (fun c =>
  andthen (apply_transformations ts (header, c)) (fun hc =>
  if pl_latex l then Raises NameError
  else Gives (cnfgen_file (pl_verbose l) (fst hc) (join (txt " ") words) (snd hc)))).
(* cnfgen.py:127-268; argv[0] is the name of the program *)
Definition cnfgen (E : nat -> chance) (parse_line : list text -> outcome parsed_line) (parse_transformation : list text -> outcome (option transformation))
    (header : text) (argv : list text) (input : text) : outcome text :=
  let chunks := splitlist argv (txt "-T") [] in
  andthen (parse_line (tl (hd [] chunks))) (fun l =>
  andthen (match pl_generator l with Some g => check_generator g | None => Gives tt end) (fun _ =>
  andthen (each parse_transformation (tl chunks)) (fun ts =>
  cnfgen_parsed E header l ts (tl argv) input))).
