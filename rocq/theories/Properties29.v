(* Properties29.v -- generated by tools/genprops.py from PP29.v: property theorems, their
   assumptions, and examples showing that the hypotheses are met.  Proofs are in PP29.v. *)
From Coq Require Import String Ascii ZArith List Bool Lia Arith Sorted Permutation.
From Verif Require Import Spec SpecInput SpecRun SpecProc SpecShare SpecCli PyBase MSet MText MQueue MDb MSolver MMain MProc MShare MCli.
From Verif Require Import SpecFile SpecSat MCnf MFam MFam2 MFile MTrans MTool MGraph MGenCmd SpecCnf SpecFam SpecFam2 SpecTrans SpecTool SpecGraph SpecGenCmd.
From Verif Require Import PLib PCnf1 PCnf2 PFam1 PFam2 PFam4 PP16 PP21 PP25 PP26 PGenCmd0 PGenCmd1 PGenCmd2 PGenCmd3 PGenCmd4 PGenCmd5 PGenCmd6 PGenCmd7 PGenCmd8.
Import ListNotations.
From Verif Require Import PP29.
Open Scope Z_scope.

(* C90: cnfgen with a subcommand, its options, and transformations that keep satisfiability prints a DIMACS file whose
   clauses are satisfiable exactly when the question of the subcommand has a positive answer for the graphs that the options
   describe; it exits with 65 or -1 for graphs outside the domain of the formula.  Two exceptions: new edges can fail to
   be drawn, and a regular bipartite graph can be sought for ever *)
Theorem C90_formula : forall E pl pt header prog w0 ws l gen ts input,
  fair (E 0%nat) -> fair (E 1%nat) -> understood pl pt prog w0 ws l (map Some ts) -> Forall keeps ts ->
  pl_generator l = Some gen -> pl_latex l = false -> sensible gen -> graphs_obtainable gen input ->
  let run := cnfgen E pl pt header (typed prog w0 ws) input in
  (exists x, concerns gen input x /\
     (accepts gen x -> exists out n F, run = Gives out /\ dimacs_text out n F /\ (satisfiable F <-> question gen x)) /\
     (~ accepts gen x -> run = Exits (refusal gen))) \/
  (adds_edges gen /\ (run = Exits 65 \/ run = Raises RuntimeError)) \/
  (draws_regular gen /\ run = Runs).
Proof. exact p_C90_formula. Qed.
Print Assumptions C90_formula.

(* cnfgen kcolor 2 --complete 3 -T flip: the triangle has no colouring with two colours *)
Definition triangle_words : list text := [txt "kcolor"; txt "2"; txt "--complete"; txt "3"].
Definition triangle_line : parsed_line := mkParsedLine (Some (G_kcolor 2 (mkSimpleOptions (S_complete 3) None None))) false false.
Definition parse_example (w : list text) : outcome parsed_line := if list_eq_dec (list_eq_dec ascii_dec) w triangle_words then Gives triangle_line else Exits 2.
Definition parse_flip (w : list text) : outcome (option transformation) := if list_eq_dec (list_eq_dec ascii_dec) w [txt "flip"] then Gives (Some T_flip) else Exits 2.
Example ex_C90_fair : fair some_chance.
Proof. exact some_chance_fair. Qed.
Example ex_C90_understood : understood parse_example parse_flip (txt "cnfgen") triangle_words [[txt "flip"]] triangle_line (map Some [T_flip]).
Proof.
  constructor; [|constructor; [|constructor]| |repeat constructor]; try reflexivity.
  - intros H. cbn [In triangle_words] in H. repeat (destruct H as [H|H]; [vm_compute in H; discriminate|]). destruct H.
  - intros H. cbn [In] in H. repeat (destruct H as [H|H]; [vm_compute in H; discriminate|]). destruct H.
Qed.
Example ex_C90_inputs : Forall keeps [T_flip] /\ sensible (G_kcolor 2 (mkSimpleOptions (S_complete 3) None None)) /\
  graphs_obtainable (G_kcolor 2 (mkSimpleOptions (S_complete 3) None None)) [].
Proof.
  split; [repeat constructor; intros (b & [X|X]); discriminate|]. split; [exact I|]. split; [reflexivity|]. split; [intros k X; discriminate|]. split; intros k X; discriminate.
Qed.
Example ex_C90_unsatisfiable : exists out n F, cnfgen (fun _ => some_chance) parse_example parse_flip (txt "A header" ++ [nl]) (typed (txt "cnfgen") triangle_words [[txt "flip"]]) [] = Gives out /\
  dimacs_text out n F /\ ~ satisfiable F.
Proof.
  destruct ex_C90_inputs as (K & S & O).
  destruct (p_C90_formula (fun _ => some_chance) _ _ (txt "A header" ++ [nl]) _ _ _ _ _ _ [] ex_C90_fair ex_C90_fair ex_C90_understood K eq_refl eq_refl S O) as [(x & C & A & _)|[(X & _)|(X & _)]].
  - destruct x; try contradiction C. destruct (A I) as (out & n & F & R & D & Q). exists out, n, F. split; [exact R|]. split; [exact D|]. intros Sa. apply Q in Sa as (colour & B & J). cbn [concerns] in C.
    destruct C as (_ & g1 & g2 & (V & Ad) & C1 & C2). cbn [so_plantclique so_addedges clique_planted edges_added] in C1, C2. subst g1 g2.
    assert (V' : forall v, 0 <= v <= 2 -> 1 <= colour v <= 2) by (intros v L; apply B, V; lia).
    pose proof (V' 0 ltac:(lia)). pose proof (V' 1 ltac:(lia)). pose proof (V' 2 ltac:(lia)).
    assert (D' : forall u v, 0 <= u < v -> v <= 2 -> colour u <> colour v) by (intros u v L M; apply J, Ad; lia).
    pose proof (D' 0 1 ltac:(lia) ltac:(lia)). pose proof (D' 0 2 ltac:(lia) ltac:(lia)). pose proof (D' 1 2 ltac:(lia) ltac:(lia)). lia.
  - exfalso. apply X. reflexivity.
  - contradiction X.
Qed.

(* the grid with two rows and three columns, and the torus of the same size *)
Example ex_C90_grid : let grid := grid_graph false [2; 3] in is_grid false [2; 3] grid /\ g_edges grid = [(0, 1); (0, 3); (1, 2); (1, 4); (2, 5); (3, 4); (4, 5)] /\
  is_grid true [2; 3] (grid_graph true [2; 3]) /\ count (g_edges (grid_graph true [2; 3])) = 9 /\ In (0, 0) (g_edges (grid_graph true [1; 3])).
Proof.
  cbv zeta. split; [apply grid_ok; intros d I; cbn in I; lia|]. split; [vm_compute; reflexivity|]. split; [apply grid_ok; intros d I; cbn in I; lia|]. split; [vm_compute; reflexivity|]. vm_compute. auto.
Qed.

(* C90: the printed file given to NDP: when its clauses have one to three literals and one of them is no tautology, NDP
   reports satisfiable only for a positive answer, and without collisions of the hash exactly then *)
Theorem C90_solved : forall E pl pt header prog w0 ws l gen ts input,
  fair (E 0%nat) -> fair (E 1%nat) -> understood pl pt prog w0 ws l (map Some ts) -> Forall keeps ts ->
  pl_generator l = Some gen -> pl_latex l = false -> sensible gen -> graphs_obtainable gen input -> ~ adds_edges gen -> ~ draws_regular gen ->
  exists x, concerns gen input x /\ (accepts gen x -> exists text n F,
    cnfgen E pl pt header (typed prog w0 ws) input = Gives text /\ dimacs_text text n F /\
    ((forall cl, In cl F -> (1 <= List.length cl <= 3)%nat) -> (exists cl, In cl F /\ forall z, In z cl -> ~ In (- z) cl) ->
     forall e c db name, SpecCli.proper c -> c_dimacs c = Some (name, text) -> reliable e c db -> c_factorize c = false -> c_multiply c = None ->
     exists root out file ver written shown,
       get_cnf_set (InDimacs text) = Ok root /\ command_ends e c db (Ran (Report out [] file ver) written shown) /\
       (out_sat out = true -> question gen x) /\
       (collision_free (e_hash e) (opts_of c) root -> (out_sat out = true <-> question gen x)))).
Proof. exact p_C90_solved. Qed.
Print Assumptions C90_solved.

(* C90: and nothing else is printed: a run that ends with output was given a formula, then transformations, each of which
   argparse understood; the file has the formula of the subcommand after the transformations from left to right, and
   the words of the command line in its comments *)
Theorem C90_printed : forall E pl pt header prog rest input out, prog <> txt "-T" -> cnfgen E pl pt header (prog :: rest) input = Gives out ->
  exists w0 ws l gen ts c h' c', prog :: rest = typed prog w0 ws /\ understood pl pt prog w0 ws l (map Some ts) /\
    pl_generator l = Some gen /\ pl_latex l = false /\ build_cnf E gen input = Gives c /\ in_turn ts (header, c) (h', c') /\
    out = cnfgen_file (pl_verbose l) h' (join (txt " ") rest) c'.
Proof. exact p_C90_printed. Qed.
Print Assumptions C90_printed.

(* php 2 1 is printed with the words of its command line *)
Definition php_line : parsed_line := mkParsedLine (Some (G_php 2 1 false false)) false true.
Example ex_C90_printed : cnfgen (fun _ => some_chance) (fun _ => Gives php_line) parse_flip (txt "Pigeons" ++ [nl]) [txt "cnfgen"; txt "php"; txt "2"; txt "1"; txt "-T"; txt "flip"] [] =
  Gives (ended [txt "c Polarity variables has been flipped"; txt "c"; txt "c Pigeons"; txt "c COMMAND LINE: cnfgen php 2 1 -T flip"; txt "c"; txt "p cnf 2 3"; txt "-1 0"; txt "-2 0"; txt "1 2 0"]).
Proof. vm_compute. reflexivity. Qed.

(* C90: what ends without output: no subcommand; latex; -T without a transformation; a compression by a graph
   with another number of vertices on the right than the formula has variables *)
Theorem C90_refused : forall E pl pt header prog w0 ws l ts input, understood pl pt prog w0 ws l ts ->
  let run := cnfgen E pl pt header (typed prog w0 ws) input in
  (pl_generator l = None -> run = Exits 65) /\
  (pl_latex l = true -> forall out, run <> Gives out) /\
  (In None ts -> forall out, run <> Gives out) /\
  (forall gen c, pl_generator l = Some gen -> check_generator gen = Gives tt -> build_cnf E gen input = Gives c ->
     (forall ts', ts = None :: ts' -> run = Raises AttributeError) /\
     (forall b ts', made c -> bipartite_graph b -> ts = Some (T_xorcomp b) :: ts' \/ ts = Some (T_majcomp b) :: ts' ->
        count (b_right b) <> count (cn_names c) -> run = Exits (-1)) /\
     (ts = [] -> pl_latex l = true -> run = Raises NameError)).
Proof. exact p_C90_refused. Qed.
Print Assumptions C90_refused.

(* C90: simple graphs that cannot be had: a regular graph with an odd sum of degrees, or with no fewer vertices than
   the degree; no format given for standard input; a file that is refused; a clique larger than the graph; more new
   edges than are missing *)
Theorem C90_graphs : forall E pl pt header prog w0 ws l ts gen o input, understood pl pt prog w0 ws l ts -> pl_generator l = Some gen ->
  takes gen o -> check_generator gen = Gives tt ->
  let run := cnfgen E pl pt header (typed prog w0 ws) input in
  (forall n d, so_source o = S_gnd n d -> Z.Odd (n * d) -> run = Exits 65) /\
  (forall n d, so_source o = S_gnd n d -> Z.Even (n * d) -> n <= d -> run = Raises NetworkXError) /\
  (so_source o = S_stdin F_autodetect -> run = Exits (-1)) /\
  (so_source o = S_stdin F_kthlist -> readGraph_kthlist Simple input = Err ValueError -> run = Exits (-1)) /\
  (so_source o = S_stdin F_dimacs -> read_dimacs_graph false input = Err ValueError -> run = Exits (-1)) /\
  (fair (E 0%nat) -> delivers (so_source o) input ->
     (forall n k, so_plantclique o = Some k -> 1 < k -> (forall f, so_source o <> S_stdin f) -> size_of (so_source o) input n -> n < k -> run = Exits 65) /\
     (forall k, so_plantclique o = None -> so_addedges o = Some k -> (forall g, simple_graph g -> from_source (so_source o) input g -> ~ can_add g k) -> run = Exits 65)).
Proof. exact p_C90_graphs. Qed.
Print Assumptions C90_graphs.

(* C90: the same for bipartite and directed graphs: matrices cannot be read; other formats than kthlist are unknown; a
   file that is refused (malformed, or with a circle); a biclique larger than the graph *)
Theorem C90_other_graphs : forall E pl pt header prog w0 ws l ts gen input, understood pl pt prog w0 ws l ts -> pl_generator l = Some gen -> check_generator gen = Gives tt ->
  let run := cnfgen E pl pt header (typed prog w0 ws) input in
  (forall o, takes_bipartite gen o ->
     (bo_source o = B_stdin F_matrix -> run = Exits 65) /\
     (bo_source o = B_stdin F_autodetect \/ bo_source o = B_stdin F_dimacs -> run = Exits (-1)) /\
     (bo_source o = B_stdin F_kthlist -> readGraph_kthlist Bipartite input = Err ValueError -> run = Exits (-1)) /\
     (forall l0 r0 l1 r1, bo_source o = B_bcomplete l0 r0 -> bo_plantbiclique o = Some (l1, r1) -> l0 < l1 \/ r0 < r1 -> run = Exits 65)) /\
  (forall f, takes_dag gen (D_stdin f) -> f <> F_kthlist \/ readGraph_kthlist Dag input = Err ValueError -> run = Exits (-1)).
Proof. exact p_C90_other_graphs. Qed.
Print Assumptions C90_other_graphs.

(* C90: numbers that are not positive end the run while the options are parsed, with the status 2 of argparse; where
   the options check by themselves, with an exception instead of their message *)
Theorem C90_numbers : forall E pl pt header prog w0 ws l ts gen input, understood pl pt prog w0 ws l ts -> pl_generator l = Some gen ->
  let run := cnfgen E pl pt header (typed prog w0 ws) input in
  (forall o, takes gen o ->
     (forall n, so_source o = S_gnp n -> n <= 0 -> run = Raises AttributeError) /\
     (forall n, so_source o = S_complete n \/ so_source o = S_empty n -> n <= 0 -> run = Exits 2) /\
     (forall n m, so_source o = S_gnd n m \/ so_source o = S_gnm n m -> n <= 0 \/ m <= 0 -> run = Exits 2) /\
     (forall dims d, so_source o = S_grid dims \/ so_source o = S_torus dims -> In d dims -> d <= 0 -> run = Exits 2) /\
     (forall f k, so_source o = S_stdin f -> so_plantclique o = Some k \/ so_addedges o = Some k -> k <= 0 -> run = Exits 2)) /\
  (forall o, takes_bipartite gen o ->
     (forall a b m, bo_source o = B_bm a b m -> a <= 0 \/ b <= 0 \/ m <= 0 -> run = Exits 2) /\
     (forall a b m, bo_source o = B_bm a b m -> 0 < a -> 0 < b -> a * b < m -> run = Raises AttributeError) /\
     (forall a b d, bo_source o = B_bd a b d -> 0 < a -> 0 < b < d -> run = Raises AttributeError) /\
     (forall a b d, bo_source o = B_bregular a b d -> 0 < b -> ~ (0 < a /\ 0 < d <= b /\ (a * d) mod b = 0) -> run = Raises AttributeError) /\
     (forall N M pattern, bo_source o = B_bshift (N :: M :: pattern) -> (forall x, In x (N :: M :: pattern) -> 0 < x) ->
        (exists x, In x pattern /\ M < x) \/ ~ NoDup pattern -> run = Raises AttributeError)) /\
  (forall k, takes_dag gen (D_tree k) \/ takes_dag gen (D_pyramid k) -> k <= 0 -> run = Exits 2).
Proof. exact p_C90_numbers. Qed.
Print Assumptions C90_numbers.

(* graphs that are refused, in runs that are understood: a regular graph with an odd sum of degrees, a degree that is not
   positive, a matrix *)
Definition one_word (gen : generator) (w : list text) : outcome parsed_line := Gives (mkParsedLine (Some gen) false false).
Example ex_C90_refused : let run gen := cnfgen (fun _ => some_chance) (one_word gen) parse_flip [] [txt "cnfgen"; txt "..."] (txt "2 2" ++ [nl]) in
  let simple s := mkSimpleOptions s None None in
  understood (one_word (G_ec (simple (S_gnd 3 3)))) parse_flip (txt "cnfgen") [txt "..."] [] (mkParsedLine (Some (G_ec (simple (S_gnd 3 3)))) false false) [] /\
  check_generator (G_ec (simple (S_gnd 3 3))) = Gives tt /\
  run (G_ec (simple (S_gnd 3 3))) = Exits 65 /\ run (G_ec (simple (S_gnd 4 4))) = Raises NetworkXError /\ run (G_ec (simple (S_gnd 4 0))) = Exits 2 /\
  run (G_ec (simple (S_gnp 0))) = Raises AttributeError /\ run (G_ec (simple (S_stdin F_kthlist))) = Exits (-1) /\ run (G_gphp (mkBipartiteOptions (B_stdin F_matrix) None None) false false) = Exits 65 /\
  run (G_kclique 3 (mkSimpleOptions (S_empty 3) (Some 4) None)) = Exits 65 /\ run (G_kclique 3 (mkSimpleOptions (S_complete 3) None (Some 1))) = Exits 65.
Proof.
  cbv zeta. split.
  - constructor; [|constructor|reflexivity|constructor]. intros H. cbn [In] in H. repeat (destruct H as [H|H]; [vm_compute in H; discriminate|]). destruct H.
  - vm_compute. repeat split.
Qed.
