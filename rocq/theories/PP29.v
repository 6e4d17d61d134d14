(* PP29.v -- C90: the command line of the bundled generator *)
From Coq Require Import String Ascii ZArith List Bool Lia Arith Sorted Permutation.
From Verif Require Import Spec SpecInput SpecRun SpecProc SpecShare SpecCli PyBase MSet MText MQueue MDb MSolver MMain MProc MShare MCli.
From Verif Require Import SpecFile SpecSat MCnf MFam MFam2 MFile MTrans MTool MGraph MGenCmd SpecCnf SpecFam SpecFam2 SpecTrans SpecTool SpecGraph SpecGenCmd.
From Verif Require Import PLib PCnf1 PCnf2 PFam1 PFam2 PFam4 PP16 PP21 PP25 PP26 PGenCmd0 PGenCmd1 PGenCmd2 PGenCmd3 PGenCmd4 PGenCmd5 PGenCmd6 PGenCmd7 PGenCmd8.
Import ListNotations.
Open Scope Z_scope.

(* C90: cnfgen with a subcommand, its options, and transformations that keep satisfiability prints a DIMACS file whose
   clauses are satisfiable exactly when the question of the subcommand has a positive answer for the graphs that the options
   describe; it exits with 65 or -1 for graphs outside the domain of the formula.  Two exceptions: new edges can fail to
   be drawn, and a regular bipartite graph can be sought for ever *)
Lemma p_C90_formula : forall E pl pt header prog w0 ws l gen ts input,
  fair (E 0%nat) -> fair (E 1%nat) -> understood pl pt prog w0 ws l (map Some ts) -> Forall keeps ts ->
  pl_generator l = Some gen -> pl_latex l = false -> sensible gen -> graphs_obtainable gen input ->
  let run := cnfgen E pl pt header (typed prog w0 ws) input in
  (exists x, concerns gen input x /\
     (accepts gen x -> exists out n F, run = Gives out /\ dimacs_text out n F /\ (satisfiable F <-> question gen x)) /\
     (~ accepts gen x -> run = Exits (refusal gen))) \/
  (adds_edges gen /\ (run = Exits 65 \/ run = Raises RuntimeError)) \/
  (draws_regular gen /\ run = Runs).
Proof.
  intros E pl pt h prog w0 ws l gen ts input F F1 U K G NL S O run. assert (C : run_checked l = Gives tt) by (unfold run_checked; rewrite G; eapply check_ok; eauto).
  assert (R : run = cnfgen_parsed E h l (map Some ts) (w0 ++ concat (map (cons (txt "-T")) ws)) input) by (unfold run; rewrite (ran E pl pt h prog w0 ws l _ input U), C; reflexivity).
  unfold cnfgen_parsed in R. rewrite G in R. destruct (built E gen input F F1 S O) as [(x & Cx & A & N)|[(AE & [B|B])|(RG & B)]].
  - left. exists x. split; auto. split.
    + intros Ac. destruct (A Ac) as (c & Ge & M & Q). destruct (kept_all ts h c K M) as (c' & T & M' & Q'). rewrite Ge in R. cbn [andthen] in R. rewrite T in R. cbn [andthen] in R. rewrite NL in R.
      destruct (printed (pl_verbose l) (fst (final_header ts h, c')) (join (txt " ") (w0 ++ concat (map (cons (txt "-T")) ws))) c' M') as (D & Sa).
      exists (cnfgen_file (pl_verbose l) (fst (final_header ts h, c')) (join (txt " ") (w0 ++ concat (map (cons (txt "-T")) ws))) c'), (count (cn_names c')), (cn_clauses c').
      split; [exact R|]. split; [exact D|]. rewrite Sa, Q'. exact Q.
    + intros NA. rewrite (N NA) in R. exact R.
  - right. left. split; auto. left. rewrite R, B. reflexivity.
  - right. left. split; auto. right. rewrite R, B. reflexivity.
  - right. right. split; auto. rewrite R, B. reflexivity.
Qed.

(*EX
(* cnfgen kcolor 2 --complete 3 -T flip: the triangle has no colouring with two colours *)
Definition triangle_words : list text := [txt "kcolor"; txt "2"; txt "--complete"; txt "3"].
Definition triangle_line : parsed_line := mkParsedLine (Some (G_kcolor 2 (mkSimpleOptions (S_complete 3) None None))) false false.
Definition parse_example (w : list text) : outcome parsed_line := if list_eq_dec (list_eq_dec ascii_dec) w triangle_words then Gives triangle_line else Exits 2.
Definition parse_flip (w : list text) : outcome (option transformation) := if list_eq_dec (list_eq_dec ascii_dec) w [txt "flip"] then Gives (Some T_flip) else Exits 2.
Example ex_C90_fair : fair some_chance.
Proof. exact some_chance_fair. Qed.
Example ex_C90_understood : understood parse_example parse_flip (txt "cnfgen") triangle_words [[txt "flip"]] triangle_line (map Some [T_flip]).
Proof.
  constructor; [|constructor; [|constructor]| |repeat constructor]; try reflexivity.
  - intros H. cbn [In triangle_words] in H. repeat (destruct H as [H|H]; [vm_compute in H; discriminate|]). destruct H.
  - intros H. cbn [In] in H. repeat (destruct H as [H|H]; [vm_compute in H; discriminate|]). destruct H.
Qed.
Example ex_C90_inputs : Forall keeps [T_flip] /\ sensible (G_kcolor 2 (mkSimpleOptions (S_complete 3) None None)) /\
  graphs_obtainable (G_kcolor 2 (mkSimpleOptions (S_complete 3) None None)) [].
Proof.
  split; [repeat constructor; intros (b & [X|X]); discriminate|]. split; [exact I|]. split; [reflexivity|]. split; [intros k X; discriminate|]. split; intros k X; discriminate.
Qed.
Example ex_C90_unsatisfiable : exists out n F, cnfgen (fun _ => some_chance) parse_example parse_flip (txt "A header" ++ [nl]) (typed (txt "cnfgen") triangle_words [[txt "flip"]]) [] = Gives out /\
  dimacs_text out n F /\ ~ satisfiable F.
Proof.
  destruct ex_C90_inputs as (K & S & O).
  destruct (p_C90_formula (fun _ => some_chance) _ _ (txt "A header" ++ [nl]) _ _ _ _ _ _ [] ex_C90_fair ex_C90_fair ex_C90_understood K eq_refl eq_refl S O) as [(x & C & A & _)|[(X & _)|(X & _)]].
  - destruct x; try contradiction C. destruct (A I) as (out & n & F & R & D & Q). exists out, n, F. split; [exact R|]. split; [exact D|]. intros Sa. apply Q in Sa as (colour & B & J). cbn [concerns] in C.
    destruct C as (_ & g1 & g2 & (V & Ad) & C1 & C2). cbn [so_plantclique so_addedges clique_planted edges_added] in C1, C2. subst g1 g2.
    assert (V' : forall v, 0 <= v <= 2 -> 1 <= colour v <= 2) by (intros v L; apply B, V; lia).
    pose proof (V' 0 ltac:(lia)). pose proof (V' 1 ltac:(lia)). pose proof (V' 2 ltac:(lia)).
    assert (D' : forall u v, 0 <= u < v -> v <= 2 -> colour u <> colour v) by (intros u v L M; apply J, Ad; lia).
    pose proof (D' 0 1 ltac:(lia) ltac:(lia)). pose proof (D' 0 2 ltac:(lia) ltac:(lia)). pose proof (D' 1 2 ltac:(lia) ltac:(lia)). lia.
  - exfalso. apply X. reflexivity.
  - contradiction X.
Qed.
EX*)

(*EX
(* the grid with two rows and three columns, and the torus of the same size *)
Example ex_C90_grid : let grid := grid_graph false [2; 3] in is_grid false [2; 3] grid /\ g_edges grid = [(0, 1); (0, 3); (1, 2); (1, 4); (2, 5); (3, 4); (4, 5)] /\
  is_grid true [2; 3] (grid_graph true [2; 3]) /\ count (g_edges (grid_graph true [2; 3])) = 9 /\ In (0, 0) (g_edges (grid_graph true [1; 3])).
Proof.
  cbv zeta. split; [apply grid_ok; intros d I; cbn in I; lia|]. split; [vm_compute; reflexivity|]. split; [apply grid_ok; intros d I; cbn in I; lia|]. split; [vm_compute; reflexivity|]. vm_compute. auto.
Qed.
EX*)

(* C90: the printed file given to NDP: when its clauses have one to three literals and one of them is no tautology, NDP
   reports satisfiable only for a positive answer, and without collisions of the hash exactly then *)
Lemma p_C90_solved : forall E pl pt header prog w0 ws l gen ts input,
  fair (E 0%nat) -> fair (E 1%nat) -> understood pl pt prog w0 ws l (map Some ts) -> Forall keeps ts ->
  pl_generator l = Some gen -> pl_latex l = false -> sensible gen -> graphs_obtainable gen input -> ~ adds_edges gen -> ~ draws_regular gen ->
  exists x, concerns gen input x /\ (accepts gen x -> exists text n F,
    cnfgen E pl pt header (typed prog w0 ws) input = Gives text /\ dimacs_text text n F /\
    ((forall cl, In cl F -> (1 <= List.length cl <= 3)%nat) -> (exists cl, In cl F /\ forall z, In z cl -> ~ In (- z) cl) ->
     forall e c db name, SpecCli.proper c -> c_dimacs c = Some (name, text) -> reliable e c db -> c_factorize c = false -> c_multiply c = None ->
     exists root out file ver written shown,
       get_cnf_set (InDimacs text) = Ok root /\ command_ends e c db (Ran (Report out [] file ver) written shown) /\
       (out_sat out = true -> question gen x) /\
       (collision_free (e_hash e) (opts_of c) root -> (out_sat out = true <-> question gen x)))).
Proof.
  intros E pl pt h prog w0 ws l gen ts input F F1 U K G NL S O NA NR. assert (C : run_checked l = Gives tt) by (unfold run_checked; rewrite G; eapply check_ok; eauto).
  destruct (built E gen input F F1 S O) as [(x & Cx & A & _)|[(AE & _)|(RG & _)]]; try contradiction. exists x. split; auto. intros Ac.
  destruct (A Ac) as (c & Ge & M & Q). destruct (kept_all ts h c K M) as (c' & T & M' & Q').
  set (words := w0 ++ concat (map (cons (txt "-T")) ws)). set (h' := final_header ts h) in *.
  destruct (printed (pl_verbose l) h' (join (txt " ") words) c' M') as (D & Sa).
  exists (cnfgen_file (pl_verbose l) h' (join (txt " ") words) c'), (count (cn_names c')), (cn_clauses c'). split; [|split; [exact D|]].
  - rewrite (ran E pl pt h prog w0 ws l _ input U), C. cbn [andthen]. unfold cnfgen_parsed. rewrite G, Ge. cbn [andthen]. rewrite T. cbn [andthen fst snd]. rewrite NL. reflexivity.
  - intros W (cl & I & T') e cl' db name P1 P2 P3 P4 P5. destruct (made_well c' M') as (ND & WL).
    destruct (p_C67_solved (pl_verbose l) h' (join (txt " ") words) c' e cl' db name M') as (root & out & file & ver & written & shown & R1 & R2 & _ & R3 & R4); auto.
    + intros k Hk. unfold cnf_clauses in Hk. apply in_map_iff in Hk as (z & <- & Hz). unfold uncompress_clause. rewrite map_length. auto.
    + exists (uncompress_clause (cn_names c') cl). split; [unfold cnf_clauses; apply in_map; auto|]. intros (v & I1 & I2). unfold uncompress_clause in I1, I2.
      apply in_map_iff in I1 as (z1 & E1 & I1). apply in_map_iff in I2 as (z2 & E2 & I2). pose proof (WL _ _ I I1) as B1. pose proof (WL _ _ I I2) as B2. injection E1 as S1 V1. injection E2 as S2 V2.
      assert (z2 = - z1); [|subst z2; apply (T' z1 I1 I2)].
      assert (X : (Z.to_nat (Z.abs z1 - 1)) = (Z.to_nat (Z.abs z2 - 1))).
      { apply (proj1 (NoDup_nth (cn_names c') []) ND); [unfold text in *; lia|unfold text in *; lia|]. congruence. }
      apply Z.ltb_lt in S1. apply Z.ltb_ge in S2. lia.
    + exists root, out, file, ver, written, shown. split; auto. split; auto. split; [intros X; apply Q, Q', R3, X|]. intros CF. rewrite (R4 CF), Q'. exact Q.
Qed.

(* C90: and nothing else is printed: a run that ends with output was given a formula, then transformations, each of which
   argparse understood; the file has the formula of the subcommand after the transformations from left to right, and
   the words of the command line in its comments *)
Lemma p_C90_printed : forall E pl pt header prog rest input out, prog <> txt "-T" -> cnfgen E pl pt header (prog :: rest) input = Gives out ->
  exists w0 ws l gen ts c h' c', prog :: rest = typed prog w0 ws /\ understood pl pt prog w0 ws l (map Some ts) /\
    pl_generator l = Some gen /\ pl_latex l = false /\ build_cnf E gen input = Gives c /\ in_turn ts (header, c) (h', c') /\
    out = cnfgen_file (pl_verbose l) h' (join (txt " ") rest) c'.
Proof.
  intros E pl pt h prog rest input out NP R. destruct (split_back (txt "-T") (prog :: rest) [] ltac:(intros [])) as (w & ws & S & J & N & F). cbn [app] in J.
  destruct w as [|p w0].
  { exfalso. cbn [app] in J. destruct ws; cbn [map concat app] in J; [discriminate|]. injection J as J _. auto. }
  assert (p = prog) by (cbn [app] in J; injection J as J _; auto). subst p. unfold cnfgen in R. rewrite S in R. cbn [hd tl] in R.
  destruct (pl w0) as [l|s|x|] eqn:PL; cbn [andthen] in R; try discriminate.
  destruct (match pl_generator l with Some g => check_generator g | None => Gives tt end) as [u|s|x|]; cbn [andthen] in R; try discriminate.
  destruct (each pt ws) as [ots|s|x|] eqn:EA; cbn [andthen] in R; try discriminate. unfold cnfgen_parsed in R. destruct (generate E (pl_generator l) input) as [c|s|x|] eqn:G; cbn [andthen] in R; try discriminate.
  destruct (apply_transformations ots (h, c)) as [[h' c']|s|x|] eqn:A; cbn [andthen] in R; try discriminate. destruct (pl_latex l) eqn:L; try discriminate. injection R as <-. cbn [fst snd].
  unfold generate in G. destruct (pl_generator l) as [gen|] eqn:PG; [|discriminate].
  assert (B : build_cnf E gen input = Gives c) by (destruct (build_cnf E gen input) as [a|s|[]|]; cbn in G; congruence).
  assert (SO : exists ts, ots = map Some ts).
  { clear - A. revert A. generalize (h, c). induction ots as [|[t|] ots IH]; intros hc A; [exists []; reflexivity| |discriminate]. cbn [apply_transformations] in A.
    destruct (apply_transformation (Some t) hc) as [hc1|s|x|]; cbn [andthen] in A; try discriminate. destruct (IH _ A) as (ts & ->). exists (t :: ts). reflexivity. }
  destruct SO as (ts & ->). exists w0, ws, l, gen, ts, c, h', c'. split; [exact J|]. split.
  { constructor; auto. clear - EA. revert EA. generalize (map Some ts). induction ws as [|w ws IH]; intros os EA; cbn [each] in EA; [injection EA as <-; constructor|].
    destruct (pt w) as [o|s|x|] eqn:P; cbn [andthen] in EA; try discriminate. destruct (each pt ws) as [os'|s|x|]; cbn [andthen] in EA; try discriminate. injection EA as <-. constructor; auto. }
  split; auto. split; auto. split; auto. split; [apply in_turn_applied; auto|reflexivity].
Qed.

(*EX
(* php 2 1 is printed with the words of its command line *)
Definition php_line : parsed_line := mkParsedLine (Some (G_php 2 1 false false)) false true.
Example ex_C90_printed : cnfgen (fun _ => some_chance) (fun _ => Gives php_line) parse_flip (txt "Pigeons" ++ [nl]) [txt "cnfgen"; txt "php"; txt "2"; txt "1"; txt "-T"; txt "flip"] [] =
  Gives (ended [txt "c Polarity variables has been flipped"; txt "c"; txt "c Pigeons"; txt "c COMMAND LINE: cnfgen php 2 1 -T flip"; txt "c"; txt "p cnf 2 3"; txt "-1 0"; txt "-2 0"; txt "1 2 0"]).
Proof. vm_compute. reflexivity. Qed.
EX*)

(* C90: what ends without output: no subcommand; latex; -T without a transformation; a compression by a graph
   with another number of vertices on the right than the formula has variables *)
Lemma p_C90_refused : forall E pl pt header prog w0 ws l ts input, understood pl pt prog w0 ws l ts ->
  let run := cnfgen E pl pt header (typed prog w0 ws) input in
  (pl_generator l = None -> run = Exits 65) /\
  (pl_latex l = true -> forall out, run <> Gives out) /\
  (In None ts -> forall out, run <> Gives out) /\
  (forall gen c, pl_generator l = Some gen -> check_generator gen = Gives tt -> build_cnf E gen input = Gives c ->
     (forall ts', ts = None :: ts' -> run = Raises AttributeError) /\
     (forall b ts', made c -> bipartite_graph b -> ts = Some (T_xorcomp b) :: ts' \/ ts = Some (T_majcomp b) :: ts' ->
        count (b_right b) <> count (cn_names c) -> run = Exits (-1)) /\
     (ts = [] -> pl_latex l = true -> run = Raises NameError)).
Proof.
  intros E pl pt h prog w0 ws l ts input U run. unfold run. rewrite (ran E pl pt h prog w0 ws l ts input U). split; [|split; [|split]].
  - intros G. unfold run_checked, cnfgen_parsed. rewrite G. reflexivity.
  - intros L out. destruct (run_checked l); cbn [andthen]; try discriminate. unfold cnfgen_parsed. rewrite L. destruct (generate E (pl_generator l) input); cbn [andthen]; try discriminate.
    destruct (apply_transformations ts (h, a0)); cbn [andthen]; discriminate.
  - intros I out. destruct (run_checked l); cbn [andthen]; try discriminate. unfold cnfgen_parsed. destruct (generate E (pl_generator l) input) as [c|s|x|]; cbn [andthen]; try discriminate.
    assert (X : forall hc, apply_transformations ts (h, c) <> Gives hc).
    { clear - I. generalize (h, c). induction ts as [|t ts IH]; intros hc hc'; [contradiction|]. cbn [apply_transformations]. destruct I as [->|I]; [discriminate|].
      destruct (apply_transformation t hc); cbn [andthen]; try discriminate. apply IH; auto. }
    destruct (apply_transformations ts (h, c)) as [hc|s|x|]; cbn [andthen]; try discriminate. exfalso. apply (X hc). reflexivity.
  - intros gen c G C B. unfold run_checked, cnfgen_parsed, generate. rewrite G, C. cbn [andthen]. rewrite B. cbn [data_error andthen]. split; [|split].
    + intros ts' ->. reflexivity.
    + intros b ts' M Bp T N. assert (N' : List.length (b_right b) <> List.length (cn_names c)) by (unfold count, text in *; lia).
      destruct T as [-> | ->]; cbn [apply_transformations apply_transformation fst snd]; destruct (p_C79_compression c b (txt "xor") M Bp) as (_ & X1 & _); destruct (p_C79_compression c b (txt "maj") M Bp) as (_ & X2 & _).
      * rewrite (X1 N'). reflexivity.
      * rewrite (X2 N'). reflexivity.
    + intros -> L. cbn [apply_transformations andthen]. rewrite L. reflexivity.
Qed.

(* C90: simple graphs that cannot be had: a regular graph with an odd sum of degrees, or with no fewer vertices than
   the degree; no format given for standard input; a file that is refused; a clique larger than the graph; more new
   edges than are missing *)
Lemma p_C90_graphs : forall E pl pt header prog w0 ws l ts gen o input, understood pl pt prog w0 ws l ts -> pl_generator l = Some gen ->
  takes gen o -> check_generator gen = Gives tt ->
  let run := cnfgen E pl pt header (typed prog w0 ws) input in
  (forall n d, so_source o = S_gnd n d -> Z.Odd (n * d) -> run = Exits 65) /\
  (forall n d, so_source o = S_gnd n d -> Z.Even (n * d) -> n <= d -> run = Raises NetworkXError) /\
  (so_source o = S_stdin F_autodetect -> run = Exits (-1)) /\
  (so_source o = S_stdin F_kthlist -> readGraph_kthlist Simple input = Err ValueError -> run = Exits (-1)) /\
  (so_source o = S_stdin F_dimacs -> read_dimacs_graph false input = Err ValueError -> run = Exits (-1)) /\
  (fair (E 0%nat) -> delivers (so_source o) input ->
     (forall n k, so_plantclique o = Some k -> 1 < k -> (forall f, so_source o <> S_stdin f) -> size_of (so_source o) input n -> n < k -> run = Exits 65) /\
     (forall k, so_plantclique o = None -> so_addedges o = Some k -> (forall g, simple_graph g -> from_source (so_source o) input g -> ~ can_add g k) -> run = Exits 65)).
Proof.
  intros E pl pt h prog w0 ws l ts gen o input U G T C run.
  assert (RS : forall e, obtain_simple (E 0%nat) o input = e -> (forall g, e <> Gives g) ->
    run = match e with Exits s => Exits s | Raises ValueError | Raises AttributeError => Exits 65 | Raises e => Raises e | _ => Runs end)
    by (intros e; apply (refused_simple E pl pt h prog w0 ws l ts gen o input e U G T C)).
  assert (P : forall n d, so_source o = S_gnd n d -> 0 < n /\ 0 < d).
  { intros n d S. assert (X : check_simple o = Gives tt). { destruct (check_simple o) as [[]|s|x|] eqn:X; auto; exfalso; rewrite (taken_checked gen o T) in C by congruence; congruence. }
    unfold check_simple in X. rewrite S in X. unfold positive in X at 1. cbn [forallb] in X. destruct (0 <? n) eqn:A; destruct (0 <? d) eqn:B; cbn in X; try discriminate. lia. }
  split; [|split; [|split; [|split; [|split]]]].
  - intros n d S O. rewrite (RS (Raises ValueError)); [reflexivity| |discriminate]. unfold obtain_simple. rewrite S. cbn [source_simple].
    replace ((n * d) mod 2 =? 1) with true; [reflexivity|]. symmetry. apply Z.eqb_eq. destruct O as (q & ->). rewrite Z.add_comm, (Z.mul_comm 2 q), Z.mod_add by lia. reflexivity.
  - intros n d S O L. destruct (P n d S) as (Pn & Pd). rewrite (RS (Raises NetworkXError)); [reflexivity| |discriminate]. unfold obtain_simple. rewrite S. cbn [source_simple].
    replace ((n * d) mod 2 =? 1) with false. 2:{ symmetry. apply Z.eqb_neq. destruct O as (q & ->). rewrite Z.mul_comm, Z.mod_mul; lia. }
    replace (d <? n) with false by (symmetry; lia). rewrite andb_false_r. reflexivity.
  - intros S. rewrite (RS (Exits (-1))); [reflexivity| |discriminate]. unfold obtain_simple. rewrite S. reflexivity.
  - intros S R. rewrite (RS (Exits (-1))); [reflexivity| |discriminate]. unfold obtain_simple. rewrite S. cbn [source_simple read_simple]. rewrite R. reflexivity.
  - intros S R. rewrite (RS (Exits (-1))); [reflexivity| |discriminate]. unfold obtain_simple. rewrite S. cbn [source_simple read_simple]. rewrite R. reflexivity.
  - intros F D. destruct (source_obtained (E 0%nat) _ input F D) as (g & O & S & FS). split.
    + intros n k K K1 NS Sz L. rewrite (RS (Raises ValueError)); [reflexivity| |discriminate]. unfold obtain_simple. rewrite O. cbn [andthen fst snd]. rewrite K.
      destruct (p_C87_clique (ch_vertices (E 0%nat)) g k S) as (_ & B & _). rewrite B; auto.
      assert (V : count (g_nodes g) = n).
      { destruct (so_source o) eqn:SO; cbn [size_of from_source delivers] in *; try subst n; try (apply nodes_count; [exact S|tauto|lia]); [apply FS|apply FS|]. exfalso. apply (NS f). reflexivity. }
      unfold count in V. lia.
    + intros k K A N. rewrite (RS (Raises ValueError)); [reflexivity| |discriminate]. unfold obtain_simple. rewrite O. cbn [andthen fst snd]. rewrite K. cbn [andthen]. rewrite A.
      assert (Pk : 0 < k).
      { assert (X : check_simple o = Gives tt). { destruct (check_simple o) as [[]|s|x|] eqn:X; auto; exfalso; rewrite (taken_checked gen o T) in C by congruence; congruence. }
        unfold check_simple in X. rewrite K, A in X. cbn [positive_option] in X. destruct (Z_lt_le_dec 0 k) as [|Y]; auto. exfalso.
        assert (Z : positive [k] = Exits 2) by (apply not_positive; exists k; cbn; auto). rewrite Z in X.
        match type of X with andthen ?a _ = _ => destruct a end; cbn in X; discriminate. }
      destruct (edges_obtained (E 0%nat) (Some k) g F S) as [(g' & _ & _ & A1 & es & M & Ce & _)|(n & K' & [(_ & R)|(R & _)])].
      * intros k' X. congruence.
      * exfalso. apply (N g S FS). exists es. split; auto. unfold count in Ce. lia.
      * injection K' as <-. rewrite R. reflexivity.
      * injection K' as <-. exfalso. apply (N g S FS). exact R.
Qed.

(* C90: the same for bipartite and directed graphs: matrices cannot be read; other formats than kthlist are unknown; a
   file that is refused (malformed, or with a circle); a biclique larger than the graph *)
Lemma p_C90_other_graphs : forall E pl pt header prog w0 ws l ts gen input, understood pl pt prog w0 ws l ts -> pl_generator l = Some gen -> check_generator gen = Gives tt ->
  let run := cnfgen E pl pt header (typed prog w0 ws) input in
  (forall o, takes_bipartite gen o ->
     (bo_source o = B_stdin F_matrix -> run = Exits 65) /\
     (bo_source o = B_stdin F_autodetect \/ bo_source o = B_stdin F_dimacs -> run = Exits (-1)) /\
     (bo_source o = B_stdin F_kthlist -> readGraph_kthlist Bipartite input = Err ValueError -> run = Exits (-1)) /\
     (forall l0 r0 l1 r1, bo_source o = B_bcomplete l0 r0 -> bo_plantbiclique o = Some (l1, r1) -> l0 < l1 \/ r0 < r1 -> run = Exits 65)) /\
  (forall f, takes_dag gen (D_stdin f) -> f <> F_kthlist \/ readGraph_kthlist Dag input = Err ValueError -> run = Exits (-1)).
Proof.
  intros E pl pt h prog w0 ws l ts gen input U G C run. split.
  - intros o T.
    assert (RS : forall e, obtain_bipartite (E 0%nat) o input = e -> (forall g, e <> Gives g) ->
      run = match e with Exits s => Exits s | Raises ValueError | Raises AttributeError => Exits 65 | Raises e => Raises e | _ => Runs end)
      by (intros e; apply (refused_bipartite E pl pt h prog w0 ws l ts gen o input e U G T C)).
    split; [|split; [|split]].
    + intros S. rewrite (RS (Raises AttributeError)); [reflexivity| |discriminate]. unfold obtain_bipartite. rewrite S. cbn [source_bipartite read_bipartite].
      destruct (p_C85_matrix (mkBipartite [] [] [])) as (_ & M). rewrite M. reflexivity.
    + intros S. rewrite (RS (Exits (-1))); [reflexivity| |discriminate]. unfold obtain_bipartite. destruct S as [-> | ->]; reflexivity.
    + intros S R. rewrite (RS (Exits (-1))); [reflexivity| |discriminate]. unfold obtain_bipartite. rewrite S. cbn [source_bipartite read_bipartite]. rewrite R. reflexivity.
    + intros l0 r0 l1 r1 S P L.
      assert (Q : 0 < l0 /\ 0 < r0 /\ 0 < l1 /\ 0 < r1).
      { assert (X : check_bipartite o = Gives tt) by (destruct gen; cbn [takes_bipartite] in T; try contradiction; subst; exact C).
        unfold check_bipartite in X. rewrite S, P in X. unfold positive in X. cbn [forallb] in X.
        destruct (0 <? l0) eqn:A1; destruct (0 <? r0) eqn:A2; cbn in X; try discriminate. destruct (0 <? l1) eqn:A3; destruct (0 <? r1) eqn:A4; cbn in X; try discriminate. lia. }
      rewrite (RS (Raises ValueError)); [reflexivity| |discriminate]. unfold obtain_bipartite. rewrite S. cbn [source_bipartite andthen fst snd]. rewrite P.
      destruct (complete_between l0 r0) as (B & _). destruct (p_C87_biclique (ch_vertices (E 0%nat)) (complete_bipartite l0 r0) l1 r1 B) as (X & _). rewrite X; [reflexivity|].
      unfold complete_bipartite. cbn [b_left b_right]. rewrite !range_length. lia.
  - intros f T H. unfold run. rewrite (refused_dag E pl pt h prog w0 ws l ts gen _ input (Exits (-1)) U G T C); [reflexivity| |discriminate].
    cbn [obtain_dag]. destruct f; cbn [read_dag]; try reflexivity. destruct H as [H|H]; [congruence|]. rewrite H. reflexivity.
Qed.

(* C90: numbers that are not positive end the run while the options are parsed, with the status 2 of argparse; where
   the options check by themselves, with an exception instead of their message *)
Lemma p_C90_numbers : forall E pl pt header prog w0 ws l ts gen input, understood pl pt prog w0 ws l ts -> pl_generator l = Some gen ->
  let run := cnfgen E pl pt header (typed prog w0 ws) input in
  (forall o, takes gen o ->
     (forall n, so_source o = S_gnp n -> n <= 0 -> run = Raises AttributeError) /\
     (forall n, so_source o = S_complete n \/ so_source o = S_empty n -> n <= 0 -> run = Exits 2) /\
     (forall n m, so_source o = S_gnd n m \/ so_source o = S_gnm n m -> n <= 0 \/ m <= 0 -> run = Exits 2) /\
     (forall dims d, so_source o = S_grid dims \/ so_source o = S_torus dims -> In d dims -> d <= 0 -> run = Exits 2) /\
     (forall f k, so_source o = S_stdin f -> so_plantclique o = Some k \/ so_addedges o = Some k -> k <= 0 -> run = Exits 2)) /\
  (forall o, takes_bipartite gen o ->
     (forall a b m, bo_source o = B_bm a b m -> a <= 0 \/ b <= 0 \/ m <= 0 -> run = Exits 2) /\
     (forall a b m, bo_source o = B_bm a b m -> 0 < a -> 0 < b -> a * b < m -> run = Raises AttributeError) /\
     (forall a b d, bo_source o = B_bd a b d -> 0 < a -> 0 < b < d -> run = Raises AttributeError) /\
     (forall a b d, bo_source o = B_bregular a b d -> 0 < b -> ~ (0 < a /\ 0 < d <= b /\ (a * d) mod b = 0) -> run = Raises AttributeError) /\
     (forall N M pattern, bo_source o = B_bshift (N :: M :: pattern) -> (forall x, In x (N :: M :: pattern) -> 0 < x) ->
        (exists x, In x pattern /\ M < x) \/ ~ NoDup pattern -> run = Raises AttributeError)) /\
  (forall k, takes_dag gen (D_tree k) \/ takes_dag gen (D_pyramid k) -> k <= 0 -> run = Exits 2).
Proof.
  intros E pl pt h prog w0 ws l ts gen input U G run.
  assert (CO : forall e, check_generator gen = e -> (forall u, e <> Gives u) -> run = match e with Exits s => Exits s | Raises x => Raises x | _ => Runs end)
    by (intros e; apply (checked_out E pl pt h prog w0 ws l ts gen input e U G)).
  split; [|split].
  - intros o T. assert (CS : forall e, check_simple o = e -> (forall u, e <> Gives u) -> run = match e with Exits s => Exits s | Raises x => Raises x | _ => Runs end).
    { intros e X N. apply CO; auto. rewrite (taken_checked gen o T); auto. rewrite X. auto. }
    split; [|split; [|split; [|split]]].
    + intros n S L. rewrite (CS (Raises AttributeError)); [reflexivity| |discriminate]. unfold check_simple. rewrite S. replace (0 <? n) with false by (symmetry; lia). reflexivity.
    + intros n S L. rewrite (CS (Exits 2)); [reflexivity| |discriminate]. unfold check_simple. destruct S as [-> | ->]; rewrite not_positive by (exists n; cbn; auto); reflexivity.
    + intros n m S L. assert (X : positive [n; m] = Exits 2) by (apply not_positive; destruct L; [exists n|exists m]; cbn; auto).
      rewrite (CS (Exits 2)); [reflexivity| |discriminate]. unfold check_simple. destruct S as [-> | ->]; rewrite X; reflexivity.
    + intros dims d S I L. assert (X : positive dims = Exits 2) by (apply not_positive; exists d; auto).
      rewrite (CS (Exits 2)); [reflexivity| |discriminate]. unfold check_simple. destruct S as [-> | ->]; rewrite X; reflexivity.
    + intros f k S K L. assert (X : positive [k] = Exits 2) by (apply not_positive; exists k; cbn; auto).
      rewrite (CS (Exits 2)); [reflexivity| |discriminate]. unfold check_simple. rewrite S. cbn [andthen]. destruct K as [K|K]; rewrite K; cbn [positive_option]; rewrite X; [reflexivity|].
      destruct (so_plantclique o) as [j|]; cbn [positive_option]; [|reflexivity]. unfold positive. destruct (forallb (Z.ltb 0) [j]); reflexivity.
  - intros o T. assert (CS : forall e, check_bipartite o = e -> (forall u, e <> Gives u) -> run = match e with Exits s => Exits s | Raises x => Raises x | _ => Runs end).
    { intros e X N. apply CO; auto. destruct gen; cbn [takes_bipartite] in T; try contradiction; subst; auto. }
    split; [|split; [|split; [|split]]].
    + intros a b m S L. rewrite (CS (Exits 2)); [reflexivity| |discriminate]. unfold check_bipartite. rewrite S.
      rewrite not_positive; [reflexivity|]. destruct L as [L|[L|L]]; [exists a|exists b|exists m]; cbn; auto.
    + intros a b m S La Lb L. rewrite (CS (Raises AttributeError)); [reflexivity| |discriminate]. unfold check_bipartite. rewrite S.
      rewrite positive_ok by (intros z I; cbn in I; nia). cbn [andthen]. replace (m <=? b * a) with false by (symmetry; apply Z.leb_gt; lia). reflexivity.
    + intros a b d S La Lb. rewrite (CS (Raises AttributeError)); [reflexivity| |discriminate]. unfold check_bipartite. rewrite S.
      rewrite positive_ok by (intros z I; cbn in I; lia). cbn [andthen]. replace (d <=? b) with false by (symmetry; lia). reflexivity.
    + intros a b d S Lb N. rewrite (CS (Raises AttributeError)); [reflexivity| |discriminate]. unfold check_bipartite. rewrite S.
      match goal with |- andthen (required ?b) _ = _ => destruct b eqn:X; [|reflexivity] end. exfalso. apply N. rewrite !andb_true_iff in X. destruct X as ((((X1 & X2) & X3) & X4) & X5).
      apply Z.ltb_lt in X1, X3. apply Z.leb_le in X4. apply Z.eqb_eq in X5. rewrite Z.mul_comm. auto.
    + intros N M pattern S Pp B. rewrite (CS (Raises AttributeError)); [reflexivity| |discriminate]. unfold check_bipartite. rewrite S. rewrite (positive_ok _ Pp). cbn [andthen].
      match goal with |- andthen (required ?b) _ = _ => destruct b eqn:X; [|reflexivity] end. exfalso. apply andb_true_iff in X as (X1 & X2). rewrite forallb_forall in X2.
      destruct B as [(x & I & L)|B]; [specialize (X2 x I); apply Z.leb_le in X2; lia|]. apply B. apply negb_true_iff in X1. apply sorted_distinct. exact X1.
  - intros k T L. rewrite (CO (Exits 2)); [reflexivity| |discriminate]. assert (X : positive [k] = Exits 2) by (apply not_positive; exists k; cbn; auto).
    destruct gen; cbn [takes_dag] in T; try (exfalso; destruct T; contradiction); destruct T as [-> | ->]; cbn [check_generator check_dag]; rewrite X; reflexivity.
Qed.
(*EX
(* graphs that are refused, in runs that are understood: a regular graph with an odd sum of degrees, a degree that is not
   positive, a matrix *)
Definition one_word (gen : generator) (w : list text) : outcome parsed_line := Gives (mkParsedLine (Some gen) false false).
Example ex_C90_refused : let run gen := cnfgen (fun _ => some_chance) (one_word gen) parse_flip [] [txt "cnfgen"; txt "..."] (txt "2 2" ++ [nl]) in
  let simple s := mkSimpleOptions s None None in
  understood (one_word (G_ec (simple (S_gnd 3 3)))) parse_flip (txt "cnfgen") [txt "..."] [] (mkParsedLine (Some (G_ec (simple (S_gnd 3 3)))) false false) [] /\
  check_generator (G_ec (simple (S_gnd 3 3))) = Gives tt /\
  run (G_ec (simple (S_gnd 3 3))) = Exits 65 /\ run (G_ec (simple (S_gnd 4 4))) = Raises NetworkXError /\ run (G_ec (simple (S_gnd 4 0))) = Exits 2 /\
  run (G_ec (simple (S_gnp 0))) = Raises AttributeError /\ run (G_ec (simple (S_stdin F_kthlist))) = Exits (-1) /\ run (G_gphp (mkBipartiteOptions (B_stdin F_matrix) None None) false false) = Exits 65 /\
  run (G_kclique 3 (mkSimpleOptions (S_empty 3) (Some 4) None)) = Exits 65 /\ run (G_kclique 3 (mkSimpleOptions (S_complete 3) None (Some 1))) = Exits 65.
Proof.
  cbv zeta. split.
  - constructor; [|constructor|reflexivity|constructor]. intros H. cbn [In] in H. repeat (destruct H as [H|H]; [vm_compute in H; discriminate|]). destruct H.
  - vm_compute. repeat split.
Qed.
EX*)
