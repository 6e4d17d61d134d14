(* PGenCmd5.v -- the subcommands of the bundled generator. *)
From Coq Require Import String Ascii ZArith List Bool Lia Arith Sorted Permutation.
From Verif Require Import Spec SpecInput SpecFile SpecSat PyBase MSet MText MCnf MFam MFam2 MFile MTrans MTool MGraph MGenCmd SpecCnf SpecFam SpecFam2 SpecTrans SpecTool SpecGraph SpecGenCmd.
From Verif Require Import PLib PCnf1 PCnf2 PFam1 PFam2 PFam4 PP16 PP17 PP18 PP19 PP20 PP21 PP22 PGenCmd1 PGenCmd2 PGenCmd3 PGenCmd4.
Import ListNotations.
Open Scope Z_scope.

(* what a subcommand can come to *)
Definition comes_to (E : nat -> chance) (gen : generator) (input : text) : Prop :=
  (exists x, concerns gen input x /\
     (accepts gen x -> exists c, generate E (Some gen) input = Gives c /\ made c /\ (has_model (cnf_clauses c) <-> question gen x)) /\
     (~ accepts gen x -> generate E (Some gen) input = Exits (refusal gen))) \/
  (adds_edges gen /\ (generate E (Some gen) input = Exits 65 \/ generate E (Some gen) input = Raises RuntimeError)) \/
  (draws_regular gen /\ generate E (Some gen) input = Runs).

Lemma with_graph E gen G (f : graph -> outcome cnf) input : fair (E 0%nat) -> obtainable G input ->
  (so_addedges G <> None -> adds_edges gen) -> build_cnf E gen input = andthen (obtain_simple (E 0%nat) G input) (fun g => f (fst g)) ->
  (forall g, from_options G input g -> generate E (Some gen) input = data_error (f g) -> comes_to E gen input) -> comes_to E gen input.
Proof.
  intros F O A B H. unfold generate in H. destruct (simple_obtained (E 0%nat) G input F O) as [(g & Ob & FO)|(AE & Ob)].
  - apply (H g FO). rewrite B, Ob. reflexivity.
  - right. left. split; auto. unfold generate. rewrite B. destruct Ob as [Ob|Ob]; rewrite Ob; cbn; auto.
Qed.
Lemma with_graphs E gen G H (f : graph -> graph -> outcome cnf) input : fair (E 0%nat) -> fair (E 1%nat) -> obtainable G input -> obtainable H (rest_of_input G input) ->
  (so_addedges G <> None \/ so_addedges H <> None -> adds_edges gen) ->
  build_cnf E gen input = andthen (obtain_simple (E 0%nat) G input) (fun g => andthen (obtain_simple (E 1%nat) H (snd g)) (fun h => f (fst g) (fst h))) ->
  (forall g h, from_options G input g -> from_options H (rest_of_input G input) h -> generate E (Some gen) input = data_error (f g h) -> comes_to E gen input) -> comes_to E gen input.
Proof.
  intros F F' O O' A B K. unfold generate in K. destruct (simple_obtained (E 0%nat) G input F O) as [(g & Ob & FO)|(AE & Ob)].
  - destruct (simple_obtained (E 1%nat) H _ F' O') as [(h & Ob' & FO')|(AE & Ob')].
    + apply (K g h FO FO'). rewrite B, Ob. cbn [andthen fst snd]. rewrite Ob'. reflexivity.
    + right. left. split; auto. unfold generate. rewrite B, Ob. cbn [andthen fst snd]. destruct Ob' as [Ob'|Ob']; rewrite Ob'; cbn; auto.
  - right. left. split; auto. unfold generate. rewrite B. destruct Ob as [Ob|Ob]; rewrite Ob; cbn; auto.
Qed.
Lemma with_bipartite E gen B (f : bipartite -> outcome cnf) input input' : fair (E 0%nat) -> obtainable_bipartite B input' ->
  (bo_addedges B <> None -> adds_edges gen) -> (regular_source (bo_source B) -> draws_regular gen) ->
  build_cnf E gen input = andthen (obtain_bipartite (E 0%nat) B input') (fun b => f (fst b)) ->
  (forall b, from_bipartite_options B input' b -> generate E (Some gen) input = data_error (f b) -> comes_to E gen input) -> comes_to E gen input.
Proof.
  intros F O A R Bd H. unfold generate in H. destruct (bipartite_obtained (E 0%nat) B input' F O) as [(b & Ob & FO)|[(AE & Ob)|(Rg & Ob)]].
  - apply (H b FO). rewrite Bd, Ob. reflexivity.
  - right. left. split; auto. unfold generate. rewrite Bd. destruct Ob as [Ob|Ob]; rewrite Ob; cbn; auto.
  - right. right. split; auto. unfold generate. rewrite Bd, Ob. reflexivity.
Qed.
Lemma right_formula E gen input x (r : result cnf) c : accepts gen x -> generate E (Some gen) input = data_error (plain r) -> r = Ok c -> made c -> concerns gen input x ->
  (has_model (cnf_clauses c) <-> question gen x) -> comes_to E gen input.
Proof.
  intros A G R M C Q. left. exists x. split; auto. split; [|contradiction]. intros _. exists c. rewrite G, R. auto.
Qed.
Lemma right_or_exit E gen input x (r : result cnf) c : accepts gen x -> generate E (Some gen) input = data_error (exit_on_value_error r) -> r = Ok c -> made c -> concerns gen input x ->
  (has_model (cnf_clauses c) <-> question gen x) -> comes_to E gen input.
Proof.
  intros A G R M C Q. left. exists x. split; auto. split; [|contradiction]. intros _. exists c. rewrite G, R. auto.
Qed.
Lemma left_degree_length b u : left_degree b u = Z.of_nat (List.length (left_neighbors b u)).
Proof. unfold left_degree, left_neighbors. rewrite (Permutation_length (sort_by_Perm _ _)), map_length. reflexivity. Qed.
Lemma right_degree_length b v : right_degree b v = Z.of_nat (List.length (right_neighbors b v)).
Proof. unfold right_degree, right_neighbors. rewrite (Permutation_length (sort_by_Perm _ _)), map_length. reflexivity. Qed.

Ltac nothing c R M := match goal with |- comes_to ?E ?g ?i => apply (right_formula E g i About_nothing _ c I eq_refl R M I) end.
Lemma built_plain E gen input : fair (E 0%nat) -> sensible gen ->
  match gen with
  | G_php _ _ _ _ | G_bphp _ _ | G_parity _ | G_count _ _ | G_op _ _ _ _ _ | G_ram _ _ _ | G_ptn _ | G_cliquecoloring _ _ _ | G_randkcnf _ _ _ | G_or _ _ | G_and _ _ | G_empty | G_emptyclause => True
  | _ => False
  end -> comes_to E gen input.
Proof.
  intros F S K. destruct gen; try contradiction; clear K; cbn [sensible] in S.
  - destruct (p_C68_pigeonhole pigeons holes functional onto) as (c & R & M & _ & Q). nothing c R M. apply Q; lia.
  - destruct (p_C68_binary_pigeonhole (ch_bits (E 0%nat) holes) pigeons holes) as (_ & Q). destruct Q as (c & R & M & Q); [lia|].
    nothing c R M. apply Q; [lia|]. apply (fc_bits _ F). lia.
  - destruct (p_C69_counting N 2) as (_ & Q). destruct Q as (c & R & M & _ & Q); [lia|]. nothing c R M. apply Q; lia.
  - destruct (p_C69_counting M p) as (_ & Q). destruct Q as (c & R & Mc & _ & Q); [lia|]. nothing c R Mc. apply Q; lia.
  - destruct (p_C70_ordering_principle N total smart plant (knuth_of knuth)) as (c & R & M & Q & _). nothing c R M. exact Q.
  - destruct (p_C71_ramsey s k N) as (_ & Q). destruct Q as (c & R & M & Q); [lia|lia|]. nothing c R M. exact Q.
  - destruct (p_C71_pythagorean N) as (c & R & M & _ & Q). nothing c R M. exact Q.
  - destruct (p_C71_clique_coloring n k c) as (f & R & M & _ & Q). nothing f R M. apply Q; lia.
  - destruct S as (S1 & S2). pose proof (fc_clauses _ F) as LW. destruct (proj2 (p_C78_how_many (ch_clauses (E 0%nat)) k n m LW S1 ltac:(lia)) ltac:(lia)) as (c & R).
    destruct (p_C78_random_formula (ch_clauses (E 0%nat)) k n m [] LW S1 ltac:(lia)) as [(c' & R' & M & _ & N & L & Kc)|(R' & _)]; [|congruence].
    match goal with |- comes_to ?E ?g ?i => apply (right_formula E g i (About_clauses (cnf_clauses c')) _ c' I eq_refl R' M); [|reflexivity] end. cbn [concerns]. auto.
  - destruct (p_C82_simple_formulas P N) as ((c & R & M & _ & _ & Q) & _). nothing c R M. cbn [question]. split.
    + intros (a & A). apply Q in A as [(i & Hi & _)|(i & Hi & _)]; lia.
    + intros L. destruct (Z_lt_ge_dec 0 P).
      * exists (fun _ => true). apply Q. left. exists 0. split; [lia|auto].
      * exists (fun _ => false). apply Q. right. exists 0. split; [lia|auto].
  - destruct (p_C82_simple_formulas P N) as (_ & (c & R & M & _ & _ & Q)). nothing c R M. cbn [question]. split; auto. intros _.
    exists (fun v => match v with "x"%char :: _ => true | _ => false end). apply Q. split; intros i _; reflexivity.
  - destruct p_C82_empty_formulas as ((c & R & _ & _ & Q) & _). match goal with |- comes_to ?E ?g ?i => apply (right_formula E g i About_nothing _ c I eq_refl R); [|exact I|cbn [question]; tauto] end.
    unfold EmptyFormula, cnf_of in R. cbn [add_all] in R. injection R as <-. constructor.
  - destruct p_C82_empty_formulas as (_ & (c & R & _ & _ & Q)). match goal with |- comes_to ?E ?g ?i => apply (right_formula E g i About_nothing _ c I eq_refl R); [|exact I|cbn [question]; tauto] end.
    unfold EmptyClauseFormula, cnf_of in R. cbn [add_all] in R. apply bind_ok in R as (c1 & R1 & R). injection R as <-. exact (made_clause empty_cnf _ _ _ _ [] c1 made_empty R1).
Qed.
Lemma built_graph E gen input : fair (E 0%nat) -> fair (E 1%nat) -> sensible gen -> graphs_obtainable gen input ->
  match gen with
  | G_matching _ | G_gop _ _ _ _ _ | G_kcolor _ _ | G_ec _ | G_domset _ _ _ | G_gauto _ | G_giso _ _ | G_tseitin _ _ | G_subgraph _ _ | G_kclique _ _ | G_kcliquebin _ _ | G_ramlb _ _ _ => True
  | _ => False
  end -> comes_to E gen input.
Proof.
  intros F F1 S O K. destruct gen; try contradiction; clear K; cbn [sensible graphs_obtainable] in S, O.
  - eapply (with_graph E _ G (fun g => plain (PerfectMatchingPrinciple g)) input F O); [auto|reflexivity|]. intros g FO GE. cbv beta in GE. pose proof (proj1 FO) as SG.
    destruct (p_C69_perfect_matching g SG) as (c & R & M & _ & Q & _). refine (right_formula E _ input (About_graph g) _ c _ GE R M FO Q); exact I.
  - eapply (with_graph E _ G (fun g => plain (GraphOrderingPrinciple g total smart plant (knuth_of knuth))) input F O); [auto|reflexivity|]. intros g FO GE. cbv beta in GE. pose proof (proj1 FO) as SG.
    destruct (p_C70_ordering_models g total smart plant (knuth_of knuth) SG) as (c & R & M & _). destruct (p_C70_ordering_satisfiable g total smart plant (knuth_of knuth) SG) as (c' & R' & Q).
    assert (c' = c) by congruence. subst c'. refine (right_formula E _ input (About_graph g) _ c _ GE R M FO Q); exact I.
  - eapply (with_graph E _ G (fun g => plain (GraphColoringFormula g (range 1 (k + 1)) true)) input F O); [auto|reflexivity|]. intros g FO GE. cbv beta in GE. pose proof (proj1 FO) as SG.
    destruct (p_C72_coloring g (range 1 (k + 1)) true SG) as (_ & Q). destruct Q as (c & R & M & _ & Q); [apply range_NoDup|]. refine (right_formula E _ input (About_graph g) _ c _ GE R M FO _); [exact I|].
    rewrite Q. cbn [question]. split; intros (col & C1 & C2); exists col; (split; [|exact C2]); intros v Hv; specialize (C1 v Hv); rewrite range_In in *; lia.
  - eapply (with_graph E _ G (fun g => plain (EvenColoringFormula g)) input F O); [auto|reflexivity|]. intros g FO GE. cbv beta in GE. pose proof (proj1 FO) as SG. destruct (p_C72_even_coloring g SG) as (Bad & Good).
    left. exists (About_graph g). split; [exact FO|]. cbn [accepts refusal question]. split.
    + intros A. destruct (Good A) as (c & R & M & _ & Q). exists c. rewrite GE, R. auto.
    + intros NA. rewrite GE, Bad; [reflexivity|]. destruct (Exists_dec (fun v => degree g v mod 2 = 1) (g_nodes g)) as [X|X].
      * intros v. apply Z.eq_dec.
      * apply Exists_exists in X. exact X.
      * exfalso. apply NA. intros v I. assert (degree g v mod 2 <> 1) by (intros X1; apply X, Exists_exists; eauto). pose proof (Z.mod_pos_bound (degree g v) 2). lia.
  - eapply (with_graph E _ G (fun g => plain (DominatingSet g d alternative)) input F O); [auto|reflexivity|]. intros g FO GE. cbv beta in GE. pose proof (proj1 FO) as SG.
    destruct (p_C72_dominating_set g d alternative SG S) as (c & R & M & Q & _). refine (right_formula E _ input (About_graph g) _ c _ GE R M FO Q); exact I.
  - eapply (with_graph E _ G (fun g => plain (GraphAutomorphism g)) input F O); [auto|reflexivity|]. intros g FO GE. cbv beta in GE. pose proof (proj1 FO) as SG.
    destruct (p_C74_automorphism g SG) as (c & R & M & Q). refine (right_formula E _ input (About_graph g) _ c _ GE R M FO Q); exact I.
  - eapply (with_graphs E _ G1 G2 (fun g h => plain (GraphIsomorphism g h)) input F F1 (proj1 O) (proj2 O)); [auto|reflexivity|]. intros g h FO FO' GE. cbv beta in GE. pose proof (proj1 FO) as SG. pose proof (proj1 FO') as SG'.
    destruct (p_C74_isomorphism g h SG SG') as (c & R & M & A & B). refine (right_formula E _ input (About_graphs g h) _ c _ GE R M (conj FO FO') _); [exact I|]. cbn [question]. split.
    + intros (a & Ha). destruct (A a Ha) as (f & Hf & _). eauto.
    + intros (f & Hf). destruct (B f Hf) as (a & Ha & _). exists a. auto.
  - eapply (with_graph E _ G (fun g => plain (TseitinFormula g (charges_of (E 0%nat) c g))) input F O); [auto|reflexivity|]. intros g FO GE. cbv beta in GE. pose proof (proj1 FO) as SG.
    destruct (charges_obtained (E 0%nat) c g F SG) as (odd & Od & V). destruct (p_C75_tseitin_models g (charges_of (E 0%nat) c g) SG) as (f & R & M & _).
    destruct (p_C75_tseitin_satisfiable g (charges_of (E 0%nat) c g) SG) as (f' & R' & Q). assert (f' = f) by congruence. subst f'.
    refine (right_formula E _ input (About_charges g odd) _ f _ GE R M (conj FO Od) _); [exact I|]. rewrite Q. apply tseitin_components. exact V.
  - eapply (with_graphs E _ G T (fun g h => plain (SubgraphFormula g [h] false)) input F F1 (proj1 O) (proj2 O)); [auto|reflexivity|]. intros g h FO FO' GE. cbv beta in GE. pose proof (proj1 FO) as SG. pose proof (proj1 FO') as SG'.
    destruct (p_C76_induced_subgraph g h SG SG') as (c & R & Q). destruct (p_C76_subgraph_models g [h] false SG) as (c' & R' & M & _); [intros t [<-|[]]; auto|discriminate|].
    assert (c' = c) by congruence. subst c'. refine (right_formula E _ input (About_graphs g h) _ c _ GE R M (conj FO FO') Q); exact I.
  - eapply (with_graph E _ G (fun g => plain (CliqueFormula g k)) input F O); [auto|reflexivity|]. intros g FO GE. cbv beta in GE. pose proof (proj1 FO) as SG.
    destruct (p_C76_clique g k SG S) as ((c & R & M & Q) & _). refine (right_formula E _ input (About_graph g) _ c _ GE R M FO Q); exact I.
  - eapply (with_graph E _ G (fun g => plain (BinaryCliqueFormula (ch_bits (E 0%nat) (order g)) g k)) input F O); [auto|reflexivity|]. intros g FO GE. cbv beta in GE. pose proof (proj1 FO) as SG.
    destruct (p_C76_clique g k SG S) as (_ & Good & Bad). left. exists (About_graph g). split; [exact FO|]. cbn [accepts refusal question]. split.
    + intros NE. destruct (Good (ch_bits (E 0%nat) (order g))) as (c & R & M & Q); [|auto|].
      * apply (fc_bits _ F). destruct (g_nodes g) eqn:V; [congruence|]. unfold order. rewrite V. cbn [List.length]. lia.
      * exists c. rewrite GE, R. auto.
    + intros NN. rewrite GE, Bad; [reflexivity|]. destruct (g_nodes g); auto. exfalso. apply NN. discriminate.
  - eapply (with_graph E _ G (fun g => plain (RamseyWitnessFormula g k s)) input F O); [auto|reflexivity|]. intros g FO GE. cbv beta in GE. pose proof (proj1 FO) as SG.
    destruct (p_C76_ramsey_witness g k s SG (proj1 S) (proj2 S)) as (c & R & M & Q & _). refine (right_formula E _ input (About_graph g) _ c _ GE R M FO Q); exact I.
Qed.
Lemma built_other E gen input : fair (E 0%nat) -> sensible gen -> graphs_obtainable gen input ->
  match gen with G_gphp _ _ _ | G_subsetcard _ _ | G_peb _ | G_stone _ _ | G_stonesparse _ _ => True | _ => False end -> comes_to E gen input.
Proof.
  intros F S O K. destruct gen; try contradiction; clear K; cbn [sensible graphs_obtainable] in S, O.
  - eapply (with_bipartite E _ B (fun b => plain (GraphPigeonholePrinciple b functional onto)) input input F O); [auto|auto|reflexivity|]. intros b FO GE. cbv beta in GE. pose proof (proj1 FO) as SG.
    destruct (p_C68_graph_pigeonhole b functional onto SG) as (c & R & M & _ & Q & _). refine (right_formula E _ input (About_bipartite b) _ c _ GE R M FO Q); exact I.
  - eapply (with_bipartite E _ B (fun b => plain (SubsetCardinalityFormula b equal)) input input F O); [auto|auto|reflexivity|]. intros b FO GE. cbv beta in GE. pose proof (proj1 FO) as SG.
    destruct (p_C73_subset_cardinality b equal SG) as (c & R & M & _ & Q). refine (right_formula E _ input (About_bipartite b) _ c _ GE R M FO _); [exact I|]. rewrite Q. cbn [question].
    split; intros (A & B'); (split; [intros u Hu; specialize (A u Hu)|intros v Hv; specialize (B' v Hv)]); rewrite ?left_degree_length, ?right_degree_length in *; auto.
  - destruct (dag_obtained D input O) as (d & Ob & FO). assert (GE : generate E (Some (G_peb D)) input = data_error (exit_on_value_error (PebblingFormula d))) by (unfold generate; cbn [build_cnf]; rewrite Ob; reflexivity).
    destruct FO as (P & A & FO). destruct (p_C77_pebbling d P) as (_ & Q). destruct (Q A) as (c & R & M & _ & Q'). refine (right_or_exit E _ input (About_dag d) _ c _ GE R M (conj P (conj A FO)) Q'); exact I.
  - destruct (dag_obtained D input O) as (d & Ob & FO). assert (GE : generate E (Some (G_stone D s)) input = data_error (exit_on_value_error (StoneFormula d s))) by (unfold generate; cbn [build_cnf]; rewrite Ob; reflexivity).
    destruct FO as (P & A & FO). destruct (p_C77_stone d s P) as (_ & Q). destruct (Q A S) as (c & R & M & _ & Q'). refine (right_or_exit E _ input (About_dag d) _ c _ GE R M (conj P (conj A FO)) Q'); exact I.
  - destruct O as (O1 & O2). destruct (dag_obtained D input O1) as (d & Ob & FO).
    apply (with_bipartite E (G_stonesparse D B) B (fun b => exit_on_value_error (SparseStoneFormula d b)) input _ F O2); [auto|auto|cbn [build_cnf]; rewrite Ob; reflexivity|].
    intros b FO' GE. pose proof (proj1 FO') as SG. pose proof FO as (P & A & _). destruct (p_C77_sparse_stone d b P SG) as (Bad & Good).
    left. exists (About_dag_and_bipartite d b). split; [split; auto|]. cbn [accepts refusal question]. split.
    + intros L. destruct (Good A L) as (c & R & M & _ & Q). exists c. rewrite GE, R. auto.
    + intros L. rewrite GE, Bad by auto. reflexivity.
Qed.
Lemma built E gen input : fair (E 0%nat) -> fair (E 1%nat) -> sensible gen -> graphs_obtainable gen input -> comes_to E gen input.
Proof.
  intros F F1 S O. destruct gen; first [apply built_plain; [assumption|assumption|exact I]|apply built_graph; [assumption|assumption|assumption|assumption|exact I]|apply built_other; [assumption|assumption|assumption|exact I]].
Qed.
