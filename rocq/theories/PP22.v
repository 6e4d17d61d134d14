(* PP22.v -- variables of the formula families, simple formulas (C81-C82): statements and proofs. *)
From Coq Require Import String Ascii ZArith List Bool Lia Sorted Permutation.
From Verif Require Import Spec PyBase MSet MText MCnf MFam MFam2 SpecCnf SpecFam SpecFam2 PLib PCnf1 PCnf2 PFam1 PFam2 PFam3 PFam4 PFam5 PFam6 PFam7 PFam8 PFam9 PFam10 PFam11 PFam16 PTrans1 PNames.
Import ListNotations.
Open Scope Z_scope.

(* C81: the variables of the pigeonhole formulas, in the order of their DIMACS numbers: p_{i,j} row by row *)
Lemma p_C81_pigeonhole_names :
  (forall pigeons holes f o c, PigeonholePrinciple pigeons holes f o = Ok c ->
     cn_names c = flat_map (fun i => map (fun j => name2 (txt "p_{") i j) (range 1 (holes + 1))) (range 1 (pigeons + 1))) /\
  (forall bits pigeons holes c, BinaryPigeonholePrinciple bits pigeons holes = Ok c ->
     cn_names c = flat_map (fun i => map (fun b => name2 (txt "Y_{") i b) (range 0 (Z.of_nat bits))) (range 1 (pigeons + 1))) /\
  (forall b f o c, bipartite_graph b -> GraphPigeonholePrinciple b f o = Ok c ->
     exists nb, (forall u, StronglySorted Z.lt (nb u) /\ forall v, In v (nb u) <-> In (u, v) (b_edges b)) /\
       cn_names c = flat_map (fun u => map (fun v => name2 (txt "p_{") u v) (nb u)) (b_left b)).
Proof.
  split; [|split].
  - intros p h f o c E. apply (names_build_unsafe _ _ _ E). apply NoDup_name2; intros; apply range_NoDup.
  - intros bits p h c E. unfold BinaryPigeonholePrinciple in E. destruct (h <? 1); [discriminate|]. cbv zeta in E.
    assert (X : bm_variables (mkBinary (range 1 (p + 1)) (range 1 (h + 1)) bits binary_name true false) =
      flat_map (fun i => map (fun b => name2 (txt "Y_{") i b) (range 0 (Z.of_nat bits))) (range 1 (p + 1))).
    { unfold bm_variables. cbn [bm_domain bm_bits bm_name]. rewrite !flat_map_concat_map. f_equal. apply map_ext. intros i. unfold range. rewrite map_map.
      replace (Z.to_nat (Z.of_nat bits - 0)) with bits by lia. apply map_ext. intros b. reflexivity. }
    rewrite X in E. apply (names_build_unsafe _ _ _ E). apply NoDup_name2; intros; apply range_NoDup.
  - intros b f o c B E. exists (left_neighbors b). split.
    + intros u. split; [|intros v; apply left_In]. unfold left_neighbors. apply sorted_strict. apply (Permutation_NoDup (l := left_neighbors b u)); [apply sort_by_Perm|apply left_NoDup; auto].
    + apply (names_build_unsafe _ _ _ E). apply (NoDup_name2 (txt "p_{") (b_left b) (left_neighbors b)); [apply bg_left; auto|]. intros; apply left_NoDup; auto.
Qed.
(* C81: of the formulas about numbers: e_{u,v} for u < v row by row, x_{i}, and e, q, r of clique-coloring *)
Lemma p_C81_number_names :
  (forall s k N c, RamseyLowerBoundFormula s k N = Ok c ->
     cn_names c = flat_map (fun u => map (fun v => name2 (txt "e_{") u v) (range (u + 1) (N + 1))) (range 1 (N + 1))) /\
  (forall N c, PythagoreanTriples N = Ok c -> cn_names c = map (fun i => name1 (txt "x_{") i) (range 1 (N + 1))) /\
  (forall n k m c, CliqueColoring n k m = Ok c ->
     cn_names c = flat_map (fun u => map (fun v => name2 (txt "e_{") u v) (range (u + 1) (n + 1))) (range 1 (n + 1)) ++
                  flat_map (fun i => map (fun v => name2 (txt "q_{") i v) (range 1 (n + 1))) (range 1 (k + 1)) ++
                  flat_map (fun v => map (fun l => name2 (txt "r_{") v l) (range 1 (m + 1))) (range 1 (n + 1))).
Proof.
  split; [|split].
  - intros s k N c E. unfold RamseyLowerBoundFormula in E. cbv zeta in E. apply bind_ok in E as (ss & _ & E). apply bind_ok in E as (ks & _ & E).
    rewrite <- (pairs_range (name2 (txt "e_{"))). apply (names_build_strict _ _ _ E). apply FinFun.Injective_map_NoDup; [intros x y H; apply edge_var_inj; auto|]. apply pairs_NoDup, range_NoDup.
  - intros N c E. apply (names_build_strict _ _ _ E). apply (NoDup_name1 (txt "x_{")). apply range_NoDup.
  - intros n k m c E. unfold CliqueColoring in E. cbv zeta in E. rewrite (names_build_strict _ _ _ E).
    + f_equal. rewrite !flat_map_concat_map. f_equal. apply map_ext. intros u. apply map_ext_in. intros v Hv. apply range_In in Hv. unfold cc_E. rewrite Z.min_l, Z.max_r by lia. reflexivity.
    + apply NoDup_app_intro; [|apply NoDup_app_intro|].
      * apply flat_map_NoDup; [apply range_NoDup| |].
        { intros u _. apply NoDup_map_in; [apply range_NoDup|]. intros x y Hx Hy H. apply range_In in Hx, Hy. unfold cc_E in H. apply name2_inj in H. lia. }
        { intros u v b _ _ H K. apply in_map_iff in H as (x & <- & Hx). apply in_map_iff in K as (y & H & Hy). apply range_In in Hx, Hy. unfold cc_E in H. apply name2_inj in H. lia. }
      * apply (NoDup_name2 (txt "q_{") _ (fun _ => range 1 (n + 1))); intros; apply range_NoDup.
      * apply (NoDup_name2 (txt "r_{") _ (fun _ => range 1 (m + 1))); intros; apply range_NoDup.
      * intros x H K. apply in_flat_map in H as (u & _ & H). apply in_map_iff in H as (v & <- & _). apply in_flat_map in K as (u' & _ & K). apply in_map_iff in K as (v' & K & _). discriminate K.
      * intros x H K. apply in_flat_map in H as (u & _ & H). apply in_map_iff in H as (v & <- & _). apply in_app_iff in K.
        destruct K as [K|K]; apply in_flat_map in K as (u' & _ & K); apply in_map_iff in K as (v' & K & _); discriminate K.
Qed.
(* C81: of the formulas about graphs, in the order of the vertices and edges of the graph *)
Lemma p_C81_graph_names : forall g, simple_graph g ->
  (forall t p k c, GraphOrderingPrinciple g t false p k = Ok c ->
     cn_names c = flat_map (fun u => map (fun v => name2 (txt "x_{") u v) (filter (fun v => negb (v =? u)) (g_nodes g))) (g_nodes g)) /\
  (forall t p k c, GraphOrderingPrinciple g t true p k = Ok c ->
     cn_names c = flat_map (fun i => map (fun v => name2 (txt "x_{") (nth i (g_nodes g) 0) v) (skipn (S i) (g_nodes g))) (seq 0 (List.length (g_nodes g)))) /\
  (forall h c, simple_graph h -> GraphIsomorphism g h = Ok c ->
     cn_names c = flat_map (fun u => map (fun v => name2 (txt "x_{") u v) (g_nodes h)) (g_nodes g)) /\
  (forall c, GraphAutomorphism g = Ok c ->
     cn_names c = flat_map (fun u => map (fun v => name2 (txt "x_{") u v) (g_nodes g)) (g_nodes g)) /\
  (forall colors f c, NoDup colors -> GraphColoringFormula g colors f = Ok c ->
     cn_names c = flat_map (fun v => map (fun k => name2 (txt "x_{") v k) colors) (g_nodes g)) /\
  (forall c, EvenColoringFormula g = Ok c ->
     cn_names c = map (fun e => name2 (txt "x_{") (Z.min (fst e) (snd e)) (Z.max (fst e) (snd e))) (g_edges g)) /\
  (forall d alt c, DominatingSet g d alt = Ok c ->
     cn_names c = map (fun v => name1 (txt "x_{") v) (g_nodes g) ++
                  flat_map (fun i => map (fun v => name2 (txt "g_{") v i) (g_nodes g)) (range 1 (d + 1))).
Proof.
  intros g G. pose proof (sg_nodes g G) as N. split; [|split; [|split; [|split; [|split; [|split]]]]].
  - intros t p k c E. unfold GraphOrderingPrinciple, enumerate_vertices in E. cbv zeta in E. rewrite permutations2_loops in E by auto. apply (names_build_strict _ _ _ E).
    apply (NoDup_name2 (txt "x_{") (g_nodes g) (fun u => filter (fun v => negb (v =? u)) (g_nodes g))); auto. intros. apply NoDup_filter; auto.
  - intros t p k c E. unfold GraphOrderingPrinciple, enumerate_vertices in E. cbv zeta in E. transitivity (map (fun vv => ord_name (fst vv) (snd vv)) (pairs (g_nodes g))); [|exact (pairs_loops (name2 (txt "x_{")) 0 (g_nodes g))]. apply (names_build_strict _ _ _ E).
    apply FinFun.Injective_map_NoDup; [|apply pairs_NoDup; auto]. intros [x y] [x' y'] H. apply name2_inj in H as [H1 H2]. cbn in H1, H2. congruence.
  - intros h c H E. apply (names_build_strict _ _ _ E). apply (NoDup_name2 (txt "x_{") (g_nodes g) (fun _ => g_nodes h)); auto. intros; apply sg_nodes; auto.
  - intros c E. unfold GraphAutomorphism in E. apply bind_ok in E as (c1 & E1 & E). rewrite (names_strict _ _ _ E). apply (names_build_strict _ _ _ E1).
    apply (NoDup_name2 (txt "x_{") (g_nodes g) (fun _ => g_nodes g)); auto.
  - intros colors f c NC E. apply (col_names g colors f c G NC E).
  - intros c E. rewrite (even_names g c G E). apply map_ext. intros [u v]. cbn [fst snd]. unfold edge_name. destruct (Z.leb_spec u v); [rewrite Z.min_l, Z.max_r by lia|rewrite Z.min_r, Z.max_l by lia]; reflexivity.
  - intros d alt c E. apply (dom_names g d alt c G E).
Qed.
(* C81: TseitinFormula: one variable E_{u,v} per edge, sorted by the smaller and then the larger end;
   SubsetCardinalityFormula: one variable x_{u,v} per edge, by left vertices *)
Lemma p_C81_edge_names :
  (forall g charges c, simple_graph g -> TseitinFormula g charges = Ok c ->
     exists es, Permutation es (g_edges g) /\
       StronglySorted (fun e f => Z.min (fst e) (snd e) < Z.min (fst f) (snd f) \/
         (Z.min (fst e) (snd e) = Z.min (fst f) (snd f) /\ Z.max (fst e) (snd e) < Z.max (fst f) (snd f))) es /\
       cn_names c = map (fun e => name2 (txt "E_{") (fst e) (snd e)) es) /\
  (forall b equal c, bipartite_graph b -> SubsetCardinalityFormula b equal = Ok c ->
     exists nb, (forall u, StronglySorted Z.lt (nb u) /\ forall v, In v (nb u) <-> In (u, v) (b_edges b)) /\
       cn_names c = flat_map (fun u => map (fun v => name2 (txt "x_{") (Z.min u v) (Z.max u v)) (nb u)) (b_left b)).
Proof.
  split.
  - intros g ch c G E. exists (sort_by (fun a b => edge_ltb (sorted_pair a) (sorted_pair b)) (g_edges g)).
    assert (P : Permutation (sort_by (fun a b => edge_ltb (sorted_pair a) (sorted_pair b)) (g_edges g)) (g_edges g)) by apply sort_by_Perm.
    assert (ND : NoDup (sort_by (fun a b => edge_ltb (sorted_pair a) (sorted_pair b)) (g_edges g))) by (eapply Permutation_NoDup; [symmetry; exact P|apply sg_edges; auto]).
    split; [exact P|]. split.
    + apply tse_sorted; auto.
    + apply (names_build_strict _ _ _ E). apply FinFun.Injective_map_NoDup; auto. intros x y. apply tname_inj.
  - intros b e c B E. exists (left_neighbors b). split.
    + intros u. split; [|intros v; apply left_In]. unfold left_neighbors. apply sorted_strict. apply (Permutation_NoDup (l := left_neighbors b u)); [apply sort_by_Perm|apply left_NoDup; auto].
    + rewrite (names_build_strict _ _ _ E).
      * rewrite !flat_map_concat_map. f_equal. apply map_ext. intros u. apply map_ext. intros v. unfold edge_name. destruct (Z.leb_spec u v); [rewrite Z.min_l, Z.max_r by lia|rewrite Z.min_r, Z.max_l by lia]; reflexivity.
      * apply flat_map_NoDup; [apply bg_left; auto| |].
        { intros u _. apply NoDup_map_in; [apply left_NoDup; auto|]. intros x y Hx Hy H. apply left_In in Hx, Hy. apply edge_name_inj in H as [[_ H]|[H1 H2]]; congruence. }
        { intros u v x _ _ H K. apply in_map_iff in H as (y & <- & Hy). apply in_map_iff in K as (z & H & Hz). apply left_In in Hy, Hz. apply edge_name_inj in H as [[H _]|[H1 H2]]; auto.
          exfalso. apply (bg_ends b B) in Hy as [Hy1 Hy2]. apply (bg_ends b B) in Hz as [Hz1 Hz2]. apply (bg_apart b B v); [auto|rewrite H1; auto]. }
Qed.
(* C81: of the pebbling and stone formulas, in the order of the vertices *)
Lemma p_C81_pebbling_names : forall d, proper_digraph d ->
  (forall c, PebblingFormula d = Ok c -> cn_names c = map str_Z (d_nodes d)) /\
  (forall n c, StoneFormula d n = Ok c ->
     cn_names c = flat_map (fun v => map (fun j => name2 (txt "P_{") v j) (range 1 (n + 1))) (d_nodes d) ++
                  map (fun j => name1 (txt "R_{") j) (range 1 (n + 1))) /\
  (forall b c, bipartite_graph b -> SparseStoneFormula d b = Ok c ->
     exists st, (forall v, NoDup (st v)) /\ (forall v j, In v (d_nodes d) -> (In j (st v) <-> stone_allowed d b v j)) /\
       cn_names c = flat_map (fun v => map (fun j => name2 (txt "X_{") v j) (st v)) (d_nodes d) ++
                    map (fun j => name1 (txt "R_{") j) (range 1 (Z.of_nat (List.length (b_right b)) + 1))).
Proof.
  intros d P. pose proof (pd_nodes d P) as N.
  assert (X : forall p l f q, NoDup (l : list Z) -> (forall v, NoDup (f v)) -> NoDup q -> p <> txt "R_{" -> length p = 3%nat ->
    NoDup (flat_map (fun v => map (fun j => name2 p v j) (f v)) l ++ map (fun j => name1 (txt "R_{") j) q)).
  { intros p l f q A B C D L. apply NoDup_app_intro; [apply NoDup_name2; auto|apply NoDup_name1; auto|].
    intros x H K. apply in_flat_map in H as (v & _ & H). apply in_map_iff in H as (j & <- & _). apply in_map_iff in K as (k & K & _). unfold name1, name2 in K.
    destruct p as [|a [|a' [|a'' [|]]]]; try discriminate L. cbn in K. injection K as K1 K2 K3 _. apply D. rewrite <- K1, <- K2, <- K3. reflexivity. }
  split; [|split].
  - intros c E. unfold PebblingFormula in E. destruct (negb (is_dag d)); [discriminate|]. apply (names_build_unsafe _ _ _ E). apply FinFun.Injective_map_NoDup; auto. intros x y. apply str_Z_inj.
  - intros n c E. unfold StoneFormula in E. destruct (negb (is_dag d)); [discriminate|]. destruct (n <? 0); [discriminate|]. cbv zeta in E. apply (names_build_unsafe _ _ _ E).
    apply (X (txt "P_{") (d_nodes d) (fun _ => range 1 (n + 1))); auto; try (intros; apply range_NoDup). discriminate.
  - intros b c B E. unfold SparseStoneFormula in E. destruct (negb (is_dag d)); [discriminate|]. destruct (Nat.eqb_spec (List.length (b_left b)) (List.length (d_nodes d))) as [L|L]; [|discriminate]. cbn [negb] in E. cbv zeta in E.
    apply bind_ok in E as (c1 & E1 & E). rewrite (names_all _ _ _ _ names_strict E), (names_all _ _ _ _ names_unsafe E1). exists (sparse_images d b).
    split; [intros; apply sparse_NoDup; auto|]. split; [intros v j Hv; apply sparse_In; auto|]. apply names_vars.
    apply (X (txt "X_{") (d_nodes d) (sparse_images d b)); auto; [intros; apply sparse_NoDup; auto|apply range_NoDup|discriminate].
Qed.
(* C81: of the subgraph formulas: the selectors of the templates, then S_{i,j} row by row *)
Lemma p_C81_subgraph_names : forall g ts s c, ts <> [] -> SubgraphFormula g ts s = Ok c ->
  cn_names c =
    match ts with
    | [_] => []
    | [_; _] => [txt "c"]
    | _ => map (fun i => name1 (txt "c_{") i) (range 0 (Z.of_nat (List.length ts)))
    end ++
    flat_map (fun i => map (fun j => name2 (txt "S_{") i j) (range 0 (Z.of_nat (List.length (g_nodes g)))))
      (range 0 (fold_right Z.max 0 (map (fun t => Z.of_nat (List.length (g_nodes t))) ts))).
Proof.
  intros g ts s c NE E.
  assert (F : exists c1, (cn_names c1 = selectors (List.length ts)) /\
     exists c2, add_all add_clause_strict (um_clauses (sub_mapping g (max_order ts) s)) (add_variables (um_variables (sub_mapping g (max_order ts) s)) c1) = Ok c2 /\
       add_all add_clause_strict (templates_clauses g s (List.length ts) 0 ts) c2 = Ok c).
  { unfold SubgraphFormula in E. destruct ts as [|t0 ts0]; [congruence|]. set (ts := t0 :: ts0) in *. cbv zeta in E. apply bind_ok in E as (c1 & E1 & E). apply bind_ok in E as (c2 & E2 & E). exists c1.
    assert (ND : NoDup (selectors (List.length ts))).
    { unfold selectors. destruct (List.length ts) as [|[|[|n]]]; try (apply NoDup_name1, range_NoDup); [constructor|constructor; [intros []|constructor]]. }
    split; [|exists c2; auto]. destruct (1 <? Z.of_nat (List.length (selectors (List.length ts)))).
    - rewrite (names_all _ _ _ _ names_strict E1). apply names_vars; auto.
    - injection E1 as <-. apply names_vars; auto. }
  destruct F as (c1 & N1 & c2 & E2 & E3). rewrite (names_all _ _ _ _ names_strict E3), (names_all _ _ _ _ names_strict E2), add_variables_names, N1. rewrite with_new_distinct.
  - f_equal. destruct ts as [|? [|? [|? ?]]]; try reflexivity; congruence.
  - apply (NoDup_name2 (txt "S_{")); intros; apply range_NoDup.
  - intros v H K. unfold um_variables in H. apply in_flat_map in H as (i & _ & H). apply in_map_iff in H as (j & <- & _). unfold selectors in K.
    destruct (List.length ts) as [|[|[|n]]]; first [contradiction K | destruct K as [K|[]]; discriminate K | apply in_map_iff in K as (x & K & _); discriminate K].
Qed.
(* C81: CountingPrinciple and PerfectMatchingPrinciple declare no variables beforehand: they have one for every p-element
   set and every edge, none twice *)
Lemma p_C81_matching_names :
  (forall M p c, 0 < p -> CountingPrinciple M p = Ok c -> NoDup (cn_names c) /\
     forall n, In n (cn_names c) <-> exists S, StronglySorted Z.lt S /\ (forall x, In x S -> 0 <= x < M) /\ Z.of_nat (List.length S) = p /\
       n = txt "Y_{{" ++ join (txt ",") (map str_Z S) ++ txt "}}") /\
  (forall g c, simple_graph g -> PerfectMatchingPrinciple g = Ok c -> NoDup (cn_names c) /\
     forall n, In n (cn_names c) <-> exists u v, adjacent g u v /\ n = name2 (txt "x_{") (Z.min u v) (Z.max u v)).
Proof.
  assert (GE : forall (vs : list text) v, In v vs -> exists cl, In cl (equal_to_constraint vs 1) /\ In v (map snd cl)).
  { intros vs v H. exists (map (pair true) vs). split; [|rewrite map_map; cbn [snd]; rewrite map_id; auto].
    unfold equal_to_constraint. apply in_app_iff. right. unfold greater_or_equal_constraint, inequality_constraint. cbv zeta.
    destruct vs as [|w vs]; [destruct H|]. set (l := w :: vs) in *. assert (L : (0 < List.length l)%nat) by (cbn; lia).
    destruct (Z.ltb_spec (Z.of_nat (List.length l)) (Z.of_nat (List.length l) - (1 - 1))); [lia|].
    destruct (Z.ltb_spec (Z.of_nat (List.length l) - (1 - 1)) 0); [lia|]. apply in_map. replace (Z.to_nat (Z.of_nat (List.length l) - (1 - 1))) with (List.length l) by lia.
    clear. induction l as [|x l IH]; [left; auto|]. cbn [combinations List.length]. apply in_app_iff. left. apply in_map. auto. }
  assert (NM : forall cls c n, add_all cnf_add_clause cls empty_cnf = Ok c -> (forall cl, In cl cls -> clean cl) ->
    NoDup (cn_names c) /\ (In n (cn_names c) <-> exists cl, In cl cls /\ In n (map snd cl))).
  { intros cls c n E H. destruct (build_plain cls H) as (c' & E' & _ & _ & N). assert (c' = c) by congruence. subst c'. rewrite N. split; [apply with_new_NoDup; constructor|].
    rewrite with_new_In. split.
    - intros [[]|K]. apply in_map_iff in K as (l & <- & K). apply in_concat in K as (cl & K1 & K2). exists cl. split; auto. apply in_map; auto.
    - intros (cl & K1 & K2). right. apply in_map_iff in K2 as (l & <- & K2). apply in_map. apply in_concat. eauto. }
  split.
  - intros M p c Hp E. unfold CountingPrinciple in E. apply bind_ok in E as (parts & EP & E). unfold py_combinations in EP. destruct (Z.ltb_spec p 0); [lia|]. injection EP as <-.
    assert (PI : forall S, In S (combinations (range 0 M) (Z.to_nat p)) <-> StronglySorted Z.lt S /\ (forall x, In x S -> 0 <= x < M) /\ Z.of_nat (List.length S) = p).
    { intros T. rewrite combinations_sorted by apply range_sorted. split.
      - intros (A & B & C). split; auto. split; [intros x Hx; apply range_In; apply C; auto|lia].
      - intros (A & B & C). split; auto. split; [lia|]. intros x Hx. apply range_In. auto. }
    assert (X := fun n => NM (counting_clauses M p) c n E). split; [apply (X []); intros cl Hc|intros n; rewrite (proj2 (X n ltac:(intros cl Hc; unfold counting_clauses in Hc; apply in_flat_map in Hc as (el & _ & Hc); eapply equal_clean; eauto; apply parts_names_NoDup)))].
    { unfold counting_clauses in Hc. apply in_flat_map in Hc as (el & _ & Hc). eapply equal_clean; eauto. apply parts_names_NoDup. }
    split.
    + intros (cl & Hc & Hn). unfold counting_clauses in Hc. apply in_flat_map in Hc as (el & _ & Hc). apply (equal_vars _ _ _ n) in Hc; auto. apply in_map_iff in Hc as (T & <- & HT).
      apply filter_In in HT as [HT _]. exists T. apply PI in HT. unfold part_name. tauto.
    + intros (T & A & B & C & ->). change (txt "Y_{{" ++ join (txt ",") (map str_Z T) ++ txt "}}") with (part_name T).
      destruct T as [|x T]; [cbn in C; lia|]. destruct (GE (map part_name (filter (zmem x) (combinations (range 0 M) (Z.to_nat p)))) (part_name (x :: T))) as (cl & H1 & H2).
      * apply in_map. apply filter_In. split; [apply PI; auto|]. cbn [zmem existsb]. rewrite Z.eqb_refl. reflexivity.
      * exists cl. split; auto. unfold counting_clauses. apply in_flat_map. exists x. split; auto. apply range_In. apply B. left; auto.
  - intros g c G E.
    assert (CL : forall cl, In cl (matching_clauses g) -> clean cl).
    { intros cl Hc. unfold matching_clauses in Hc. apply in_flat_map in Hc as (v & _ & Hc). eapply equal_clean; eauto. apply incident_names; auto. }
    split; [apply (NM (matching_clauses g) c [] E CL)|]. intros n. rewrite (proj2 (NM (matching_clauses g) c n E CL)).
    assert (EN : forall u v, edge_name u v = name2 (txt "x_{") (Z.min u v) (Z.max u v)).
    { intros u v. unfold edge_name. destruct (Z.leb_spec u v); [rewrite Z.min_l, Z.max_r by lia|rewrite Z.min_r, Z.max_l by lia]; reflexivity. }
    split.
    + intros (cl & Hc & Hn). unfold matching_clauses in Hc. apply in_flat_map in Hc as (v & _ & Hc). apply (equal_vars _ _ _ n) in Hc; auto. apply in_map_iff in Hc as (u & <- & Hu).
      apply neighbors_In in Hu; auto. exists u, v. split; [rewrite adjacent_sym; auto|apply EN].
    + intros (u & v & A & ->). rewrite <- EN. destruct (GE (map (fun u => edge_name u v) (neighbors g v)) (edge_name u v)) as (cl & H1 & H2).
      * apply (in_map (fun u => edge_name u v)). apply neighbors_In; auto. rewrite adjacent_sym. auto.
      * exists cl. split; auto. unfold matching_clauses. apply in_flat_map. exists v. split; auto. destruct A as [A|A]; apply (sg_ends g G) in A; tauto.
Qed.
(*EX
(* the numbers of a few variables *)
Definition triangle3 : graph := mkGraph [5; 3; 4] [(5, 3); (4, 5); (3, 4)].
Lemma triangle3_simple : simple_graph triangle3.
Proof.
  constructor; cbn [triangle3 g_nodes g_edges].
  - repeat (constructor; [cbn; intuition lia|]); constructor.
  - repeat (constructor; [cbn; intuition congruence|]); constructor.
  - intros u v H K; cbn in H, K; intuition congruence.
  - intros u v H; cbn in H |- *; intuition congruence.
Qed.
Example C81_applies :
  (exists c, PigeonholePrinciple 3 2 true false = Ok c /\ nth_error (cn_names c) 3 = Some (txt "p_{2,2}")) /\
  (exists c, RamseyLowerBoundFormula 3 3 4 = Ok c /\ nth_error (cn_names c) 5 = Some (txt "e_{3,4}")) /\
  (exists c, GraphOrderingPrinciple triangle3 true false false 0 = Ok c /\ nth_error (cn_names c) 2 = Some (txt "x_{3,5}")) /\
  (exists c, EvenColoringFormula triangle3 = Ok c /\ cn_names c = [txt "x_{3,5}"; txt "x_{4,5}"; txt "x_{3,4}"]) /\
  (exists c, TseitinFormula triangle3 None = Ok c /\ cn_names c = [txt "E_{3,4}"; txt "E_{5,3}"; txt "E_{4,5}"]) /\
  (exists c, CountingPrinciple 4 2 = Ok c /\ In (txt "Y_{{1,3}}") (cn_names c)) /\
  (exists c, RamseyWitnessFormula triangle3 3 2 = Ok c /\ nth_error (cn_names c) 0 = Some (txt "c")).
Proof.
  repeat split.
  1-5, 7: eexists; (split; [vm_compute; reflexivity|vm_compute; reflexivity]).
  eexists. split; [vm_compute; reflexivity|]. vm_compute. tauto.
Qed.
EX*)

(* C82: OrFormula(P, N) and AndFormula(P, N) over x_0 .. x_{P-1}, y_0 .. y_{N-1}: one of the x true or one of the y
   false, all x true and all y false; EmptyFormula and EmptyClauseFormula have no variables, the second no model *)
Lemma p_C82_simple_formulas : forall P N,
  (exists c, OrFormula P N = Ok c /\ made c /\
     cn_names c = map (fun i => txt "x_" ++ str_Z i) (range 0 P) ++ map (fun i => txt "y_" ++ str_Z i) (range 0 N) /\
     List.length (cn_clauses c) = 1%nat /\
     forall a, all_hold a (cnf_clauses c) <->
       (exists i, 0 <= i < P /\ a (txt "x_" ++ str_Z i) = true) \/ (exists i, 0 <= i < N /\ a (txt "y_" ++ str_Z i) = false)) /\
  (exists c, AndFormula P N = Ok c /\ made c /\
     cn_names c = map (fun i => txt "x_" ++ str_Z i) (range 0 P) ++ map (fun i => txt "y_" ++ str_Z i) (range 0 N) /\
     (forall cl, In cl (cn_clauses c) -> List.length cl = 1%nat) /\
     forall a, all_hold a (cnf_clauses c) <->
       (forall i, 0 <= i < P -> a (txt "x_" ++ str_Z i) = true) /\ (forall i, 0 <= i < N -> a (txt "y_" ++ str_Z i) = false)).
Proof.
  intros P N.
  assert (SI : forall p i j, simple_name p i = simple_name p j -> i = j) by (intros p i j H; unfold simple_name in H; apply app_inv_head in H; apply str_Z_inj; auto).
  assert (XY : forall i j, simple_name (txt "x_") i <> simple_name (txt "y_") j) by (intros i j H; discriminate H).
  set (xs := map (fun i => simple_name (txt "x_") i) (range 0 P)). set (ys := map (fun i => simple_name (txt "y_") i) (range 0 N)).
  assert (ND : NoDup (xs ++ ys)).
  { apply NoDup_app_intro; [apply FinFun.Injective_map_NoDup; [intros i j; apply SI|apply range_NoDup]..|].
    intros v A B. apply in_map_iff in A as (i & <- & _). apply in_map_iff in B as (j & B & _). apply (XY i j). auto. }
  split.
  - set (cl := map (fun i => (true, simple_name (txt "x_") i)) (range 0 P) ++ map (fun i => (false, simple_name (txt "y_") i)) (range 0 N)).
    assert (MS : map snd cl = xs ++ ys) by (unfold cl; rewrite map_app, !map_map; reflexivity).
    destruct (build_plain [cl]) as (c & E & M & L & NM); [intros cl' [<-|[]]; apply clean_vars; rewrite MS; auto|].
    exists c. split; [exact E|]. split; auto. cbn [concat] in NM. rewrite app_nil_r, MS in NM. split; [rewrite NM, with_new_distinct by auto; reflexivity|].
    split; [apply (f_equal (@List.length _)) in L; unfold cnf_clauses in L; rewrite map_length in L; exact L|].
    intros a. rewrite L. transitivity (clause_holds a cl); [split; [intros H; apply H; left; auto|intros H c' [<-|[]]; auto]|].
    unfold cl. rewrite holds_app, !holds_map. split.
    + intros [(i & Hi & A)|(i & Hi & A)]; [left|right]; exists i; (split; [apply range_In; auto|exact A]).
    + intros [(i & Hi & A)|(i & Hi & A)]; [left|right]; exists i; (split; [apply range_In; auto|exact A]).
  - set (cls := map (fun i => [(true, simple_name (txt "x_") i)]) (range 0 P) ++ map (fun i => [(false, simple_name (txt "y_") i)]) (range 0 N)).
    assert (MS : map snd (concat cls) = xs ++ ys).
    { assert (Z1 : forall (p : bool) q l, map snd (concat (map (fun i => [(p, simple_name q i)]) l)) = map (fun i => simple_name q i) l).
      { intros p q. induction l as [|x l IH]; [reflexivity|]. cbn [map concat app snd]. rewrite IH. reflexivity. }
      unfold cls. rewrite concat_app, map_app, !Z1. reflexivity. }
    destruct (build_plain cls) as (c & E & M & L & NM).
    { intros cl H. apply clean_vars. unfold cls in H. apply in_app_iff in H as [H|H]; apply in_map_iff in H as (i & <- & _); (constructor; [intros []|constructor]). }
    exists c. split; [exact E|]. split; auto. split; [rewrite NM, MS, with_new_distinct by auto; reflexivity|]. split.
    + intros z Hz. apply (in_map (uncompress_clause (cn_names c))) in Hz. change (In (uncompress_clause (cn_names c) z) (cnf_clauses c)) in Hz. rewrite L in Hz.
      assert (X : List.length (uncompress_clause (cn_names c) z) = 1%nat) by (unfold cls in Hz; apply in_app_iff in Hz as [Hz|Hz]; apply in_map_iff in Hz as (i & <- & _); reflexivity).
      unfold uncompress_clause in X. rewrite map_length in X. exact X.
    + intros a. rewrite L. unfold cls. rewrite all_hold_app, !all_hold_map.
      assert (Y : forall p v, clause_holds a [(p, v)] <-> a v = p) by (intros p v; rewrite holds_cons; split; [intros [?|K]; auto; destruct (holds_nil _ K)|auto]).
      split; (intros [A B]; split; intros i Hi); [apply Y; apply A; apply range_In; auto|apply Y; apply B; apply range_In; auto|apply Y; apply A; apply range_In; auto|apply Y; apply B; apply range_In; auto].
Qed.
(* C82 *)
Lemma p_C82_empty_formulas :
  (exists c, EmptyFormula = Ok c /\ cn_names c = [] /\ cn_clauses c = [] /\ has_model (cnf_clauses c)) /\
  (exists c, EmptyClauseFormula = Ok c /\ cn_names c = [] /\ cn_clauses c = [[]] /\ ~ has_model (cnf_clauses c)).
Proof.
  split; eexists; (split; [reflexivity|]); (split; [reflexivity|]); (split; [reflexivity|]).
  - exists (fun _ => true). intros cl [].
  - intros (a & H). destruct (H [] (or_introl eq_refl)) as (p & v & [] & _).
Qed.
(*EX
(* two positive, one negative literal *)
Example C82_applies : exists c, OrFormula 2 1 = Ok c /\ cn_clauses c = [[1; 2; -3]] /\ exists d, AndFormula 2 1 = Ok d /\ cn_clauses d = [[1]; [2]; [-3]] /\ OrFormula (-1) 0 = EmptyClauseFormula.
Proof. eexists. split; [reflexivity|]. split; [reflexivity|]. eexists. split; [reflexivity|]. split; reflexivity. Qed.
EX*)
