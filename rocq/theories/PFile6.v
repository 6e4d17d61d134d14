(* PFile6.v -- kthlist: writing and reading back; the last line without newline *)
From Coq Require Import String Ascii ZArith NArith List Bool Lia Arith Sorted Permutation.
From Verif Require Import Spec SpecInput SpecFile PyBase MSet MText MCnf MFam MFam2 MTrans MFile SpecCnf SpecFam SpecFam2 PText PReader PLib PCnf1 PCnf2 PCnf3 PFam1 PFam2 PFam4 PFam8 PFam15 PFam16 PGen6 PFile1 PFile2 PFile3 PFile4 PFile5.
Import ListNotations.
Open Scope Z_scope.

Lemma numbers_join zs : numbers zs (join (txt " ") (map str_Z zs)).
Proof.
  induction zs as [|z zs IH]; [constructor; constructor|]. destruct zs as [|y zs]; [apply (numbers_last []); [constructor|apply PReader.str_Z_numeral]|].
  change (join (txt " ") (map str_Z (z :: y :: zs))) with ([] ++ str_Z z ++ " "%char :: join (txt " ") (map str_Z (y :: zs))).
  apply numbers_cons; auto; [constructor|apply PReader.str_Z_numeral|left; reflexivity].
Qed.
Lemma numbers_before b zs l : blanks b -> numbers zs l -> numbers zs (b ++ l).
Proof.
  intros B H. inversion H as [t Ht|pre z n Hp Hn|pre z n zs' c u Hp Hn Hc Hu]; subst.
  - constructor. apply Forall_app; auto.
  - rewrite app_assoc. apply numbers_last; auto. apply Forall_app; auto.
  - rewrite app_assoc. apply numbers_cons; auto. apply Forall_app; auto.
Qed.
Lemma numbers_then zs l b z : numbers zs l -> is_blank b -> numbers (zs ++ [z]) (l ++ b :: str_Z z).
Proof.
  intros H Hb. induction H as [t Ht|pre y n Hp Hn|pre y n zs' c u Hp Hn Hc Hu IH]; cbn [app].
  - change (b :: str_Z z) with ([b] ++ str_Z z). rewrite app_assoc. apply numbers_last; [|apply PReader.str_Z_numeral]. apply Forall_app; auto.
  - rewrite <- app_assoc. apply numbers_cons; auto. apply (numbers_last []); [constructor|apply PReader.str_Z_numeral].
  - replace ((pre ++ n ++ c :: u) ++ b :: str_Z z) with (pre ++ n ++ c :: (u ++ b :: str_Z z)); [|rewrite <- !app_assoc; reflexivity].
    apply numbers_cons; auto.
Qed.
(* the lists of a written file *)
Definition position_in (V : list Z) (v : Z) : Z := rank_of v V 1.
Definition written_lists (V L : list Z) (nbrs : Z -> list Z) : list (Z * list Z) :=
  map (fun v => (position_in V v, sort_by Z.ltb (map (position_in V) (nbrs v)))) L.
Definition list_text (v : Z) (us : list Z) : text := (str_Z v ++ [" "%char]) ++ ":"%char :: ([" "%char] ++ join (txt " ") (map str_Z us)) ++ " "%char :: str_Z 0.
Definition kth_text (name : text) (V L : list Z) (nbrs : Z -> list Z) : list text :=
  (txt "c " ++ name) :: str_Z (Z.of_nat (List.length V)) :: map (fun vs => list_text (fst vs) (snd vs)) (written_lists V L nbrs) ++ [[]].
Lemma write_lines name V L nbrs : write_kthlist name V L nbrs = ended (kth_text name V L nbrs).
Proof.
  unfold write_kthlist, kth_text, ended. cbn [map concat]. rewrite map_app, concat_app. cbn [map concat app].
  rewrite <- !app_assoc. cbn [app]. do 4 f_equal. f_equal. cbn [app]. f_equal. f_equal.
  unfold written_lists. rewrite !map_map. apply map_ext. intros v. cbn [fst snd]. unfold list_text. rewrite <- !app_assoc. cbn [app]. f_equal.
  change (txt " : ") with [" "%char; ":"%char; " "%char]. cbn [app]. do 3 f_equal. rewrite <- app_assoc. reflexivity.
Qed.
Lemma position_range V v : In v V -> 1 <= position_in V v <= Z.of_nat (List.length V).
Proof.
  unfold position_in. assert (G : forall V k, In v V -> k <= rank_of v V k <= k + Z.of_nat (List.length V) - 1).
  { induction V0 as [|x V0 IH]; intros k H; [destruct H|]. cbn [rank_of List.length]. destruct (Z.eqb_spec v x); [lia|]. destruct H as [H|H]; [congruence|]. specialize (IH (k + 1) H). lia. }
  intros H. apply (G V 1) in H. lia.
Qed.
Lemma position_inj V u v : In u V -> In v V -> position_in V u = position_in V v -> u = v.
Proof.
  unfold position_in. assert (P : forall V k w, In w V -> k <= rank_of w V k).
  { induction V0 as [|x V0 IH]; intros k w H; [destruct H|]. cbn [rank_of]. destruct (Z.eqb_spec w x); [lia|]. destruct H as [H|H]; [congruence|]. specialize (IH (k + 1) w H). lia. }
  assert (G : forall V k, In u V -> In v V -> rank_of u V k = rank_of v V k -> u = v).
  { induction V0 as [|x V0 IH]; intros k Hu Hv H; [destruct Hu|]. cbn [rank_of] in H. destruct (Z.eqb_spec u x) as [->|N1], (Z.eqb_spec v x) as [->|N2]; auto.
    - destruct Hv as [Hv|Hv]; [congruence|]. pose proof (P V0 (k + 1) v Hv). lia.
    - destruct Hu as [Hu|Hu]; [congruence|]. pose proof (P V0 (k + 1) u Hu). lia.
    - destruct Hu as [Hu|Hu]; [congruence|]. destruct Hv as [Hv|Hv]; [congruence|]. eauto. }
  intros Hu Hv. apply G; auto.
Qed.
Lemma positions V : NoDup V -> map (position_in V) V = range 1 (Z.of_nat (List.length V) + 1).
Proof.
  intros N. apply nth_ext with (d := position_in V 0) (d' := 0).
  - rewrite map_length, range_length. lia.
  - rewrite map_length. intros i Hi. rewrite map_nth. unfold position_in.
    rewrite (rank_of_nth V i (nth i V 0) 1 N) by (apply nth_error_nth'; auto).
    unfold range. rewrite (nth_indep _ 0 (1 + Z.of_nat 0)) by (rewrite map_length, seq_length; lia). rewrite (map_nth (fun k => 1 + Z.of_nat k)), seq_nth by lia. reflexivity.
Qed.
Lemma sorted_In (l : list Z) x : In x (sort_by Z.ltb l) <-> In x l.
Proof. split; apply Permutation_in; [apply sort_by_Perm|apply Permutation_sym, sort_by_Perm]. Qed.
Lemma written_listed V L nbrs : incl L V -> (forall v, In v L -> incl (nbrs v) V) ->
  forall u v, In u V -> In v V -> (listed (written_lists V L nbrs) (position_in V u) (position_in V v) <-> In v L /\ In u (nbrs v)).
Proof.
  intros IL IN u v Hu Hv. unfold listed, written_lists. split.
  - intros (us & H & K). apply in_map_iff in H as (w & E & Hw). inversion E; subst. apply position_inj in H0; auto. subst w.
    rewrite sorted_In in K. apply in_map_iff in K as (x & E1 & Hx). apply position_inj in E1; auto; [subst; auto|]. apply (IN v); auto.
  - intros [H K]. eexists. split; [apply in_map_iff; exists v; split; [reflexivity|auto]|]. rewrite sorted_In. apply in_map; auto.
Qed.
Lemma written_positions V L nbrs : incl L V -> (forall v, In v L -> incl (nbrs v) V) ->
  forall i j, listed (written_lists V L nbrs) i j -> exists u v, In u V /\ In v V /\ i = position_in V u /\ j = position_in V v.
Proof.
  intros IL IN i j (us & H & K). unfold written_lists in H. apply in_map_iff in H as (w & E & Hw). inversion E; subst. rewrite sorted_In in K.
  apply in_map_iff in K as (x & <- & Hx). exists x, w. split; [apply (IN w); auto|]. auto.
Qed.
Lemma written_file name V L nbrs : one_line name -> incl L V -> (forall v, In v L -> incl (nbrs v) V) ->
  Forall one_line (kth_text name V L nbrs) /\ kthlist_file (kth_text name V L nbrs) (name ++ [nl]) (Z.of_nat (List.length V)) (written_lists V L nbrs).
Proof.
  intros O IL IN. assert (SP : one_line [" "%char]) by (intros [K|[]]; discriminate).
  assert (JN : forall us, one_line (join (txt " ") (map str_Z us))).
  { induction us as [|u us IH]; [intros []|]. destruct us as [|w us]; [apply one_line_str|].
    change (join (txt " ") (map str_Z (u :: w :: us))) with (str_Z u ++ [" "%char] ++ join (txt " ") (map str_Z (w :: us))). repeat apply one_line_app; auto. apply one_line_str. }
  split.
  - unfold kth_text. constructor; [apply one_line_app; auto; apply one_line_txt; reflexivity|]. constructor; [apply one_line_str|]. apply Forall_app. split; [|constructor; [intros []|constructor]].
    apply Forall_forall. intros l H. apply in_map_iff in H as ([v us] & <- & H). unfold list_text. cbn [fst snd].
    apply one_line_app; [apply one_line_app; auto; apply one_line_str|].
    match goal with |- one_line (?x :: ?t) => change (x :: t) with ([x] ++ t) end. apply one_line_app; [intros [K|[]]; discriminate|].
    apply one_line_app; [apply one_line_app; auto|]. change (" "%char :: str_Z 0) with ([" "%char] ++ str_Z 0). apply one_line_app; auto. apply one_line_str.
  - exists [txt "c " ++ name], (str_Z (Z.of_nat (List.length V))), (map (fun vs => list_text (fst vs) (snd vs)) (written_lists V L nbrs) ++ [[]]), (name ++ [nl]), [].
    split; [reflexivity|]. split; [rewrite app_nil_r; reflexivity|]. split; [lia|]. split; [|split].
    + change (txt "c " ++ name) with ("c"%char :: " "%char :: name). replace (name ++ [nl]) with (name ++ nl :: []) by reflexivity. constructor. constructor.
    + apply (numbers_last []); [constructor|apply PReader.str_Z_numeral].
    + assert (W : forall v us, In (v, us) (written_lists V L nbrs) -> 1 <= v <= Z.of_nat (List.length V) /\ forall u, In u us -> 1 <= u <= Z.of_nat (List.length V)).
      { intros v us H. unfold written_lists in H. apply in_map_iff in H as (w & E & Hw). inversion E; subst. split; [apply position_range; auto|].
        intros u K. rewrite sorted_In in K. apply in_map_iff in K as (x & <- & Hx). apply position_range. apply (IN w); auto. }
      revert W. generalize (written_lists V L nbrs) as A. induction A as [|[v us] A IH]; intros W; cbn [map app].
      * constructor; [constructor|]. constructor.
      * cbn [fst snd]. unfold list_text. apply adj_line; auto.
        -- apply (numbers_cons [] v (str_Z v) [] " "%char []); [constructor|apply PReader.str_Z_numeral|left; reflexivity|constructor; constructor].
        -- apply numbers_then; [|left; reflexivity]. apply numbers_before; [constructor; [left; reflexivity|constructor]|]. apply numbers_join.
        -- exact (proj1 (W v us (or_introl eq_refl))).
        -- exact (proj2 (W v us (or_introl eq_refl))).
        -- apply IH. intros. apply W. right; auto.
Qed.
(* ---- renumbered graphs ---- *)
Lemma positions_exist V i : 1 <= i <= Z.of_nat (List.length V) -> NoDup V -> exists v, In v V /\ i = position_in V v.
Proof. intros H N. assert (K : In i (map (position_in V) V)) by (rewrite positions by auto; apply range_In; lia). apply in_map_iff in K as (v & <- & Hv). eauto. Qed.
Lemma simple_written name g : one_line name -> simple_graph g -> exists f,
  readGraph_kthlist Simple (writeGraph_kthlist name g) = Ok f /\ f_name f = name ++ [nl] /\ simple_graph (to_graph f) /\
  g_nodes (to_graph f) = range 1 (Z.of_nat (List.length (g_nodes g)) + 1) /\
  (forall u v, In u (g_nodes g) -> In v (g_nodes g) -> (adjacent (to_graph f) (position_in (g_nodes g) u) (position_in (g_nodes g) v) <-> adjacent g u v)).
Proof.
  intros O S. set (V := g_nodes g).
  assert (IN : forall v, In v V -> incl (neighbors g v) V).
  { intros v Hv u Hu. apply neighbors_In in Hu; auto. destruct Hu as [H|H]; apply (sg_ends g S) in H; apply H. }
  destruct (written_file name V V (neighbors g) O (incl_refl V) IN) as [OL F].
  pose proof (written_listed V V (neighbors g) (incl_refl V) IN) as WL. pose proof (written_positions V V (neighbors g) (incl_refl V) IN) as WP.
  set (adj := written_lists V V (neighbors g)) in *.
  pose proof (kth_graph (Z.of_nat (List.length V)) adj [] (name ++ [nl]) (kthlist_range _ _ _ _ F)) as (G1 & G2 & G3).
  exists (mkFile (range 1 (Z.of_nat (List.length V) + 1)) (edges_of false adj) [] (downward adj) (name ++ [nl])).
  split; [|split; [reflexivity|split; [|split; [exact G1|]]]].
  - unfold readGraph_kthlist, writeGraph_kthlist, enumerate_vertices. fold V. rewrite write_lines. cbn [is_directed is_bipartite].
    rewrite (read_kthlist_ok false false _ _ _ _ OL F). reflexivity.
  - apply G3. intros i L. destruct (WP i i L) as (u & v & Hu & Hv & -> & E). apply position_inj in E; auto. subst v. apply WL in L as [_ L]; auto.
    apply neighbors_In in L; auto. assert (In (u, u) (g_edges g)) by (destruct L; auto). apply (sg_once g S u u); auto.
  - intros u v Hu Hv. rewrite G2, !WL by auto. rewrite !neighbors_In by auto. unfold adjacent. tauto.
Qed.
Lemma digraph_written name d : one_line name -> proper_digraph d -> exists f,
  readGraph_kthlist Directed (writeDigraph_kthlist name d) = Ok f /\ f_name f = name ++ [nl] /\ proper_digraph (to_digraph f) /\
  d_nodes (to_digraph f) = range 1 (Z.of_nat (List.length (d_nodes d)) + 1) /\
  (forall u v, In u (d_nodes d) -> In v (d_nodes d) -> (arc (to_digraph f) (position_in (d_nodes d) u) (position_in (d_nodes d) v) <-> arc d u v)) /\
  (acyclic d -> acyclic (to_digraph f) /\ readGraph_kthlist Dag (writeDigraph_kthlist name d) = Ok f).
Proof.
  intros O P. set (V := d_nodes d).
  assert (IN : forall v, In v V -> incl (predecessors d v) V).
  { intros v Hv u Hu. apply predecessors_In in Hu; auto. apply P in Hu. apply Hu. }
  destruct (written_file name V V (predecessors d) O (incl_refl V) IN) as [OL F].
  pose proof (written_listed V V (predecessors d) (incl_refl V) IN) as WL. pose proof (written_positions V V (predecessors d) (incl_refl V) IN) as WP.
  set (adj := written_lists V V (predecessors d)) in *.
  pose proof (kth_digraph (Z.of_nat (List.length V)) adj [] (name ++ [nl]) (kthlist_range _ _ _ _ F)) as (G1 & G2 & G3).
  set (f := mkFile (range 1 (Z.of_nat (List.length V) + 1)) (edges_of true adj) [] (downward adj) (name ++ [nl])) in *.
  assert (A : forall u v, In u V -> In v V -> (arc (to_digraph f) (position_in V u) (position_in V v) <-> arc d u v)).
  { intros u v Hu Hv. rewrite G3, WL by auto. rewrite predecessors_In by auto. tauto. }
  assert (E : read_kthlist true false (writeDigraph_kthlist name d) = Ok f).
  { unfold writeDigraph_kthlist. fold V. rewrite write_lines, (read_kthlist_ok true false _ _ _ _ OL F). reflexivity. }
  exists f. split; [unfold readGraph_kthlist; cbn [is_directed is_bipartite]; rewrite E; reflexivity|]. split; [reflexivity|]. split; [exact G1|]. split; [exact G2|]. split; [exact A|].
  intros AC. assert (AC' : acyclic (to_digraph f)).
  { assert (K : forall i j, walk (to_digraph f) i j -> exists u v, In u V /\ In v V /\ i = position_in V u /\ j = position_in V v /\ walk d u v).
    { induction 1 as [i j H|i k j H W (u' & v & Hu' & Hv & E1 & E2 & Wd)].
      - pose proof H as H'. apply G3 in H'. destruct (WP i j H') as (u & v & Hu & Hv & -> & ->). exists u, v. repeat (split; auto). apply walk_arc. apply A; auto.
      - pose proof H as H'. apply G3 in H'. destruct (WP i k H') as (u & w & Hu & Hw & -> & ->). apply position_inj in E1; auto. subst u'.
        exists u, v. repeat (split; auto). apply (walk_step d u w v); auto. apply A; auto. }
    intros i W. destruct (K i i W) as (u & v & Hu & Hv & -> & E1 & Wd). apply position_inj in E1; auto. subst v. apply (AC u); auto. }
  split; auto. unfold readGraph_kthlist. cbn [is_directed is_bipartite]. rewrite E. cbn [bind]. rewrite (proj2 (is_dag_ok _ G1) AC'). reflexivity.
Qed.
Lemma bip_vertices_In b w : In w (bip_vertices b) <-> In w (b_left b) \/ In w (b_right b).
Proof. unfold bip_vertices. rewrite sorted_In, in_app_iff. tauto. Qed.
Lemma bipartite_written name b : one_line name -> bipartite_graph b -> exists f,
  readGraph_kthlist Bipartite (writeBipartite_kthlist name b) = Ok f /\ f_name f = name ++ [nl] /\ bipartite_graph (to_bipartite f) /\
  (forall i, In i (b_left (to_bipartite f)) <-> exists u, In u (b_left b) /\ i = position_in (bip_vertices b) u) /\
  (forall i, In i (b_right (to_bipartite f)) <-> exists u, In u (b_right b) /\ i = position_in (bip_vertices b) u) /\
  (forall u v, In u (bip_vertices b) -> In v (bip_vertices b) ->
     (In (position_in (bip_vertices b) u, position_in (bip_vertices b) v) (b_edges (to_bipartite f)) <-> In (u, v) (b_edges b))).
Proof.
  intros O B. set (V := bip_vertices b).
  assert (ND : NoDup V).
  { apply (Permutation_NoDup (Permutation_sym (sort_by_Perm _ _))). apply NoDup_app_intro; [apply B|apply B|]. intros x H. apply (bg_apart b B x H). }
  assert (IL : incl (b_left b) V) by (intros w H; apply bip_vertices_In; auto).
  assert (IR : incl (b_right b) V) by (intros w H; apply bip_vertices_In; auto).
  assert (IN : forall v, In v (b_left b) -> incl (left_neighbors b v) V).
  { intros v Hv u Hu. apply left_In in Hu. apply IR. apply (bg_ends b B v u Hu). }
  destruct (written_file name V (b_left b) (left_neighbors b) O IL IN) as [OL F].
  pose proof (written_listed V (b_left b) (left_neighbors b) IL IN) as WL. pose proof (written_positions V (b_left b) (left_neighbors b) IL IN) as WP.
  assert (WT : forall w us, In (w, us) (written_lists V (b_left b) (left_neighbors b)) -> exists u, In u (b_left b) /\ w = position_in V u).
  { intros w us H. unfold written_lists in H. apply in_map_iff in H as (u & E & Hu). inversion E; subst. eauto. }
  assert (WT' : forall u, In u (b_left b) -> exists us, In (position_in V u, us) (written_lists V (b_left b) (left_neighbors b))).
  { intros u H. eexists. unfold written_lists. apply in_map_iff. exists u. split; [reflexivity|auto]. }
  set (adj := written_lists V (b_left b) (left_neighbors b)) in *.
  assert (LR : forall u v, In u V -> In v V -> listed adj (position_in V u) (position_in V v) -> In u (b_right b) /\ In v (b_left b) /\ In (v, u) (b_edges b)).
  { intros u v Hu Hv L. apply WL in L as [H1 H2]; auto. apply left_In in H2. split; auto. apply (bg_ends b B v u H2). }
  assert (SD : sided adj).
  { intros i j w us L H E. subst w. destruct (WT _ _ H) as (x & Hx & ->). destruct (WP _ _ L) as (u & v & Hu & Hv & E & ->). apply position_inj in E; auto. subst x.
    destruct (LR u v Hu Hv L) as (K & _). apply (bg_apart b B u); auto. }
  destruct (sided_colors adj SD adj [] (incl_refl adj)) as (cs & EC & C1 & _ & C3); [intros w k K; discriminate|].
  assert (NL : no_loops adj) by (intros v L; destruct L as (us & H & K); apply (SD v v v us); auto; exists us; auto).
  pose proof (bip_ok (Z.of_nat (List.length V)) adj cs (name ++ [nl]) (kthlist_range _ _ _ _ F) NL EC) as (B1 & B2 & B3 & B4).
  set (f := bip_file (Z.of_nat (List.length V)) adj cs (name ++ [nl])) in *.
  assert (HL : forall i, In i (b_left (to_bipartite f)) <-> exists u, In u (b_left b) /\ i = position_in V u).
  { intros i. rewrite B3. split.
    - intros [H _]. destruct (C1 i 0 H) as [[_ (us & K)]|[K _]]; [eauto|discriminate].
    - intros (u & Hu & ->). destruct (WT' u Hu) as (us & H). split; [eapply C3; eauto|]. apply position_range; auto. }
  exists f. split; [|split; [reflexivity|split; [exact B1|split; [exact HL|split]]]].
  - unfold readGraph_kthlist, writeBipartite_kthlist. fold V. rewrite write_lines. cbn [is_directed is_bipartite]. rewrite (read_kthlist_ok false true _ _ _ _ OL F).
    fold adj. rewrite EC. reflexivity.
  - intros i. split.
    + intros H. assert (R : 1 <= i <= Z.of_nat (List.length V)) by (apply B2; auto). destruct (positions_exist V i R ND) as (u & Hu & ->). exists u. split; auto.
      apply bip_vertices_In in Hu as [Hu|Hu]; auto. exfalso. apply (bg_apart _ B1 (position_in V u)); auto. apply HL; eauto.
    + intros (u & Hu & ->). assert (R : 1 <= position_in V u <= Z.of_nat (List.length V)) by (apply position_range; auto). apply B2 in R as [R|R]; auto.
      apply HL in R as (x & Hx & E). apply position_inj in E; auto. subst x. exfalso. apply (bg_apart b B u); auto.
  - intros u v Hu Hv. rewrite B4, HL. split.
    + intros [(x & Hx & E) [L|L]]; apply position_inj in E; auto; subst x.
      * apply LR in L as (K & _); auto. exfalso. apply (bg_apart b B u); auto.
      * apply LR in L as (_ & _ & K); auto.
    + intros H. pose proof (bg_ends b B u v H) as [H1 H2]. split; [eauto|]. right. apply WL; auto. split; auto. apply left_In; auto.
Qed.
(* ---- the last line without its newline ---- *)
Lemma split_on_tail sep (l : text) z : z <> sep -> exists ps p, split_on sep l = ps ++ [p] /\ split_on sep (l ++ [z]) = ps ++ [p ++ [z]].
Proof.
  intros N. induction l as [|x l (ps & p & E1 & E2)]; cbn [app split_on].
  - destruct (Ascii.eqb_spec z sep); [contradiction|]. exists [], []. split; reflexivity.
  - rewrite E1, E2. destruct (Ascii.eqb x sep); [exists ([] :: ps), p; split; reflexivity|].
    destruct ps as [|q ps]; [exists [], (x :: p); split; reflexivity|exists ((x :: q) :: ps), p; split; reflexivity].
Qed.
Lemma strip_nl l : strip is_uspace (l ++ [nl]) = strip is_uspace l.
Proof.
  assert (L : lstrip is_uspace (l ++ [nl]) = match lstrip is_uspace l with [] => [] | u => u ++ [nl] end).
  { induction l as [|x l IH]; [reflexivity|]. cbn [app lstrip]. destruct (is_uspace x); auto. }
  unfold strip. rewrite L. destruct (lstrip is_uspace l) as [|x t]; [reflexivity|]. rewrite rev_app_distr. reflexivity.
Qed.
Lemma kth_unended d b s l : l <> [] -> hd_error l <> Some "c"%char -> kth_line d b s (l ++ [nl]) = kth_line d b s l.
Proof.
  intros N H. destruct l as [|x l]; [congruence|]. cbn [hd_error] in H. cbn [app]. unfold kth_line. destruct (Ascii.eqb_spec x "c"); [congruence|].
  change (x :: l ++ [nl]) with ((x :: l) ++ [nl]). rewrite strip_nl. destruct (strip is_uspace (x :: l)) as [|y t] eqn:Es; [reflexivity|].
  destruct (split_on_tail ":" (x :: l) nl) as (ps & p & E1 & E2); [discriminate|]. rewrite E1, E2. destruct ps as [|q [|q' ps]]; cbn [app].
  - reflexivity.
  - rewrite split_ws_nl. reflexivity.
  - destruct (ps ++ [p]) eqn:K; [destruct ps; discriminate|]. destruct (ps ++ [p ++ [nl]]) eqn:K'; [destruct ps; discriminate|]. reflexivity.
Qed.
Lemma kth_last d b ls l : Forall one_line ls -> one_line l -> l <> [] -> hd_error l <> Some "c"%char ->
  read_kthlist d b (ended ls ++ l) = read_kthlist d b (ended (ls ++ [l])).
Proof.
  intros O O2 N H. unfold read_kthlist. rewrite readlines_ended, readlines_last by auto.
  rewrite <- (app_nil_r (ended (ls ++ [l]))), readlines_ended by (apply Forall_app; auto). cbn [readlines]. rewrite app_nil_r, map_app. cbn [map].
  rewrite !kth_lines_app. f_equal. destruct (kth_lines _ _ _ _) as [s| |]; auto. cbn [bind kth_lines]. rewrite kth_unended by auto. reflexivity.
Qed.
Lemma position_increasing V x y : StronglySorted Z.lt V -> In x V -> In y V -> x < y -> position_in V x < position_in V y.
Proof.
  intros SV Hx Hy L1. unfold position_in.
  assert (P : forall V k w, In w V -> k <= rank_of w V k).
  { induction V0 as [|z V0 IH]; intros k w H; [destruct H|]. cbn [rank_of]. destruct (Z.eqb_spec w z); [lia|]. destruct H as [H|H]; [congruence|]. specialize (IH (k + 1) w H). lia. }
  revert Hx Hy. generalize 1 as k. induction SV as [|z V SV IH FV]; intros k Hx Hy; [destruct Hx|]. cbn [rank_of]. rewrite Forall_forall in FV.
  destruct (Z.eqb_spec x z) as [->|N1], (Z.eqb_spec y z) as [->|N2]; try lia.
  - destruct Hy as [Hy|Hy]; [congruence|]. pose proof (P V (k + 1) y Hy). lia.
  - destruct Hx as [Hx|Hx]; [congruence|]. specialize (FV x Hx). lia.
  - destruct Hx as [Hx|Hx]; [congruence|]. destruct Hy as [Hy|Hy]; [congruence|]. auto.
Qed.
