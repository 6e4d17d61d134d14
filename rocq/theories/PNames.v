(* PNames.v -- the variables of the formula families, in order *)
From Coq Require Import String Ascii ZArith List Bool Lia Arith Permutation Sorted.
From Verif Require Import Spec PyBase MSet MText MCnf MFam MFam2 SpecCnf SpecFam PText PLib PCnf1 PCnf2 PFam1 PFam2 PFam3 PFam4 PFam5 PFam6 PFam7 PFam8 PFam9 PFam11 PTrans1.
Import ListNotations.
Open Scope Z_scope.

Lemma names_unsafe cl c c' : add_clause_unsafe cl c = Ok c' -> cn_names c' = cn_names c.
Proof. unfold add_clause_unsafe. intros E. apply bind_ok in E as (z & _ & E). injection E as <-. reflexivity. Qed.
Lemma names_strict cl c c' : add_clause_strict cl c = Ok c' -> cn_names c' = cn_names c.
Proof.
  unfold add_clause_strict, add_clause_with. cbn [negb andb]. destruct (repeated cl); [discriminate|]. destruct (opposite cl); [discriminate|].
  destruct (compress_clause (cn_names c) cl); intros E; try discriminate. injection E as <-. reflexivity.
Qed.
Lemma names_all add cls c c' : (forall cl c c', add cl c = Ok c' -> cn_names c' = cn_names c) -> add_all add cls c = Ok c' -> cn_names c' = cn_names c.
Proof.
  intros H. revert c. induction cls as [|cl t IH]; intros c E; cbn [add_all] in E; [congruence|].
  apply bind_ok in E as (c1 & E1 & E). rewrite (IH _ E). eauto.
Qed.
Lemma names_vars vs : NoDup vs -> cn_names (add_variables vs empty_cnf) = vs.
Proof. intros N. rewrite add_variables_names. cbn [cn_names empty_cnf]. rewrite with_new_distinct; auto. Qed.
Lemma names_build_strict vs cls c : build add_clause_strict vs cls = Ok c -> NoDup vs -> cn_names c = vs.
Proof. intros E N. rewrite (names_all _ _ _ _ names_strict E). apply names_vars; auto. Qed.
Lemma names_build_unsafe vs cls c : build add_clause_unsafe vs cls = Ok c -> NoDup vs -> cn_names c = vs.
Proof. intros E N. rewrite (names_all _ _ _ _ names_unsafe E). apply names_vars; auto. Qed.
(* names of two parameters, row by row *)
Lemma NoDup_name2 p (l : list Z) (f : Z -> list Z) : NoDup l -> (forall x, In x l -> NoDup (f x)) -> NoDup (flat_map (fun x => map (name2 p x) (f x)) l).
Proof.
  intros N F. apply flat_map_NoDup; auto.
  - intros x Hx. apply FinFun.Injective_map_NoDup; auto. intros i j E. apply name2_inj in E. tauto.
  - intros x y b _ _ Hx Hy. apply in_map_iff in Hx as (i & <- & _). apply in_map_iff in Hy as (j & E & _). apply name2_inj in E. intuition.
Qed.
(* the same by columns *)
Lemma NoDup_name2' p (l : list Z) (f : Z -> list Z) : NoDup l -> (forall x, In x l -> NoDup (f x)) -> NoDup (flat_map (fun x => map (fun y => name2 p y x) (f x)) l).
Proof.
  intros N F. apply flat_map_NoDup; auto.
  - intros x Hx. apply FinFun.Injective_map_NoDup; auto. intros i j E. apply name2_inj in E. tauto.
  - intros x y b _ _ Hx Hy. apply in_map_iff in Hx as (i & <- & _). apply in_map_iff in Hy as (j & E & _). apply name2_inj in E. intuition.
Qed.
Lemma NoDup_name1 p (l : list Z) : NoDup l -> NoDup (map (name1 p) l).
Proof. intros N. apply FinFun.Injective_map_NoDup; auto. intros i j E. apply name1_inj in E. auto. Qed.

(* pairs and ordered pairs as double loops *)
Lemma pairs_loops {A B} (f : A -> A -> B) d (l : list A) :
  map (fun e => f (fst e) (snd e)) (pairs l) = flat_map (fun i => map (f (nth i l d)) (skipn (S i) l)) (seq 0 (List.length l)).
Proof.
  induction l as [|x l IH]; [reflexivity|]. cbn [pairs List.length seq flat_map]. rewrite map_app, map_map. cbn [fst snd nth skipn]. f_equal.
  rewrite IH, <- seq_shift, flat_map_concat_map, flat_map_concat_map, map_map. reflexivity.
Qed.
Lemma pairs_range {B} (f : Z -> Z -> B) a b :
  map (fun e => f (fst e) (snd e)) (pairs (range a b)) = flat_map (fun u => map (f u) (range (u + 1) b)) (range a b).
Proof.
  remember (Z.to_nat (b - a)) as n. revert a Heqn. induction n as [|n IH]; intros a H.
  - unfold range at 1 3. rewrite <- H. reflexivity.
  - assert (R : range a b = a :: range (a + 1) b).
    { unfold range at 1. rewrite <- H. cbn [seq map]. f_equal; [lia|]. unfold range. replace (Z.to_nat (b - (a + 1))) with n by lia.
      rewrite <- seq_shift, map_map. apply map_ext. intros. lia. }
    rewrite R. cbn [pairs flat_map]. rewrite map_app, map_map. cbn [fst snd]. rewrite IH by lia. reflexivity.
Qed.
Lemma filter_all {A} (f : A -> bool) l : (forall x, In x l -> f x = true) -> filter f l = l.
Proof. induction l as [|x l IH]; intros H; cbn [filter]; auto. rewrite H by (left; auto). f_equal. apply IH. intros; apply H; right; auto. Qed.
Lemma selections_rest (l : list Z) : NoDup l -> selections l = map (fun x => (x, filter (fun y => negb (y =? x)) l)) l.
Proof.
  induction 1 as [|x l N ND IH]; [reflexivity|]. cbn [selections map filter]. rewrite Z.eqb_refl. cbn [negb]. f_equal.
  - rewrite filter_all; auto. intros y Hy. destruct (Z.eqb_spec y x); [subst; contradiction|auto].
  - rewrite IH, map_map. cbn [fst snd]. apply map_ext_in. intros y Hy. destruct (Z.eqb_spec x y); [subst; contradiction|auto].
Qed.
Lemma permutations2_loops {B} (f : Z -> Z -> B) (l : list Z) : NoDup l ->
  map (fun e => f (fst e) (snd e)) (permutations2 l) = flat_map (fun u => map (f u) (filter (fun v => negb (v =? u)) l)) l.
Proof.
  intros N. unfold permutations2. rewrite selections_rest by auto. rewrite !flat_map_concat_map, concat_map, !map_map. f_equal. apply map_ext. intros u.
  rewrite map_map. reflexivity.
Qed.

(* dominating sets *)
Lemma dom_vars g d alt cl v : simple_graph g -> In cl (dom_clauses g d alt) -> In v (map snd cl) ->
  In v (map dom_D (g_nodes g) ++ flat_map (fun i => map (fun v => dom_M v i) (g_nodes g)) (range 1 (d + 1))).
Proof.
  intros G H Hv.
  assert (KD : forall u, In u (g_nodes g) -> In (dom_D u) (map dom_D (g_nodes g) ++ flat_map (fun i => map (fun v => dom_M v i) (g_nodes g)) (range 1 (d + 1)))).
  { intros u Hu. apply in_app_iff. left. apply in_map. auto. }
  assert (KM : forall u i, In u (g_nodes g) -> In i (range 1 (d + 1)) -> In (dom_M u i) (map dom_D (g_nodes g) ++ flat_map (fun i => map (fun v => dom_M v i) (g_nodes g)) (range 1 (d + 1)))).
  { intros u i Hu Hi. apply in_app_iff. right. apply in_flat_map. exists i. split; auto. apply (in_map (fun v => dom_M v i)). auto. }
  unfold dom_clauses in H. cbv zeta in H. repeat (apply in_app_iff in H as [H|H]).
  - destruct alt.
    + apply in_flat_map in H as ([x y] & Hp & H). apply in_map_iff in H as (i & <- & Hi). apply pairs_In in Hp as [Hx Hy]. cbn [map fst snd In] in Hv. intuition (subst; auto).
    + apply in_flat_map in H as (i & Hi & H). apply inequality_vars with (v := v) in H; auto. apply in_map_iff in H as (u & <- & Hu). auto.
  - destruct alt.
    + apply in_flat_map in H as (x & Hx & H). apply in_map_iff in H as ([i j] & <- & Hp). apply pairs_In in Hp as [Hi Hj]. cbn [map fst snd In] in Hv. intuition (subst; auto).
    + apply in_flat_map in H as ([i j] & Hi & H). apply in_map_iff in H as ([x y] & <- & Hp). apply pairs_In in Hp as [Hx Hy].
      apply (proj1 (replacement_In _ _ _ (range_sorted _ _))) in Hi as (Hi & Hj & _). cbn [map fst snd In] in Hv.
      assert (In (Z.max x y) (g_nodes g) /\ In (Z.min x y) (g_nodes g)) as [A B] by (destruct (Z.max_spec x y) as [[? ->]|[? ->]], (Z.min_spec x y) as [[? ->]|[? ->]]; auto).
      assert (In (Z.max i j) (range 1 (d + 1)) /\ In (Z.min i j) (range 1 (d + 1))) as [C D] by (destruct (Z.max_spec i j) as [[? ->]|[? ->]], (Z.min_spec i j) as [[? ->]|[? ->]]; auto).
      intuition (subst; auto).
  - destruct alt; [destruct H|]. apply in_flat_map in H as (i & Hi & H). apply in_map_iff in H as (x & <- & Hx). cbn [map fst snd In] in Hv. intuition (subst; auto).
  - apply in_map_iff in H as (x & <- & Hx). cbn [map snd In] in Hv. rewrite map_map in Hv. cbn [snd] in Hv. destruct Hv as [<-|Hv]; auto. apply in_map_iff in Hv as (i & <- & Hi). auto.
  - apply in_map_iff in H as (n & <- & Hn). apply (Permutation_in _ (sort_by_Perm list_ltb _)) in Hn. apply (proj1 (set_of_In _ _)) in Hn. apply in_map_iff in Hn as (x & <- & Hx).
    rewrite map_map in Hv. cbn [snd] in Hv. apply in_map_iff in Hv as (u & <- & Hu). apply KD. apply (proj1 (closed_In g u x G)) in Hu as [->|Hu]; auto.
    destruct Hu as [Hu|Hu]; apply (sg_ends g G) in Hu; tauto.
Qed.
Lemma dom_names g d alt c : simple_graph g -> DominatingSet g d alt = Ok c ->
  cn_names c = map dom_D (g_nodes g) ++ flat_map (fun i => map (fun v => dom_M v i) (g_nodes g)) (range 1 (d + 1)).
Proof.
  intros G E. unfold DominatingSet in E. cbv zeta in E. unfold enumerate_vertices in E.
  destruct (add_all_plain (dom_clauses g d alt) (add_variables (map dom_D (g_nodes g) ++ flat_map (fun i => map (fun v => dom_M v i) (g_nodes g)) (range 1 (d + 1))) empty_cnf)) as (c' & E' & W & N & C).
  - apply vars_well.
  - intros cl. apply dom_clean. auto.
  - assert (c' = c) by (unfold dom_clauses in E'; cbv zeta in E'; congruence). subst c'. rewrite N. rewrite names_vars.
    + apply with_new_known. intros v Hv. apply in_map_iff in Hv as ([p w] & <- & Hv). apply in_concat in Hv as (cl & Hc & Hv). apply (dom_vars g d alt cl); auto.
      apply in_map_iff. exists (p, w). auto.
    + apply NoDup_app_intro.
      * apply NoDup_name1. apply sg_nodes; auto.
      * apply NoDup_name2'; [apply range_NoDup|intros; apply sg_nodes; auto].
      * intros x A B. apply in_map_iff in A as (u & <- & _). apply in_flat_map in B as (i & _ & B). apply in_map_iff in B as (w & B & _). discriminate B.
Qed.
(* colouring *)
Lemma col_vertices_names colors f : NoDup colors -> forall vs c c', made c -> coloring_vertices colors f vs c = Ok c' ->
  cn_names c' = with_new (cn_names c) (flat_map (fun v => map (col_name v) colors) vs).
Proof.
  intros N. induction vs as [|v t IH]; intros c c' M E; cbn [coloring_vertices flat_map] in *; [injection E as <-; reflexivity|].
  apply bind_ok in E as (c1 & E1 & E). apply bind_ok in E as (c2 & E2 & E). rewrite with_new_app.
  assert (E1a : add_all cnf_add_clause [map (fun k => (true, col_name v k)) colors] c = Ok c1) by (cbn [add_all]; rewrite E1; reflexivity).
  destruct (add_all_plain [map (fun k => (true, col_name v k)) colors] c (made_well c M)) as (c1' & E1' & _ & N1 & _).
  { intros cl [<-|[]]. eapply (col_vertex_clean colors f v); auto. left; auto. }
  assert (c1' = c1) by congruence. subst c1'. cbn [concat] in N1. rewrite app_nil_r, map_map in N1. cbn [snd] in N1.
  assert (M1 : made c1) by (eapply plain_made; eauto).
  assert (M2 : made c2 /\ cn_names c2 = cn_names c1).
  { destruct f; [|injection E2 as <-; auto]. split; [eapply add_all_made; [apply strict_made|exact M1|exact E2]|apply (names_all _ _ _ _ names_strict E2)]. }
  destruct M2 as [M2 N2]. rewrite (IH _ _ M2 E), N2, N1. reflexivity.
Qed.
Lemma col_names g colors f c : simple_graph g -> NoDup colors -> GraphColoringFormula g colors f = Ok c ->
  cn_names c = flat_map (fun v => map (col_name v) colors) (g_nodes g).
Proof.
  intros G N E. unfold GraphColoringFormula in E. apply bind_ok in E as (c1 & E1 & E). rewrite (names_all _ _ _ _ names_strict E).
  rewrite (col_vertices_names colors f N _ _ _ made_empty E1). cbn [cn_names empty_cnf]. rewrite with_new_distinct; auto.
  apply NoDup_name2; [apply sg_nodes; auto|auto].
Qed.
Lemma edge_names_NoDup g : simple_graph g -> NoDup (map (fun e => edge_name (fst e) (snd e)) (g_edges g)).
Proof.
  intros G. apply NoDup_map_in; [apply sg_edges; auto|]. intros [x y] [x' y'] H H' E. cbn [fst snd] in E. apply edge_name_inj in E as [[-> ->]|[-> ->]]; auto.
  exfalso. apply (sg_once g G _ _ H'). auto.
Qed.
Lemma even_names g c : simple_graph g -> EvenColoringFormula g = Ok c -> cn_names c = map (fun e => edge_name (fst e) (snd e)) (g_edges g).
Proof.
  intros G E. unfold EvenColoringFormula in E.
  assert (X : forall vs c c', even_vertices g vs c = Ok c' -> cn_names c' = cn_names c).
  { induction vs as [|v t IH]; intros c1 c2 E1; cbn [even_vertices] in E1; [congruence|]. destruct (degree g v mod 2 =? 1); [discriminate|].
    apply bind_ok in E1 as (c3 & E3 & E1). rewrite (IH _ _ E1). apply (names_all _ _ _ _ names_strict E3). }
  rewrite (X _ _ _ E). apply names_vars. apply edge_names_NoDup; auto.
Qed.
(* edges sorted by their ends *)
Lemma tse_sorted g : simple_graph g ->
  StronglySorted (fun e f => Z.min (fst e) (snd e) < Z.min (fst f) (snd f) \/
         (Z.min (fst e) (snd e) = Z.min (fst f) (snd f) /\ Z.max (fst e) (snd e) < Z.max (fst f) (snd f)))
    (sort_by (fun a b => edge_ltb (sorted_pair a) (sorted_pair b)) (g_edges g)).
Proof.
  intros G. set (lt := fun a b => edge_ltb (sorted_pair a) (sorted_pair b)).
  assert (P : Permutation (sort_by lt (g_edges g)) (g_edges g)) by apply sort_by_Perm.
  assert (ND : NoDup (sort_by lt (g_edges g))) by (eapply Permutation_NoDup; [symmetry; exact P|apply sg_edges; auto]).
  assert (I : forall e, In e (sort_by lt (g_edges g)) -> In e (g_edges g)) by (intros e; apply Permutation_in; auto).
  assert (LT : forall e f, lt e f = true <-> (Z.min (fst e) (snd e) < Z.min (fst f) (snd f) \/
         (Z.min (fst e) (snd e) = Z.min (fst f) (snd f) /\ Z.max (fst e) (snd e) < Z.max (fst f) (snd f)))).
  { intros e f. unfold lt, edge_ltb, sorted_pair. cbn [fst snd]. rewrite orb_true_iff, andb_true_iff, !Z.ltb_lt, Z.eqb_eq. tauto. }
  assert (LF : forall e f, lt e f = false <-> ~ (Z.min (fst e) (snd e) < Z.min (fst f) (snd f) \/
         (Z.min (fst e) (snd e) = Z.min (fst f) (snd f) /\ Z.max (fst e) (snd e) < Z.max (fst f) (snd f)))).
  { intros e f. rewrite <- LT. destruct (lt e f); split; congruence. }
  assert (S : StronglySorted (le_of lt) (sort_by lt (g_edges g))).
  { apply sort_by_sorted; [intros x y H; apply LF; apply LT in H; lia|]. intros x y z H1 H2. apply LF in H1, H2. apply LF. lia. }
  clear P. induction S as [|e l S IH F]; constructor.
  - inversion ND; subst. apply IH; auto. intros; apply I; right; auto.
  - rewrite Forall_forall in *. intros f Hf. specialize (F f Hf). unfold le_of in F. apply LF in F.
    pose proof (I e (or_introl eq_refl)) as He. pose proof (I f (or_intror Hf)) as Hf'. inversion ND as [|? ? N1 _]; subst.
    destruct e as [x y], f as [x' y']. cbn [fst snd] in *.
    assert (~ (x = x' /\ y = y')) by (intros [-> ->]; auto). assert (~ (x = y' /\ y = x')) by (intros [-> ->]; apply (sg_once g G _ _ He); auto). lia.
Qed.
