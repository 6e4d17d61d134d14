(* PFam10.v -- graph isomorphism and automorphism *)
From Coq Require Import String Ascii ZArith List Bool Lia Arith Permutation.
From Verif Require Import Spec PyBase MSet MText MCnf MFam SpecCnf SpecFam PText PLib PCnf1 PCnf2 PFam1 PFam2 PFam3 PFam4 PFam5 PFam6 PFam7.
Import ListNotations.
Open Scope Z_scope.

Lemma iso_inj u v u' v' : iso_name u v = iso_name u' v' -> u = u' /\ v = v'.
Proof. apply name2_inj. Qed.
Definition iso_vars (G1 G2 : graph) : list text := flat_map (fun u => map (iso_name u) (g_nodes G2)) (g_nodes G1).
Lemma iso_vars_In G1 G2 u v : In u (g_nodes G1) -> In v (g_nodes G2) -> In (iso_name u v) (iso_vars G1 G2).
Proof. intros. apply in_flat_map. exists u. split; auto. apply in_map. auto. Qed.
Lemma iso_clause G1 G2 cl : simple_graph G1 -> simple_graph G2 -> In cl (iso_clauses G1 G2) ->
  clean cl /\ forall t, In t (map snd cl) -> In t (iso_vars G1 G2).
Proof.
  intros S1 S2 H. unfold iso_clauses, enumerate_vertices in H. cbv zeta in H. pose proof (sg_nodes _ S1) as N1. pose proof (sg_nodes _ S2) as N2.
  repeat (apply in_app_iff in H as [H|H]).
  - apply in_map_iff in H as (u & <- & Hu). split; [apply (same_polarity true (iso_name u)); auto; intros x y E; apply iso_inj in E; tauto|].
    intros t Ht. rewrite map_map in Ht. apply in_map_iff in Ht as (v & <- & Hv). apply iso_vars_In; auto.
  - apply in_map_iff in H as (v & <- & Hv). split; [apply (same_polarity true (fun u => iso_name u v)); auto; intros x y E; apply iso_inj in E; tauto|].
    intros t Ht. rewrite map_map in Ht. apply in_map_iff in Ht as (u & <- & Hu). apply iso_vars_In; auto.
  - apply in_flat_map in H as (u & Hu & H). apply in_map_iff in H as ([v v'] & <- & Hp). pose proof (pairs_neq _ _ _ N2 Hp). apply pairs_In in Hp as [Hv Hv']. split.
    + apply two_clean. intros E. apply iso_inj in E. cbn in E. tauto.
    + intros t [<-|[<-|[]]]; apply iso_vars_In; auto.
  - apply in_flat_map in H as (v & Hv & H). apply in_map_iff in H as ([u u'] & <- & Hp). pose proof (pairs_neq _ _ _ N1 Hp). apply pairs_In in Hp as [Hu Hu']. split.
    + apply two_clean. intros E. apply iso_inj in E. cbn in E. tauto.
    + intros t [<-|[<-|[]]]; apply iso_vars_In; auto.
  - apply in_flat_map in H as ([u u'] & Hp & H). apply in_flat_map in H as ([v v'] & Hq & H). cbn [fst snd] in H.
    pose proof (pairs_neq _ _ _ N1 Hp). pose proof (pairs_neq _ _ _ N2 Hq). apply pairs_In in Hp as [Hu Hu']. apply pairs_In in Hq as [Hv Hv'].
    destruct (negb (Bool.eqb (has_edge G1 u u') (has_edge G2 v v'))); [|destruct H]. destruct H as [<-|[<-|[]]].
    + split; [apply two_clean; intros E; apply iso_inj in E; tauto|]. intros t [<-|[<-|[]]]; apply iso_vars_In; auto.
    + split; [apply two_clean; intros E; apply iso_inj in E; tauto|]. intros t [<-|[<-|[]]]; apply iso_vars_In; auto.
Qed.
Lemma iso_built G1 G2 : simple_graph G1 -> simple_graph G2 ->
  exists c, GraphIsomorphism G1 G2 = Ok c /\ made c /\ cnf_clauses c = iso_clauses G1 G2 /\ cn_names c = with_new [] (iso_vars G1 G2).
Proof.
  intros S1 S2. apply (build_strict (iso_vars G1 G2) (iso_clauses G1 G2)).
  - intros cl H. apply (iso_clause G1 G2 cl S1 S2 H).
  - intros cl v H Hv. apply (iso_clause G1 G2 cl S1 S2 H). auto.
Qed.
Lemma auto_built g : simple_graph g ->
  exists c, GraphAutomorphism g = Ok c /\ made c /\ cnf_clauses c = iso_clauses g g ++ [map (fun u => (false, iso_name u u)) (g_nodes g)].
Proof.
  intros G. destruct (iso_built g g G G) as (c & E & M & L & N). unfold GraphAutomorphism. rewrite E. cbn [bind].
  destruct (made_strict c [map (fun u => (false, iso_name u u)) (g_nodes g)] M) as (c' & E' & M' & _ & L').
  - intros cl [<-|[]]. apply (same_polarity false (fun u => iso_name u u)); [|apply G]. intros x y E'. apply iso_inj in E'. tauto.
  - intros cl v [<-|[]] Hv. rewrite map_map in Hv. apply in_map_iff in Hv as (u & <- & Hu). rewrite N. apply with_new_In. right. apply iso_vars_In; auto.
  - cbn [add_all] in E'. apply bind_ok in E' as (c1 & E1 & E'). injection E' as <-. exists c1. rewrite L'. rewrite L. auto.
Qed.
(* the relation of an assignment is an isomorphism *)
Definition iso_good (G1 G2 : graph) (r : Z -> Z -> bool) : Prop :=
  let U := g_nodes G1 in let V := g_nodes G2 in
  (forall u, In u U -> exists v, In v V /\ r u v = true) /\
  (forall v, In v V -> exists u, In u U /\ r u v = true) /\
  (forall u v v', In u U -> In v V -> In v' V -> r u v = true -> r u v' = true -> v = v') /\
  (forall u u' v, In u U -> In u' U -> In v V -> r u v = true -> r u' v = true -> u = u') /\
  (forall u u' v v', In u U -> In u' U -> In v V -> In v' V -> u <> u' -> v <> v' -> r u v = true -> r u' v' = true -> (adjacent G1 u u' <-> adjacent G2 v v')).
Lemma has_edge_sym g u v : has_edge g u v = has_edge g v u.
Proof. unfold has_edge, is_edge. induction (g_edges g) as [|e l IH]; auto. cbn [existsb]. rewrite IH, orb_comm with (b1 := (fst e =? u) && (snd e =? v)). auto. Qed.
Lemma iso_models G1 G2 a : simple_graph G1 -> simple_graph G2 ->
  (all_hold a (iso_clauses G1 G2) <-> iso_good G1 G2 (fun u v => a (iso_name u v))).
Proof.
  intros S1 S2. pose proof (sg_nodes _ S1) as N1. pose proof (sg_nodes _ S2) as N2. unfold iso_clauses, iso_good, enumerate_vertices. cbv zeta. set (U := g_nodes G1) in *. set (V := g_nodes G2) in *.
  rewrite !all_hold_app, !all_hold_map, !all_hold_flat_map.
  assert (PAIR : forall (l : list Z) (nm : Z -> text), NoDup l ->
    (all_hold a (map (fun vv => [(false, nm (fst vv)); (false, nm (snd vv))]) (pairs l)) <-> forall x y, In x l -> In y l -> a (nm x) = true -> a (nm y) = true -> x = y)).
  { intros l nm N. rewrite all_hold_map. split.
    - intros H x y Hx Hy A B. destruct (Z.eq_dec x y) as [|NE]; auto. exfalso. destruct (pairs_total l x y Hx Hy NE) as [P|P]; specialize (H _ P); apply two_hold in H; cbn in H; intuition congruence.
    - intros H [x y] P. pose proof (pairs_neq _ _ _ N P). apply pairs_In in P as [Hx Hy]. apply two_hold. cbn [fst snd]. destruct (a (nm x)) eqn:A; auto. destruct (a (nm y)) eqn:B; auto. exfalso. auto. }
  assert (EDGE : (forall x, In x (pairs U) -> all_hold a (flat_map (fun vv => if negb (Bool.eqb (has_edge G1 (fst x) (snd x)) (has_edge G2 (fst vv) (snd vv)))
      then [[(false, iso_name (fst x) (fst vv)); (false, iso_name (snd x) (snd vv))]; [(false, iso_name (fst x) (snd vv)); (false, iso_name (snd x) (fst vv))]] else []) (pairs V))) <->
    (forall u u' v v', In u U -> In u' U -> In v V -> In v' V -> u <> u' -> v <> v' -> a (iso_name u v) = true -> a (iso_name u' v') = true -> (adjacent G1 u u' <-> adjacent G2 v v'))).
  { split.
    - intros H u u' v v' Hu Hu' Hv Hv' Nu Nv A B. rewrite <- !has_edge_ok.
      assert (K : has_edge G1 u u' = has_edge G2 v v'); [|rewrite K; tauto].
      destruct (pairs_total U u u' Hu Hu' Nu) as [P|P], (pairs_total V v v' Hv Hv' Nv) as [Q|Q]; specialize (H _ P); rewrite all_hold_flat_map in H; specialize (H _ Q); cbn [fst snd] in H;
        rewrite 1?(has_edge_sym G1 u' u) in H; rewrite 1?(has_edge_sym G2 v' v) in H;
        destruct (Bool.eqb_spec (has_edge G1 u u') (has_edge G2 v v')) as [|NE]; auto; cbn [negb] in H; exfalso; apply all_two in H as [H1 H2]; apply two_hold in H1, H2; intuition congruence.
    - intros H [u u'] P. rewrite all_hold_flat_map. intros [v v'] Q. cbn [fst snd]. pose proof (pairs_neq _ _ _ N1 P) as Nu. pose proof (pairs_neq _ _ _ N2 Q) as Nv.
      apply pairs_In in P as [Hu Hu']. apply pairs_In in Q as [Hv Hv'].
      destruct (Bool.eqb_spec (has_edge G1 u u') (has_edge G2 v v')) as [|NE]; [intros c []|]. cbn [negb].
      assert (NE' : ~ (adjacent G1 u u' <-> adjacent G2 v v')).
      { rewrite <- !has_edge_ok. intros K. apply NE. destruct (has_edge G1 u u'), (has_edge G2 v v'); intuition congruence. }
      apply all_two. split; apply two_hold.
      + destruct (a (iso_name u v)) eqn:A; auto. destruct (a (iso_name u' v')) eqn:B; auto. exfalso. apply NE'. apply H; auto.
      + destruct (a (iso_name u v')) eqn:A; auto. destruct (a (iso_name u' v)) eqn:B; auto. exfalso. apply NE'.
        assert (K : adjacent G1 u u' <-> adjacent G2 v' v) by (apply H; auto). rewrite (adjacent_sym G2 v v'). auto. }
  rewrite EDGE. split.
  - intros (A & B & C & D & E). split; [|split; [|split; [|split; [|exact E]]]].
    + intros u Hu. specialize (A u Hu). apply holds_map in A as (v & Hv & K). eauto.
    + intros v Hv. specialize (B v Hv). apply (proj1 (holds_map a true (fun u => iso_name u v) U)) in B as (u & Hu & K). eauto.
    + intros u v v' Hu Hv Hv'. apply (proj1 (PAIR V (iso_name u) N2) (C u Hu)); auto.
    + intros u u' v Hu Hu' Hv. apply (proj1 (PAIR U (fun u => iso_name u v) N1) (D v Hv)); auto.
  - intros (A & B & C & D & E). split; [|split; [|split; [|split; [|exact E]]]].
    + intros u Hu. apply holds_map. destruct (A u Hu) as (v & Hv & K). eauto.
    + intros v Hv. apply (proj2 (holds_map a true (fun u => iso_name u v) U)). destruct (B v Hv) as (u & Hu & K). eauto.
    + intros u Hu. apply (proj2 (PAIR V (iso_name u) N2)). intros; apply (C u); auto.
    + intros v Hv. apply (proj2 (PAIR U (fun u => iso_name u v) N1)). intros; apply (D x y v); auto.
Qed.
Lemma iso_function G1 G2 r : simple_graph G1 -> simple_graph G2 -> iso_good G1 G2 r ->
  exists f, isomorphism G1 G2 f /\ forall u v, In u (g_nodes G1) -> In v (g_nodes G2) -> (r u v = true <-> f u = v).
Proof.
  intros S1 S2 (A & B & C & D & E). destruct (choose_function (g_nodes G1) (fun u v => In v (g_nodes G2) /\ r u v = true) (sg_nodes _ S1) A) as (f & Hf).
  assert (R : forall u v, In u (g_nodes G1) -> In v (g_nodes G2) -> (r u v = true <-> f u = v)).
  { intros u v Hu Hv. destruct (Hf u Hu) as [H1 H2]. split; [intros K; apply (C u); auto|intros <-; auto]. }
  assert (I : forall u u', In u (g_nodes G1) -> In u' (g_nodes G1) -> f u = f u' -> u = u').
  { intros u u' Hu Hu' K. destruct (Hf u Hu), (Hf u' Hu'). apply (D u u' (f u)); auto. rewrite K. auto. }
  exists f. split; auto. split; [intros u Hu; apply Hf; auto|]. split; [exact I|]. split.
  - intros v Hv. destruct (B v Hv) as (u & Hu & K). exists u. split; auto. apply R; auto.
  - intros u u' Hu Hu'. destruct (Hf u Hu), (Hf u' Hu'). destruct (Z.eq_dec u u') as [->|NE].
    + split; intros K; exfalso; [apply (adjacent_neq _ _ _ S1 K)|apply (adjacent_neq _ _ _ S2 K)]; auto.
    + apply E; auto.
Qed.
Lemma iso_relation G1 G2 f : simple_graph G1 -> simple_graph G2 -> isomorphism G1 G2 f ->
  iso_good G1 G2 (fun u v => f u =? v).
Proof.
  intros S1 S2 (A & B & C & D). split; [|split; [|split; [|split]]].
  - intros u Hu. exists (f u). split; auto. apply Z.eqb_refl.
  - intros v Hv. destruct (C v Hv) as (u & Hu & <-). exists u. split; auto. apply Z.eqb_refl.
  - intros u v v' _ _ _. rewrite !Z.eqb_eq. congruence.
  - intros u u' v Hu Hu' _. rewrite !Z.eqb_eq. intros. apply B; auto. congruence.
  - intros u u' v v' Hu Hu' _ _ _ _. rewrite !Z.eqb_eq. intros <- <-. auto.
Qed.
Lemma iso_good_ext G1 G2 (r r' : Z -> Z -> bool) : (forall u v, In u (g_nodes G1) -> In v (g_nodes G2) -> r u v = r' u v) -> iso_good G1 G2 r -> iso_good G1 G2 r'.
Proof.
  intros X (A & B & C & D & E). split; [|split; [|split; [|split]]].
  - intros u Hu. destruct (A u Hu) as (v & Hv & K). exists v. rewrite <- X; auto.
  - intros v Hv. destruct (B v Hv) as (u & Hu & K). exists u. rewrite <- X; auto.
  - intros u v v' Hu Hv Hv'. rewrite <- !X by auto. eauto.
  - intros u u' v Hu Hu' Hv. rewrite <- !X by auto. eauto.
  - intros u u' v v' Hu Hu' Hv Hv' N N'. rewrite <- !X by auto. auto.
Qed.
Definition iso_value (G1 G2 : graph) (f : Z -> Z) : text -> bool :=
  values (fun p => iso_name (fst p) (snd p)) (list_prod (g_nodes G1) (g_nodes G2)) (fun p => f (fst p) =? snd p).
Lemma iso_value_at G1 G2 f u v : In u (g_nodes G1) -> In v (g_nodes G2) -> iso_value G1 G2 f (iso_name u v) = (f u =? v).
Proof.
  intros Hu Hv. unfold iso_value. rewrite values2_at; auto; [|apply in_prod; auto]. intros [u' v'] _ E. apply iso_inj in E as [E1 E2]. cbn in *. subst. auto.
Qed.
Lemma iso_satisfiable G1 G2 : simple_graph G1 -> simple_graph G2 -> (has_model (iso_clauses G1 G2) <-> exists f, isomorphism G1 G2 f).
Proof.
  intros S1 S2. split.
  - intros (a & H). apply iso_models in H; auto. destruct (iso_function _ _ _ S1 S2 H) as (f & F & _). eauto.
  - intros (f & F). exists (iso_value G1 G2 f). apply iso_models; auto. eapply iso_good_ext; [|apply iso_relation; eauto]. intros u v Hu Hv. cbn. symmetry. apply iso_value_at; auto.
Qed.
Lemma auto_satisfiable g : simple_graph g ->
  (has_model (iso_clauses g g ++ [map (fun u => (false, iso_name u u)) (g_nodes g)]) <->
   exists f, isomorphism g g f /\ exists u, In u (g_nodes g) /\ f u <> u).
Proof.
  intros G. split.
  - intros (a & H). apply all_hold_app in H as [H K]. apply iso_models in H; auto. destruct (iso_function _ _ _ G G H) as (f & F & R). exists f. split; auto.
    apply (proj1 (all_one _ _)) in K. apply (proj1 (holds_map a false (fun u => iso_name u u) (g_nodes g))) in K as (u & Hu & K). exists u. split; auto. intros E. apply R in E; auto. congruence.
  - intros (f & F & u & Hu & NE). exists (iso_value g g f). apply all_hold_app. split.
    + apply iso_models; auto. eapply iso_good_ext; [|apply iso_relation; eauto]. intros x v Hx Hv. cbn. symmetry. apply iso_value_at; auto.
    + apply all_one. apply (proj2 (holds_map _ false (fun u => iso_name u u) (g_nodes g))). exists u. split; auto. rewrite iso_value_at by auto. apply Z.eqb_neq. auto.
Qed.
