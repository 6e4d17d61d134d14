(* PP19.v -- isomorphism and Tseitin formulas of the bundled generator (C74-C75): statements and proofs. *)
From Coq Require Import String Ascii ZArith List Bool Lia Sorted.
From Verif Require Import Spec PyBase MSet MText MGen MCnf MFam SpecCnf SpecFam PLib PCnf1 PCnf2 PFam1 PFam2 PFam3 PFam4 PFam5 PFam6 PFam7 PFam9 PFam10 PFam11.
Import ListNotations.
Open Scope Z_scope.

(* C74: GraphIsomorphism(G1, G2): always a formula; the models are the isomorphisms, x_{u,v} meaning that u is
   mapped to v *)
Lemma p_C74_isomorphism : forall G1 G2, simple_graph G1 -> simple_graph G2 ->
  exists c, GraphIsomorphism G1 G2 = Ok c /\ made c /\
    (forall a, all_hold a (cnf_clauses c) -> exists f, isomorphism G1 G2 f /\
       forall u v, In u (g_nodes G1) -> In v (g_nodes G2) -> (a (name2 (txt "x_{") u v) = true <-> f u = v)) /\
    (forall f, isomorphism G1 G2 f -> exists a, all_hold a (cnf_clauses c) /\
       forall u v, In u (g_nodes G1) -> In v (g_nodes G2) -> (a (name2 (txt "x_{") u v) = true <-> f u = v)).
Proof.
  intros G1 G2 S1 S2. destruct (iso_built G1 G2 S1 S2) as (c & E & M & L & _). exists c. split; auto. split; auto. rewrite L. split.
  - intros a H. apply iso_models in H; auto. destruct (iso_function _ _ _ S1 S2 H) as (f & F & R). exists f. split; auto.
  - intros f F. exists (iso_value G1 G2 f). split.
    + apply iso_models; auto. eapply iso_good_ext; [|apply iso_relation; eauto]. intros u v Hu Hv. cbn. symmetry. apply iso_value_at; auto.
    + intros u v Hu Hv. pose proof (iso_value_at G1 G2 f u v Hu Hv) as K. unfold iso_name in K. rewrite K. apply Z.eqb_eq.
Qed.
(* C74: GraphAutomorphism(G): satisfiable exactly when the graph has an automorphism that moves a vertex *)
Lemma p_C74_automorphism : forall g, simple_graph g ->
  exists c, GraphAutomorphism g = Ok c /\ made c /\
    (has_model (cnf_clauses c) <-> exists f, isomorphism g g f /\ exists u, In u (g_nodes g) /\ f u <> u).
Proof.
  intros g G. destruct (auto_built g G) as (c & E & M & L). exists c. split; auto. split; auto. rewrite L. apply auto_satisfiable. auto.
Qed.
(*EX
(* a path, written twice *)
Definition path_a : graph := mkGraph [0; 1; 2] [(0, 1); (1, 2)].
Definition path_b : graph := mkGraph [5; 6; 7] [(5, 6); (5, 7)].
Example C74_applies :
  simple_graph path_a /\ simple_graph path_b /\
  (exists c, GraphIsomorphism path_a path_b = Ok c /\ has_model (cnf_clauses c)) /\
  (exists c, GraphAutomorphism path_a = Ok c /\ has_model (cnf_clauses c)) /\
  (exists c, GraphAutomorphism (mkGraph [3] []) = Ok c /\ ~ has_model (cnf_clauses c)).
Proof.
  assert (G : simple_graph path_a /\ simple_graph path_b).
  { split; constructor; cbn [path_a path_b g_nodes g_edges].
    1, 5: repeat (constructor; [cbn; intuition lia|]); constructor.
    1, 4: repeat (constructor; [cbn; intuition congruence|]); constructor.
    1, 3: intros u v H K; cbn in H, K; intuition congruence.
    all: intros u v H; cbn in H |- *; intuition congruence. }
  destruct G as [G1 G2]. split; [exact G1|]. split; [exact G2|]. split; [|split].
  - destruct (C74_isomorphism path_a path_b G1 G2) as (c & E & _ & _ & S). exists c. split; auto.
    destruct (S (fun u => if u =? 0 then 6 else if u =? 1 then 5 else 7)) as (a & H & _); [|exists a; exact H].
    split; [|split; [|split]].
    + intros u Hu. cbn in Hu |- *. intuition (subst; cbn; auto).
    + intros u u' Hu Hu' K. cbn [path_a g_nodes In] in *. destruct Hu as [<-|[<-|[<-|[]]]], Hu' as [<-|[<-|[<-|[]]]]; vm_compute in K; (discriminate K || reflexivity).
    + intros v Hv. cbn in Hv. destruct Hv as [<-|[<-|[<-|[]]]]; [exists 1|exists 0|exists 2]; cbn; auto.
    + intros u u' Hu Hu'. rewrite <- !PFam5.has_edge_ok. cbn [path_a path_b g_nodes In] in *.
      destruct Hu as [<-|[<-|[<-|[]]]], Hu' as [<-|[<-|[<-|[]]]]; vm_compute; split; intros K; (discriminate K || reflexivity).
  - destruct (C74_automorphism path_a G1) as (c & E & _ & S). exists c. split; auto. apply S. exists (fun u => 2 - u). split; [|exists 0; cbn; split; auto; lia].
    split; [|split; [|split]].
    + intros u Hu. cbn in Hu |- *. intuition (subst; cbn; auto).
    + intros u u' _ _ K. lia.
    + intros v Hv. exists (2 - v). split; [|lia]. cbn in Hv |- *. intuition (subst; cbn; auto).
    + intros u u' Hu Hu'. rewrite <- !PFam5.has_edge_ok. cbn [path_a path_b g_nodes In] in *.
      destruct Hu as [<-|[<-|[<-|[]]]], Hu' as [<-|[<-|[<-|[]]]]; vm_compute; split; intros K; (discriminate K || reflexivity).
  - destruct (C74_automorphism (mkGraph [3] [])) as (c & E & _ & S).
    { constructor; cbn; [constructor; [intros []|constructor]|constructor|intros u v []|intros u v []]. }
    exists c. split; auto. intros K. apply S in K as (f & (A & _) & u & Hu & NE). cbn in *. destruct Hu as [<-|[]]. destruct (A 3) as [K|[]]; auto.
Qed.
EX*)

(* C75: TseitinFormula(G, charges): always a formula; a model selects edges so that the number at the i-th vertex
   has the parity of the i-th charge (missing charges are even; without charges only the first vertex is odd) *)
Lemma p_C75_tseitin_models : forall g charges, simple_graph g ->
  exists c, TseitinFormula g charges = Ok c /\ made c /\
    forall a, all_hold a (cnf_clauses c) <->
      forall i v, nth_error (g_nodes g) i = Some v ->
        how_many (fun u => a (tse_name g u v)) (neighbors g v) mod 2 = if charge_at charges i then 1 else 0.
Proof.
  intros g ch G. destruct (tse_built g ch G) as (c & E & M & L). exists c. split; auto. split; auto. intros a. rewrite L, tse_models by auto. split.
  - intros H i v K. apply H. apply tse_charges_ok. exists i. auto.
  - intros H v k K. apply tse_charges_ok in K as (i & K & ->). apply (H i v K).
Qed.
(* C75: it is satisfiable exactly when every set of vertices closed under adjacency -- every component -- has an
   even number of odd vertices *)
Lemma p_C75_tseitin_satisfiable : forall g charges, simple_graph g ->
  exists c, TseitinFormula g charges = Ok c /\
    (has_model (cnf_clauses c) <->
     forall l odd, NoDup l -> incl l (g_nodes g) -> (forall u w, In u l -> adjacent g u w -> In w l) ->
       NoDup odd -> (forall v, In v odd <-> In v l /\ odd_vertex g charges v) -> Z.of_nat (List.length odd) mod 2 = 0).
Proof.
  intros g ch G. destruct (tse_built g ch G) as (c & E & M & L). exists c. split; auto. rewrite L. apply tse_satisfiable. auto.
Qed.
(* C75: with the default charges it has no model as soon as there is a vertex *)
Lemma p_C75_tseitin_default : forall g, simple_graph g ->
  exists c, TseitinFormula g None = Ok c /\ (has_model (cnf_clauses c) <-> g_nodes g = []).
Proof.
  intros g G. destruct (tse_built g None G) as (c & E & M & L). exists c. split; auto. rewrite L, tse_satisfiable by auto. split.
  - intros H. destruct (g_nodes g) as [|v t] eqn:K; auto. exfalso. specialize (H (g_nodes g) [v]). rewrite K in H.
    assert (X : Z.of_nat (List.length [v]) mod 2 = 0); [|discriminate]. pose proof (sg_nodes g G) as N. rewrite K in N. apply H; auto.
    + apply incl_refl.
    + intros u w Hu A. rewrite <- K. apply (adjacent_nodes g u w G A).
    + constructor; [intros []|constructor].
    + intros x. split.
      * intros [<-|[]]. split; [left; auto|]. exists 0%nat. rewrite K. auto.
      * intros (_ & i & E1 & E2). cbn [charge_at] in E2. apply PeanoNat.Nat.eqb_eq in E2. subst i. rewrite K in E1. cbn in E1. injection E1 as ->. left; auto.
  - intros K l odd _ I _ _ O. destruct odd as [|v odd]; auto. exfalso. destruct (proj1 (O v) (or_introl eq_refl)) as [Hl _]. apply I in Hl. rewrite K in Hl. auto.
Qed.
(*EX
Definition triangle : graph := mkGraph [0; 1; 2] [(0, 1); (1, 2); (2, 0)].
Definition triangle_choice (t : text) : bool := text_eqb t (name2 (txt "E_{") 1 2).
Example C75_applies :
  simple_graph triangle /\
  (exists c, TseitinFormula triangle None = Ok c /\ ~ has_model (cnf_clauses c)) /\
  (exists c, TseitinFormula triangle (Some [0; 1; 7]) = Ok c /\ has_model (cnf_clauses c)).
Proof.
  assert (G : simple_graph triangle).
  { constructor; cbn [triangle g_nodes g_edges].
    - repeat (constructor; [cbn; intuition lia|]); constructor.
    - repeat (constructor; [cbn; intuition congruence|]); constructor.
    - intros u v H K; cbn in H, K; intuition congruence.
    - intros u v H; cbn in H |- *; intuition congruence. }
  split; [exact G|]. split.
  - destruct (C75_tseitin_default triangle G) as (c & E & S). exists c. split; auto. rewrite S. discriminate.
  - destruct (C75_tseitin_models triangle (Some [0; 1; 7]) G) as (c & E & _ & S). exists c. split; auto. exists triangle_choice. apply S.
    intros i v H. destruct i as [|[|[|i]]]; cbn in H; [..|destruct i; discriminate]; injection H as <-; vm_compute; reflexivity.
Qed.
EX*)
