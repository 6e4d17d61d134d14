(* PGenCmd3.v -- the transformations and the file that the command line of the bundled generator writes. *)
From Coq Require Import String Ascii ZArith List Bool Lia Arith Sorted Permutation.
From Verif Require Import Spec SpecInput SpecFile SpecSat PyBase MSet MText MCnf MFam MFam2 MFile MTrans MTool MGraph MGenCmd SpecCnf SpecFam SpecFam2 SpecTrans SpecTool SpecGraph SpecGenCmd.
From Verif Require Import PLib PCnf1 PCnf2 PFile2 PTool4 PP21.
Import ListNotations.
Open Scope Z_scope.

Lemma flipped_model F a : all_hold a (map (map (fun l : bool * text => (negb (fst l), snd l))) F) <-> all_hold (fun v => negb (a v)) F.
Proof.
  unfold all_hold. split.
  - intros H cl I. destruct (H _ (in_map _ _ _ I)) as (p & v & K & E). apply in_map_iff in K as ([q w] & Q & K). cbn [fst snd] in Q. injection Q as Q1 Q2. subst w. exists q, v.
    split; [exact K|]. destruct q, p, (a v); cbn in *; congruence.
  - intros H cl' I. apply in_map_iff in I as (cl & <- & I). destruct (H cl I) as (p & v & K & E). exists (negb p), v. split; [apply in_map_iff; exists (p, v); auto|].
    rewrite <- E. destruct (a v); reflexivity.
Qed.
Lemma kept_one t h c : keeps t -> made c -> exists c', apply_transformation (Some t) (h, c) = Gives (transform_header t h, c') /\ made c' /\
  (has_model (cnf_clauses c') <-> has_model (cnf_clauses c)).
Proof.
  intros (NC & P) M. cbn [apply_transformation fst snd].
  assert (D : forall (F : cnf) r, r = Ok F -> andthen (plain r) (fun c0 => Gives (transform_header t h, c0)) = Gives (transform_header t h, F)) by (intros F r ->; reflexivity).
  destruct t as [|k|k|k|k|k| |k|k| |b|b|s]; cbn [proper] in P; cbn [transform].
  - exists c. split; [reflexivity|]. tauto.
  - destruct (p_C79_or c k M) as (F & E & [R _ _] & FA). exists F. rewrite (D F _ E). split; auto. split; auto. apply (FA P).
  - destruct (p_C79_xor c k M) as (F & E & [R _ _] & FA). exists F. rewrite (D F _ E). split; auto. split; auto. apply (FA P).
  - destruct (p_C79_all_equal c k M) as (F & E & [R _ _] & FA). exists F. rewrite (D F _ E). split; auto. split; auto. apply (FA P).
  - destruct (p_C79_not_all_equal c k M) as (F & E & [R _ _] & FA). exists F. rewrite (D F _ E). split; auto. split; auto. apply (FA P).
  - destruct (p_C79_majority c k M) as (F & E & [R _ _] & FA). exists F. rewrite (D F _ E). split; auto. split; auto. apply (FA P).
  - destruct (p_C79_if_then_else c M) as (F & E & [R _ _] & FA). exists F. rewrite (D F _ E). split; auto. split; auto. apply FA.
  - destruct (p_C79_exactly_one c k M) as (F & E & [R _ _] & FA). exists F. rewrite (D F _ E). split; auto. split; auto. apply (FA P).
  - destruct (p_C79_lifting c k M) as (F & E & R & _ & _ & FA). exists F. rewrite (D F _ E). split; auto.
  - destruct (p_C79_flip c M) as (F & E & R & _ & X). exists F. rewrite (D F _ E). split; auto. split; auto. rewrite X. split; intros (a & A).
    + exists (fun v => negb (a v)). apply flipped_model. exact A.
    + exists (fun v => negb (a v)). apply flipped_model. intros cl I. destruct (A cl I) as (p & v & K & Ev). exists p, v. split; auto. rewrite negb_involutive. exact Ev.
  - exfalso. apply NC. exists b. auto.
  - exfalso. apply NC. exists b. auto.
  - destruct (p_C80_shuffle c (the_permutation s (cn_names c)) (if sh_no_clauses s then range 0 (Z.of_nat (List.length (cn_clauses c))) else sh_clauses s (range 0 (Z.of_nat (List.length (cn_clauses c))))) (the_flips s (cn_names c)) M) as (F & E & R & _ & _ & _ & X).
    + unfold the_permutation. destruct (sh_no_variables s); [reflexivity|apply P].
    + unfold the_flips. destruct (sh_no_flips s); [apply repeat_length|rewrite map_length, seq_length; reflexivity].
    + unfold the_flips. intros x Hx. destruct (sh_no_flips s); [apply repeat_spec in Hx; auto|]. apply in_map_iff in Hx as (i & <- & _). apply P.
    + replace (List.length (cnf_clauses c)) with (List.length (cn_clauses c)) by (unfold cnf_clauses; rewrite map_length; reflexivity). destruct (sh_no_clauses s); [reflexivity|apply P].
    + exists F. split; [|auto]. apply D. exact E.
Qed.
Definition final_header (ts : list transformation) (h : text) : text := fold_left (fun h t => transform_header t h) ts h.
Lemma kept_all ts : forall h c, Forall keeps ts -> made c -> exists c', apply_transformations (map Some ts) (h, c) = Gives (final_header ts h, c') /\ made c' /\
  (has_model (cnf_clauses c') <-> has_model (cnf_clauses c)).
Proof.
  induction ts as [|t ts IH]; intros h c K M; [exists c; cbn; tauto|]. inversion K as [|x l K1 K2]; subst. destruct (kept_one t h c K1 M) as (c1 & E1 & M1 & H1).
  destruct (IH (transform_header t h) c1 K2 M1) as (c2 & E2 & M2 & H2). exists c2. cbn [map apply_transformations]. rewrite E1. cbn [andthen]. split; [exact E2|]. split; auto. rewrite H2. exact H1.
Qed.
Lemma printed v h w c : made c -> dimacs_text (cnfgen_file v h w c) (count (cn_names c)) (cn_clauses c) /\ (satisfiable (cn_clauses c) <-> has_model (cnf_clauses c)).
Proof.
  intros M. pose proof (made_well c M) as W. split; [|apply same_satisfiable; auto]. destruct W as [N W]. unfold cnfgen_file. set (e := Some _).
  assert (X : exists extra, Forall (eq []) extra /\ dimacs v h e c ++ [newline] = ended (written v h e c ++ extra)).
  { destruct (cn_clauses c) as [|x F] eqn:E.
    - exists [[]]. split; [repeat constructor|]. rewrite dimacs_empty by auto. rewrite ended_app. reflexivity.
    - exists []. split; [constructor|]. rewrite app_nil_r. apply dimacs_some. congruence. }
  destruct X as (extra & X & ->). exists (written v h e c ++ extra), (read_header v h e). split; [|split; [left; reflexivity|split; [exact W|apply written_formula; auto]]].
  apply Forall_app. split; [apply written_one|]. eapply Forall_impl; [|exact X]. intros a <-. intros [].
Qed.
