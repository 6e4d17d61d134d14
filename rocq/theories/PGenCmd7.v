(* PGenCmd7.v -- the command line of the bundled generator: outcomes. *)
From Coq Require Import String Ascii ZArith List Bool Lia Arith Sorted Permutation.
From Verif Require Import Spec SpecInput SpecFile SpecSat PyBase MSet MText MCnf MFam MFam2 MFile MTrans MTool MGraph MGenCmd SpecCnf SpecFam SpecFam2 SpecTrans SpecTool SpecGraph SpecGenCmd.
From Verif Require Import PLib PCnf1 PCnf2 PFam1 PFam2 PFam4 PP25 PP26 PGenCmd1 PGenCmd2 PGenCmd3 PGenCmd4 PGenCmd5 PGenCmd6.
Import ListNotations.
Open Scope Z_scope.

Definition run_checked (l : parsed_line) : outcome unit := match pl_generator l with Some g => check_generator g | None => Gives tt end.
Lemma ran E pl pt header prog w0 ws l ts input : understood pl pt prog w0 ws l ts ->
  cnfgen E pl pt header (typed prog w0 ws) input = andthen (run_checked l) (fun _ => cnfgen_parsed E header l ts (w0 ++ concat (map (cons (txt "-T")) ws)) input).
Proof.
  intros [N F P T]. unfold cnfgen, typed. rewrite (split_line (txt "-T") (prog :: w0) ws N F). cbn [hd tl]. rewrite P. cbn [andthen]. fold (run_checked l).
  destruct (run_checked l); cbn [andthen]; auto. rewrite (each_ok pt ws ts T). reflexivity.
Qed.
Lemma not_generated E pl pt header prog w0 ws l ts input (o : outcome cnf) : understood pl pt prog w0 ws l ts -> run_checked l = Gives tt ->
  generate E (pl_generator l) input = o -> (forall c, o <> Gives c) ->
  cnfgen E pl pt header (typed prog w0 ws) input = match o with Gives _ => Runs | Exits s => Exits s | Raises e => Raises e | Runs => Runs end.
Proof. intros U C G N. rewrite (ran E pl pt header prog w0 ws l ts input U), C. cbn [andthen]. unfold cnfgen_parsed. rewrite G. destruct o; auto. exfalso. apply (N a). reflexivity. Qed.
Lemma taken E gen o input : takes gen o -> exists k, build_cnf E gen input = andthen (obtain_simple (E 0%nat) o input) k.
Proof. intros T. destruct gen; cbn [takes] in T; try contradiction; subst; cbn [build_cnf]; eexists; reflexivity. Qed.
Lemma taken_bipartite E gen o input : takes_bipartite gen o -> exists k, build_cnf E gen input = andthen (obtain_bipartite (E 0%nat) o input) k.
Proof. intros T. destruct gen; cbn [takes_bipartite] in T; try contradiction; subst; cbn [build_cnf]; eexists; reflexivity. Qed.
Lemma taken_dag E gen s input : takes_dag gen s -> exists k, build_cnf E gen input = andthen (obtain_dag s input) k.
Proof. intros T. destruct gen; cbn [takes_dag] in T; try contradiction; subst; cbn [build_cnf]; eexists; reflexivity. Qed.
Lemma refused_simple E pl pt header prog w0 ws l ts gen o input e : understood pl pt prog w0 ws l ts -> pl_generator l = Some gen -> takes gen o -> check_generator gen = Gives tt ->
  obtain_simple (E 0%nat) o input = e -> (forall g, e <> Gives g) ->
  cnfgen E pl pt header (typed prog w0 ws) input = match e with Exits s => Exits s | Raises ValueError | Raises AttributeError => Exits 65 | Raises e => Raises e | _ => Runs end.
Proof.
  intros U G T C O N. destruct (taken E gen o input T) as (k & B).
  rewrite (not_generated E pl pt header prog w0 ws l ts input (data_error (andthen e k)) U).
  - destruct e as [g|s|x|]; cbn [andthen data_error]; auto; [exfalso; apply (N g); auto|]. destruct x; reflexivity.
  - unfold run_checked. rewrite G. exact C.
  - rewrite G. unfold generate. rewrite B, O. reflexivity.
  - intros c. destruct e as [g|s|x|]; cbn [andthen data_error]; try discriminate; [exfalso; apply (N g); auto|]. destruct x; discriminate.
Qed.
Lemma refused_bipartite E pl pt header prog w0 ws l ts gen o input e : understood pl pt prog w0 ws l ts -> pl_generator l = Some gen -> takes_bipartite gen o -> check_generator gen = Gives tt ->
  obtain_bipartite (E 0%nat) o input = e -> (forall g, e <> Gives g) ->
  cnfgen E pl pt header (typed prog w0 ws) input = match e with Exits s => Exits s | Raises ValueError | Raises AttributeError => Exits 65 | Raises e => Raises e | _ => Runs end.
Proof.
  intros U G T C O N. destruct (taken_bipartite E gen o input T) as (k & B).
  rewrite (not_generated E pl pt header prog w0 ws l ts input (data_error (andthen e k)) U).
  - destruct e as [g|s|x|]; cbn [andthen data_error]; auto; [exfalso; apply (N g); auto|]. destruct x; reflexivity.
  - unfold run_checked. rewrite G. exact C.
  - rewrite G. unfold generate. rewrite B, O. reflexivity.
  - intros c. destruct e as [g|s|x|]; cbn [andthen data_error]; try discriminate; [exfalso; apply (N g); auto|]. destruct x; discriminate.
Qed.
Lemma refused_dag E pl pt header prog w0 ws l ts gen s input e : understood pl pt prog w0 ws l ts -> pl_generator l = Some gen -> takes_dag gen s -> check_generator gen = Gives tt ->
  obtain_dag s input = e -> (forall g, e <> Gives g) ->
  cnfgen E pl pt header (typed prog w0 ws) input = match e with Exits s => Exits s | Raises ValueError | Raises AttributeError => Exits 65 | Raises e => Raises e | _ => Runs end.
Proof.
  intros U G T C O N. destruct (taken_dag E gen s input T) as (k & B).
  rewrite (not_generated E pl pt header prog w0 ws l ts input (data_error (andthen e k)) U).
  - destruct e as [g|s'|x|]; cbn [andthen data_error]; auto; [exfalso; apply (N g); auto|]. destruct x; reflexivity.
  - unfold run_checked. rewrite G. exact C.
  - rewrite G. unfold generate. rewrite B, O. reflexivity.
  - intros c. destruct e as [g|s'|x|]; cbn [andthen data_error]; try discriminate; [exfalso; apply (N g); auto|]. destruct x; discriminate.
Qed.
(* the checks of the first graph come first *)
Lemma taken_checked gen o : takes gen o -> check_simple o <> Gives tt -> check_generator gen = check_simple o.
Proof.
  intros T N. destruct gen; cbn [takes] in T; try contradiction; subst; cbn [check_generator]; try reflexivity; destruct (check_simple o) as [[]|s|x|]; try reflexivity; contradiction N; reflexivity.
Qed.
Lemma checked_out E pl pt header prog w0 ws l ts gen input e : understood pl pt prog w0 ws l ts -> pl_generator l = Some gen -> check_generator gen = e -> (forall u, e <> Gives u) ->
  cnfgen E pl pt header (typed prog w0 ws) input = match e with Exits s => Exits s | Raises x => Raises x | _ => Runs end.
Proof.
  intros U G C N. rewrite (ran E pl pt header prog w0 ws l ts input U). unfold run_checked. rewrite G, C. destruct e as [u|s|x|]; auto. exfalso. apply (N u). reflexivity.
Qed.
Lemma not_positive zs : (exists z, In z zs /\ z <= 0) -> positive zs = Exits 2.
Proof.
  intros (z & I & L). unfold positive. destruct (forallb (Z.ltb 0) zs) eqn:E; auto. exfalso. rewrite forallb_forall in E. specialize (E z I). apply Z.ltb_lt in E. lia.
Qed.
Lemma in_turn_applied ts : forall hc hc', apply_transformations (map Some ts) hc = Gives hc' -> in_turn ts hc hc'.
Proof.
  induction ts as [|t ts IH]; intros [h c] hc' H; cbn [map apply_transformations] in H.
  - injection H as <-. constructor.
  - destruct (apply_transformation (Some t) (h, c)) as [[h1 c1]|s|x|] eqn:A; cbn [andthen] in H; try discriminate. apply IH in H.
    assert (X : h1 = transform_header t h /\ transform t c = Ok c1).
    { cbn [apply_transformation fst snd] in A. destruct t; cbn [transform];
        try (destruct (transform _ c) as [c2|x|] eqn:R; cbn [plain andthen] in A; try discriminate; injection A as <- <-; auto; fail).
      all: try (match type of A with andthen (plain ?r) _ = _ => destruct r as [c2|x|] eqn:R; cbn [plain andthen transform] in A, R; try discriminate; injection A as <- <-; auto; fail end).
      all: match type of A with andthen (exit_on_value_error ?r) _ = _ => destruct r as [c2|x|] eqn:R; cbn [exit_on_value_error plain andthen] in A; try discriminate; [injection A as <- <-; cbn [compressed]; auto|destruct x; discriminate] end. }
    destruct X as (-> & X). econstructor; eauto.
Qed.
Lemma sorted_distinct l : adjacent_equal (sort_by Z.ltb l) = false -> NoDup l.
Proof.
  intros A. apply (Permutation_NoDup (sort_by_Perm Z.ltb l)).
  assert (S : StronglySorted (fun x y => le_of Z.ltb x y) (sort_by Z.ltb l)).
  { apply sort_by_sorted; [intros x y; rewrite Z.ltb_lt, Z.ltb_ge; lia|]. intros x y z. unfold le_of. rewrite !Z.ltb_ge. lia. }
  induction (sort_by Z.ltb l) as [|x t IH]; [constructor|]. inversion S as [|y t' S1 S2]; subst. destruct t as [|y t].
  - constructor; [intros []|constructor].
  - cbn [adjacent_equal] in A. apply orb_false_iff in A as (A1 & A2). apply Z.eqb_neq in A1. constructor; [|apply IH; auto].
    inversion S1 as [|z t' S3 S4]; subst. rewrite Forall_forall in S2, S4. intros [I|I]; [congruence|].
    pose proof (S2 y (or_introl eq_refl)) as L1. pose proof (S4 x I) as L2. unfold le_of in L1, L2. rewrite Z.ltb_ge in L1, L2. lia.
Qed.
