(* PP31.v -- C92: transformations in the generator and behind a pipe *)
From Coq Require Import String Ascii ZArith List Bool Lia Arith Permutation.
From Verif Require Import Spec SpecInput SpecFile SpecCnf SpecFam SpecTrans PyBase MSet MText MCnf MFam MFam2 MTrans MFile MTool MGraph MGenCmd SpecTool SpecGraph SpecGenCmd SpecPipe.
From Verif Require Import PLib PCnf1 PCnf2 PP16 PP21 PGenCmd0 PGenCmd3 PGenCmd7 PGenCmd8 PPipe1 PPipe4 PPipe5.
Import ListNotations.
Open Scope Z_scope.

(* C92: cnfgen ... -T t prints the formula that cnfgen ... | dimacstransform t prints; only the comments at the
   beginning differ, and with -q on both sides there are none.  The two ways also fail together, for a compression
   by a graph of another size *)
Lemma p_C92_pipe : forall E pl pt header prog w0 ws l ts w t input verbose out,
  understood pl pt prog w0 ws l (map Some ts) -> ~ In (txt "-T") w -> pt w = Gives (Some t) -> drawn t ->
  cnfgen E pl pt header (typed prog w0 ws) input = Gives out ->
  let run := cnfgen E pl pt header (typed prog w0 (ws ++ [w])) input in
  (exists out1 out2, dimacstransform t verbose out = Ok out1 /\ run = Gives out2 /\ same_formula out1 out2 /\
     (verbose = false -> pl_verbose l = false -> out1 = out2)) \/
  (compresses t /\ dimacstransform t verbose out = Err SystemExit /\ run = Exits (-1)).
Proof.
  intros E pl pt h prog w0 ws l ts w t input v out U NW PW D R run.
  assert (U' : understood pl pt prog w0 (ws ++ [w]) l (map Some (ts ++ [t]))).
  { destruct U as [A B C F]. rewrite map_app. constructor; auto; [apply Forall_app; split; [exact B|constructor; [exact NW|constructor]]|apply Forall2_app; [exact F|constructor; [exact PW|constructor]]]. }
  unfold run. rewrite (ran E pl pt h prog w0 _ l _ input U'). rewrite (ran E pl pt h prog w0 _ l _ input U) in R.
  destruct (run_checked l) as [u|s|x|]; cbn [andthen] in R |- *; try discriminate. unfold cnfgen_parsed in R |- *.
  destruct (generate E (pl_generator l) input) as [c|s|x|] eqn:G; cbn [andthen] in R |- *; try discriminate.
  assert (MC : made c).
  { unfold generate in G. destruct (pl_generator l) as [gen|]; [|discriminate]. apply (built_made E gen input). destruct (build_cnf E gen input) as [a|s|[]|]; cbn in G; congruence. }
  destruct (apply_transformations (map Some ts) (h, c)) as [[h1 c1]|s|x|] eqn:A; cbn [andthen] in R; try discriminate. destruct (pl_latex l) eqn:L; [discriminate|].
  assert (M1 : made c1) by (eapply applied_made; eauto). rewrite map_app. cbn [map]. rewrite applied_app, A. cbn [andthen apply_transformations].
  assert (HT : holds_text out c1) by (injection R as <-; apply written_by; auto).
  destruct (piped_one t v out h1 c1 M1 HT D) as [(h2 & c' & c2 & E2 & M2 & RN & M' & _ & AP)|(C & E2 & _ & AP)].
  - left. exists (dimacs v h2 None c2 ++ [newline]). eexists. split; [exact E2|]. rewrite AP. cbn [andthen]. split; [reflexivity|]. cbn [fst snd]. unfold cnfgen_file. split.
    + apply texts_same. apply renamed_sym. exact RN.
    + intros -> ->. f_equal. apply quiet_same. apply renamed_sym. exact RN.
  - right. rewrite AP. auto.
Qed.
(* C92: and where cnfgen without the last -T prints nothing, it ends in the same way with it *)
Lemma p_C92_failures : forall E pl pt header prog w0 ws l ts w t input,
  understood pl pt prog w0 ws l ts -> ~ In (txt "-T") w -> pt w = Gives (Some t) ->
  let before := cnfgen E pl pt header (typed prog w0 ws) input in
  let after := cnfgen E pl pt header (typed prog w0 (ws ++ [w])) input in
  (pl_latex l = false -> (forall out, before <> Gives out) -> after = before) /\
  ((forall out, before <> Gives out) -> forall out, after <> Gives out).
Proof.
  intros E pl pt h prog w0 ws l ts w t input U NW PW before after. unfold before, after.
  assert (U' : understood pl pt prog w0 (ws ++ [w]) l (ts ++ [Some t])).
  { destruct U as [A B C F]. constructor; auto; [apply Forall_app; split; [exact B|constructor; [exact NW|constructor]]|apply Forall2_app; [exact F|constructor; [exact PW|constructor]]]. }
  rewrite (ran E pl pt h prog w0 _ l _ input U'), (ran E pl pt h prog w0 _ l _ input U).
  destruct (run_checked l) as [u|s|x|]; cbn [andthen]; try tauto. unfold cnfgen_parsed.
  destruct (generate E (pl_generator l) input) as [c|s|x|]; cbn [andthen]; try tauto. rewrite applied_app.
  destruct (apply_transformations ts (h, c)) as [[h1 c1]|s|x|]; cbn [andthen]; try tauto. destruct (pl_latex l).
  - split; [discriminate|]. intros _ out. destruct (apply_transformations [Some t] (h1, c1)); cbn [andthen]; discriminate.
  - split; [intros _ H|intros H out]; exfalso; eapply H; reflexivity.
Qed.
(* C92: several transformations: a pipeline of one dimacstransform after another *)
Lemma p_C92_pipeline : forall E pl pt header prog w0 ws l ts input verbose out,
  understood pl pt prog w0 ws l (map Some ts) -> Forall drawn ts ->
  cnfgen E pl pt header (typed prog w0 []) input = Gives out ->
  let run := cnfgen E pl pt header (typed prog w0 ws) input in
  (exists out1 out2, pipe ts verbose out = Ok out1 /\ run = Gives out2 /\ same_formula out1 out2 /\
     (verbose = false -> pl_verbose l = false -> out1 = out2)) \/
  (Exists compresses ts /\ pipe ts verbose out = Err SystemExit /\ run = Exits (-1)).
Proof.
  intros E pl pt h prog w0 ws l ts input v out U D R run.
  assert (U0 : understood pl pt prog w0 [] l []) by (destruct U; constructor; auto).
  unfold run. rewrite (ran E pl pt h prog w0 _ l _ input U). rewrite (ran E pl pt h prog w0 _ l _ input U0) in R.
  destruct (run_checked l) as [u|s|x|]; cbn [andthen] in R |- *; try discriminate. unfold cnfgen_parsed in R |- *.
  destruct (generate E (pl_generator l) input) as [c|s|x|] eqn:G; cbn [andthen apply_transformations] in R |- *; try discriminate.
  assert (MC : made c).
  { unfold generate in G. destruct (pl_generator l) as [gen|]; [|discriminate]. apply (built_made E gen input). destruct (build_cnf E gen input) as [a|s|[]|]; cbn in G; congruence. }
  destruct (pl_latex l) eqn:L; [discriminate|].
  assert (HT : holds_text out c) by (injection R as <-; apply written_by; auto).
  destruct (piped_all ts v out h c MC HT D) as [(o & c' & P & Q & M' & X & A)|(C & P & A)].
  - left. exists o. eexists. split; [exact P|]. rewrite A. cbn [andthen fst snd]. split; [reflexivity|]. unfold cnfgen_file. destruct ts as [|t ts].
    + cbn [pipe] in P. cbn [map apply_transformations] in A. assert (o = out) by congruence. assert (c' = c) by congruence. subst o c'. injection R as <-. cbn [fst snd]. unfold cnfgen_file. split; [apply texts_same; split; reflexivity|].
      intros _ ->. f_equal.
    + destruct (X ltac:(discriminate)) as (h2 & c2 & -> & RN). split; [apply texts_same, renamed_sym; exact RN|]. intros -> ->. f_equal. apply quiet_same, renamed_sym. exact RN.
  - right. rewrite A. auto.
Qed.
(* C92: kthlist2pebbling t is kthlist2pebbling none | dimacstransform t, and prints the formula of cnfgen peb -T t
   on the same input *)
Lemma p_C92_pebbling : forall t verbose verbose0 input out, drawn t -> kthlist2pebbling T_none verbose0 input = Ok out ->
  (exists out1 out2, dimacstransform t verbose out = Ok out1 /\ kthlist2pebbling t verbose input = Ok out2 /\ same_formula out1 out2 /\
     (verbose = false -> out1 = out2) /\
     (forall E pl pt header prog w0 w l, understood pl pt prog w0 [w] l [Some t] -> pl_latex l = false -> pl_generator l = Some (G_peb (D_stdin F_kthlist)) ->
        exists out3, cnfgen E pl pt header (typed prog w0 [w]) input = Gives out3 /\ same_formula out2 out3 /\
          (verbose = false -> pl_verbose l = false -> out2 = out3))) \/
  (compresses t /\ dimacstransform t verbose out = Err SystemExit /\ kthlist2pebbling t verbose input = Err SystemExit /\
     (forall E pl pt header prog w0 w l, understood pl pt prog w0 [w] l [Some t] -> pl_generator l = Some (G_peb (D_stdin F_kthlist)) ->
        cnfgen E pl pt header (typed prog w0 [w]) input = Exits (-1))).
Proof.
  intros t v v0 input out D R. unfold kthlist2pebbling in R |- *. apply bind_ok in R as (f & RF & R). apply bind_ok in R as (c & RC & R). rewrite RF. cbn [bind]. rewrite RC. cbn [bind transform] in R |- *.
  assert (MC : made c) by (unfold PebblingFormula in RC; destruct (negb _); [discriminate|]; eapply all_unsafe; [apply fresh_made|exact RC]).
  assert (HT : holds_text out c) by (injection R as <-; eexists _, _, _, c; split; [exact MC|]; split; [split; reflexivity|reflexivity]).
  assert (K : forall E pl pt header prog w0 w l, understood pl pt prog w0 [w] l [Some t] -> pl_generator l = Some (G_peb (D_stdin F_kthlist)) ->
    cnfgen E pl pt header (typed prog w0 [w]) input = andthen (andthen (apply_transformation (Some t) (header, c)) Gives) (fun hc => if pl_latex l then Raises NameError else Gives (cnfgen_file (pl_verbose l) (fst hc) (join (txt " ") (w0 ++ concat (map (cons (txt "-T")) [w]))) (snd hc)))).
  { intros E pl pt h prog w0 w l U G. rewrite (ran E pl pt h prog w0 _ l _ input U). unfold run_checked. rewrite G. cbn [check_generator check_dag andthen]. unfold cnfgen_parsed, generate. rewrite G.
    cbn [build_cnf obtain_dag read_dag]. rewrite RF. cbn [bind exit_on_value_error plain andthen fst snd]. rewrite RC. cbn [exit_on_value_error plain data_error andthen apply_transformations]. reflexivity. }
  destruct (applied t [] c MC D) as [(c' & T & _)|(C & T & _)].
  - left. destruct (piped_one t v out [] c MC HT D) as [(h2 & c1 & c2 & E2 & M2 & RN & M' & T' & _)|(_ & _ & T' & _)]; [|congruence]. assert (c1 = c') by congruence. subst c1. rewrite T. cbn [bind].
    eexists. eexists. split; [exact E2|]. split; [reflexivity|]. split; [apply texts_same, renamed_sym; exact RN|]. split; [intros ->; f_equal; apply quiet_same, renamed_sym; exact RN|].
    intros E pl pt h prog w0 w l U NL G. rewrite (K E pl pt h prog w0 w l U G), NL. destruct (applied t h c MC D) as [(d & T2 & A)|(_ & T2 & _)]; [|congruence]. assert (d = c') by congruence. subst d.
    rewrite A. cbn [andthen fst snd]. eexists. split; [reflexivity|]. split; [apply texts_same; split; reflexivity|]. intros -> ->. unfold cnfgen_file. f_equal. 
  - right. split; auto. destruct (piped_one t v out [] c MC HT D) as [(h2 & c1 & c2 & E2 & M2 & RN & M' & T' & _)|(_ & E2 & _ & _)]; [congruence|]. split; [exact E2|]. rewrite T. split; [reflexivity|].
    intros E pl pt h prog w0 w l U G. rewrite (K E pl pt h prog w0 w l U G). destruct (applied t h c MC D) as [(d & T2 & A)|(_ & T2 & A)]; [congruence|]. rewrite A. reflexivity.
Qed.
(*EX
(* cnfgen -q php 2 1 -T or 2 and cnfgen -q php 2 1 | dimacstransform -q or 2: the same text *)
Definition php_words : list text := [txt "-q"; txt "php"; txt "2"; txt "1"].
Definition php_quiet : parsed_line := mkParsedLine (Some (G_php 2 1 false false)) false false.
Definition parse_or (w : list text) : outcome (option transformation) := if list_eq_dec (list_eq_dec ascii_dec) w [txt "or"; txt "2"] then Gives (Some (T_or 2)) else Exits 2.
Example ex_C92_pipe : exists out out', let php := cnfgen (fun _ => some_chance) (fun _ => Gives php_quiet) parse_or (txt "A header" ++ [nl]) in
  php (typed (txt "cnfgen") php_words []) [] = Gives out /\
  dimacstransform (T_or 2) false out = Ok out' /\ php (typed (txt "cnfgen") php_words [[txt "or"; txt "2"]]) [] = Gives out' /\ out <> out'.
Proof. eexists. eexists. cbv zeta. split; [vm_compute; reflexivity|]. split; [vm_compute; reflexivity|]. split; [vm_compute; reflexivity|]. discriminate. Qed.
Example ex_C92_understood : understood (fun _ => Gives php_quiet) parse_or (txt "cnfgen") php_words [[txt "or"; txt "2"]] php_quiet (map Some [T_or 2]) /\ Forall drawn [T_or 2].
Proof.
  split; [|repeat constructor]. constructor; [|constructor; [|constructor]| |repeat constructor]; try reflexivity.
  - intros H. cbn [In php_words] in H. repeat (destruct H as [H|H]; [vm_compute in H; discriminate|]). destruct H.
  - intros H. cbn [In] in H. repeat (destruct H as [H|H]; [vm_compute in H; discriminate|]). destruct H.
Qed.
(* reversing a list is a way of shuffling that looks at places only *)
Example ex_C92_drawn : drawn (T_shuffle (mkShuffling false false false (@rev text) (@rev Z) (fun _ => 1))).
Proof. split; [constructor; intros; [symmetry; apply Permutation_rev|symmetry; apply Permutation_rev|left; reflexivity]|]. intros f l. symmetry. apply map_rev. Qed.
(* two vertices and one arc, exclusive ors of two variables *)
Example ex_C92_pebbling : exists out out', kthlist2pebbling T_none true (ended [txt "2"; txt "1 : 0"; txt "2 : 1 0"]) = Ok out /\
  dimacstransform (T_xor 2) false out = Ok out' /\ kthlist2pebbling (T_xor 2) false (ended [txt "2"; txt "1 : 0"; txt "2 : 1 0"]) = Ok out'.
Proof. eexists. eexists. split; [vm_compute; reflexivity|]. split; vm_compute; reflexivity. Qed.
EX*)
