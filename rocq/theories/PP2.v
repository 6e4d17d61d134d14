(* PP2.v -- properties of the search (C21-C28, C32, C33, C45, C46): statements and proofs. *)
From Coq Require Import String Ascii ZArith List Bool Lia Permutation Sorted.
From Verif Require Import Spec PyBase MSet MText MQueue MDb MSolver SpecRun PLib PClause PRename PLo
  PNorm PEval PText PQueue PNode PStep PRun PStats PSolver PSolve PSearch PGraph PP1.
Import ListNotations.
Open Scope Z_scope.

(* C21: verdict soundness.  Whatever the hash function does, a reported solution is a solution of the
   input formula, and 'not satisfiable' comes without a solution. *)
Lemma p_C21_sat_verdict_sound : forall hash insert_fails o root db out,
  root_ok root -> fresh_db o insert_fails db -> ends_with hash insert_fails o root db out ->
  (out_sat out = true ->
     satisfiable (raws root) /\
     exists sol, out_solution out = Some sol /\ sol <> [] /\ NoDup (dkeys sol) /\ StronglySorted Z.lt (dkeys sol) /\
       (forall a, extends a sol -> cnf_true a (raws root)) /\
       incl (evaluated_vars root) sol /\
       (forall v, In v (dkeys sol) -> In v (fvars (raws root)) \/ In v (dkeys (evaluated_vars root)))) /\
  (out_sat out = false -> out_solution out = None).
Proof.
  intros hash ifl o root db out RO FD E.
  destruct (ends_solved hash ifl o root db RO FD out E) as (r & p & done & pend & S).
  pose proof (sv_inv _ _ _ _ _ _ _ _ _ _ _ S) as I.
  destruct (sol_sat _ _ _ _ _ _ _ _ _ _ _ _ _ I) as [Hs Hsol].
  rewrite (sv_sat _ _ _ _ _ _ _ _ _ _ _ S), (sv_sol _ _ _ _ _ _ _ _ _ _ _ S).
  split; intros Hp.
  - split; [eapply inv_sound; eauto|]. rewrite Hp in Hs. unfold solution_truthy in Hs.
    destruct (p_solution p) as [sol|]; [|discriminate]. exists sol. split; auto.
    destruct (Hsol sol eq_refl) as (A1 & A2 & A3 & A4 & A5 & A6).
    rewrite (sv_ev _ _ _ _ _ _ _ _ _ _ _ S) in A4, A5.
    split; auto. split; auto. split; auto. split; auto. split; auto. intros v Hv. destruct (A5 v Hv); auto.
  - rewrite Hp in Hs. destruct (p_solution p) as [[|]|]; auto; [|discriminate].
    destruct (Hsol [] eq_refl) as (_ & _ & A & _). congruence.
Qed.
Lemma never_collides : forall o root, collision_free (fun t => t) o root.
Proof. intros o root. apply injective_collision_free. auto. Qed.
(*EX
Example C21_example : root_ok sample /\ fresh_db default_opts no_fail [] /\
  exists out, ends_with (fun t => t) no_fail default_opts sample [] out /\ out_sat out = true.
Proof.
  split; [apply sample_ok|]. split; [split; discriminate|].
  eexists. split; [exists 40%nat; intros fuel lf H1 H2; apply (solve_set_mono _ _ _ _ _ 40 fuel 40 lf H1 H2);
                   vm_compute; reflexivity|reflexivity].
Qed.
EX*)

(* C22: verdict completeness: unless two different formulas met in this search have the same hash *)
Lemma p_C22_verdict_exact : forall hash insert_fails o root db out,
  root_ok root -> fresh_db o insert_fails db -> collision_free hash o root ->
  ends_with hash insert_fails o root db out ->
  (out_sat out = true <-> satisfiable (raws root)).
Proof.
  intros hash ifl o root db out RO FD CF E.
  destruct (ends_solved hash ifl o root db RO FD out E) as (r & p & done & pend & S).
  rewrite (sv_sat _ _ _ _ _ _ _ _ _ _ _ S).
  eapply done_verdict; [apply (sv_inv _ _ _ _ _ _ _ _ _ _ _ S)|apply (sv_done _ _ _ _ _ _ _ _ _ _ _ S)| |apply (sv_eq _ _ _ _ _ _ _ _ _ _ _ S)].
  eapply collision_free_no; eauto; apply S.
Qed.
(* C22, the hypothesis on hashes is needed: with a constant hash the search stops too early *)
Lemma p_C22_collision_refuted : exists root out,
  root_ok root /\ satisfiable (raws root) /\
  ends_with (fun _ => []) no_fail default_opts root [] out /\ out_sat out = false.
Proof.
  exists (set_of_text (txt "1|2|3&-1|2|3&1|-2|3&1|2|-3")).
  eexists. split; [|split; [|split]].
  - split; try reflexivity; try discriminate.
    + intros c H. vm_compute in H. repeat (destruct H as [<-|H]; [discriminate|]). destruct H.
    + intros c H. vm_compute in H. repeat (destruct H as [<-|H]; [repeat constructor; simpl; lia|]). destruct H.
    + intros c H. vm_compute in H. repeat (destruct H as [<-|H]; [reflexivity|]). destruct H.
    + constructor.
    + intros v [].
    + intros v [].
  - exists (fun _ => true). intros c H. vm_compute in H.
    repeat (destruct H as [<-|H]; [solve [exists 1; simpl; auto|exists 2; simpl; auto]|]). destruct H.
  - exists 40%nat. intros fuel lf H1 H2. apply (solve_set_mono _ _ _ _ _ 40 fuel 40 lf H1 H2). vm_compute. reflexivity.
  - reflexivity.
Qed.
(*EX
Example C22_example : collision_free (fun t => t) default_opts sample_unsat /\ root_ok sample_unsat /\
  exists out, ends_with (fun t => t) no_fail default_opts sample_unsat [] out /\ out_sat out = false.
Proof.
  split; [apply never_collides|]. split.
  - split; try reflexivity; try discriminate; try (intros v []; fail).
    + intros c H. vm_compute in H. repeat (destruct H as [<-|H]; [discriminate|]). destruct H.
    + intros c H. vm_compute in H. repeat (destruct H as [<-|H]; [repeat constructor; simpl; lia|]). destruct H.
    + intros c H. vm_compute in H. repeat (destruct H as [<-|H]; [reflexivity|]). destruct H.
    + constructor.
  - eexists. split; [exists 40%nat; intros fuel lf H1 H2; apply (solve_set_mono _ _ _ _ _ 40 fuel 40 lf H1 H2);
                   vm_compute; reflexivity|reflexivity].
Qed.
EX*)

(* C23: the solver ends with a verdict and raises no exception *)
Lemma p_C23_solver_terminates : forall hash insert_fails o root db,
  root_ok root -> fresh_db o insert_fails db -> exists out, ends_with hash insert_fails o root db out.
Proof.
  intros hash ifl o root db RO FD.
  destruct (solve_exists hash ifl o root db RO FD) as (N & out & r & p & done & pend & H & _).
  exists out, N. auto.
Qed.
(* C24: the verdict does not depend on the options *)
Lemma p_C24_verdict_option_independent : forall hash insert_fails1 insert_fails2 o1 o2 root db1 db2 out1 out2,
  root_ok root -> fresh_db o1 insert_fails1 db1 -> fresh_db o2 insert_fails2 db2 ->
  collision_free hash o1 root -> collision_free hash o2 root ->
  ends_with hash insert_fails1 o1 root db1 out1 -> ends_with hash insert_fails2 o2 root db2 out2 ->
  out_sat out1 = out_sat out2.
Proof.
  intros hash if1 if2 o1 o2 root db1 db2 out1 out2 RO F1 F2 C1 C2 E1 E2.
  pose proof (p_C22_verdict_exact _ _ _ _ _ _ RO F1 C1 E1) as H1.
  pose proof (p_C22_verdict_exact _ _ _ _ _ _ RO F2 C2 E2) as H2.
  destruct (out_sat out1), (out_sat out2); auto; intuition congruence.
Qed.

(* C25: the built-in verifier answers True exactly when every clause contains a literal made true by an
   assigned variable *)
Lemma p_C25_verifier_exact : forall (cnf : cset) (d : list (Z * bool)),
  verify_solution cnf d = true <->
  forall c, In c (raws cnf) -> exists l, In l c /\ ((0 < l /\ In (l, true) d) \/ (l < 0 /\ In (- l, false) d)).
Proof.
  intros cnf d. unfold verify_solution. rewrite forallb_forall.
  assert (Kt : forall v, zmem v (true_keys d) = true <-> In (v, true) d).
  { intros v. rewrite zmem_In. unfold true_keys. rewrite in_map_iff. split.
    - intros ((k & b) & E & H). simpl in E. subst. apply filter_In in H as [H Hb]. simpl in Hb. subst. auto.
    - intros H. exists (v, true). split; auto. apply filter_In; auto. }
  assert (Kf : forall v, zmem v (false_keys d) = true <-> In (v, false) d).
  { intros v. rewrite zmem_In. unfold false_keys. rewrite in_map_iff. split.
    - intros ((k & b) & E & H). simpl in E. subst. apply filter_In in H as [H Hb]. simpl in Hb. destruct b; [discriminate|auto].
    - intros H. exists (v, false). split; auto. apply filter_In; auto. }
  assert (G : forall r, existsb (fun v => (0 <? v) && zmem v (true_keys d) || (v <? 0) && zmem (Z.abs v) (false_keys d)) r = true <->
     exists l, In l r /\ ((0 < l /\ In (l, true) d) \/ (l < 0 /\ In (- l, false) d))).
  { intros r. rewrite existsb_exists. split; intros (l & Hl & H); exists l; split; auto.
    - apply orb_true_iff in H as [H|H]; apply andb_true_iff in H as [H1 H2].
      + left. rewrite <- Kt. split; auto. lia.
      + right. rewrite <- Kf. replace (- l) with (Z.abs l) by lia. split; auto. lia.
    - apply orb_true_iff. destruct H as [[H1 H2]|[H1 H2]]; [left|right]; apply andb_true_iff.
      + split; [lia|apply Kt; auto].
      + split; [lia|]. apply Kf. replace (Z.abs l) with (- l) by lia. auto. }
  unfold raws. split.
  - intros H c Hc. apply in_map_iff in Hc as (k & <- & Hk). apply G, H; auto.
  - intros H k Hk. apply G, H, in_map; auto.
Qed.
(* C25: every solution the solver finds is accepted by the verifier (literal 0 excepted) *)
Lemma p_C25_found_solution_verifies : forall hash insert_fails o root db out sol,
  root_ok root -> fresh_db o insert_fails db -> (forall v, In v (fvars (raws root)) -> v <> 0) ->
  ends_with hash insert_fails o root db out -> out_solution out = Some sol ->
  verify_solution root sol = true.
Proof.
  intros hash ifl o root db out sol RO FD Hz E Hs.
  destruct (p_C21_sat_verdict_sound _ _ _ _ _ _ RO FD E) as [S1 S2].
  destruct (out_sat out); [|rewrite S2 in Hs; auto; discriminate].
  destruct (S1 eq_refl) as (_ & sol' & Es & _ & Nd & _ & Hsol & _). rewrite Hs in Es. inv Es. clear S1 S2.
  apply p_C25_verifier_exact. intros c Hc.
  (* otherwise, give every variable of the clause the value falsifying it *)
  destruct (existsb (fun l => ((0 <? l) && existsb (fun kv => (fst kv =? l) && snd kv) sol') ||
                      ((l <? 0) && existsb (fun kv => (fst kv =? - l) && negb (snd kv)) sol')) c) eqn:Ex.
  - apply existsb_exists in Ex as (l & Hl & H). exists l. split; auto.
    apply orb_true_iff in H as [H|H]; apply andb_true_iff in H as [H1 H2];
      apply existsb_exists in H2 as ((k & b) & Hk & Hb); simpl in Hb; apply andb_true_iff in Hb as [Hb1 Hb2];
      apply Z.eqb_eq in Hb1; subst k; destruct b; try discriminate; [left|right]; split; auto; lia.
  - exfalso.
    set (a := fun v => match dget Z.eqb v sol' with Some b => b | None => negb (zmem v c) end).
    assert (Ha : extends a sol').
    { intros v b H. unfold a. rewrite (dget_In_NoDup _ zspec _ _ _ Nd H). auto. }
    destruct (Hsol a Ha c Hc) as (l & Hl & Ht).
    assert (Hnz : Z.abs l <> 0). { apply Hz, in_fvars. exists c; split; auto. apply in_map; auto. }
    assert (Hl' : ((0 <? l) && existsb (fun kv => (fst kv =? l) && snd kv) sol') ||
                  ((l <? 0) && existsb (fun kv => (fst kv =? - l) && negb (snd kv)) sol') = false).
    { destruct (_ || _) eqn:El; auto. rewrite (existsb_true _ c l Hl El) in Ex. discriminate. }
    apply orb_false_iff in Hl' as [F1 F2]. unfold lit_true, a in Ht.
    destruct (Z.ltb_spec l 0).
    + replace (l <? 0) with true in F2 by (symmetry; apply Z.ltb_lt; auto). simpl in F2.
      destruct (dget Z.eqb (- l) sol') as [b|] eqn:Ed.
      * apply (dget_In _ zspec) in Ed. destruct b; [discriminate|].
        rewrite (existsb_true _ sol' _ Ed) in F2; [discriminate|]. simpl. rewrite Z.eqb_refl. auto.
      * rewrite negb_involutive in Ht. apply zmem_In in Ht.
        pose proof (ro_distinct _ RO c Hc) as Dc. pose proof (distinct_unique c l (- l) Dc Hl Ht ltac:(lia)). lia.
    + replace (0 <? l) with true in F1 by (symmetry; apply Z.ltb_lt; lia). simpl in F1.
      destruct (dget Z.eqb l sol') as [b|] eqn:Ed.
      * apply (dget_In _ zspec) in Ed. destruct b; [|discriminate].
        rewrite (existsb_true _ sol' _ Ed) in F1; [discriminate|]. simpl. rewrite Z.eqb_refl. auto.
      * apply negb_true_iff in Ht. enough (zmem l c = true) by congruence. apply zmem_In; auto.
Qed.
(* C25, literal 0 (accepted by the single-line reader): a correct solution is rejected *)
Lemma p_C25_literal_zero_refuted : exists root out sol,
  root_ok root /\ ends_with (fun t => t) no_fail default_opts root [] out /\ out_solution out = Some sol /\
  (forall a, extends a sol -> cnf_true a (raws root)) /\ verify_solution root sol = false.
Proof.
  exists (set_of_text (txt "0")). eexists. exists [(0, true)]. split; [|split; [|split; [|split]]].
  - split; try reflexivity; try discriminate; try (intros v []; fail).
    + intros c [<-|[]]. discriminate.
    + intros c [<-|[]]. repeat constructor; simpl; lia.
    + intros c [<-|[]]. reflexivity.
    + constructor.
  - exists 40%nat; intros fuel lf H1 H2; apply (solve_set_mono _ _ _ _ _ 40 fuel 40 lf H1 H2); vm_compute; reflexivity.
  - reflexivity.
  - intros a H c [<-|[]]. exists 0. split; [left; auto|]. unfold lit_true. simpl. apply H. left; auto.
  - reflexivity.
Qed.

(* ---- the recorded graph ---- *)
Lemma prepare_root_mono hash o root lf lf' r : (lf <= lf')%nat ->
  prepare_root hash lf o root = Ok r -> prepare_root hash lf' o root = Ok r.
Proof.
  unfold prepare_root. intros Hle H. apply bind_ok in H as (r1 & E & H).
  rewrite (to_lo_mono _ _ _ lf lf' _ _ Hle E). exact H.
Qed.
Lemma exec_mono hash ifl o seen lf lf' m p xs p' : (lf <= lf')%nat ->
  exec hash ifl o seen lf m p xs p' -> exec hash ifl o seen lf' m p xs p'.
Proof.
  intros Hle H. induction H; [constructor|]. econstructor; eauto. eapply step_mono; eauto.
Qed.
Lemma exec_facts_any hash ifl o root db lf r p0 xs p ps : root_ok root -> fresh_db o ifl db ->
    prepare_root hash lf o root = Ok r -> start hash o r db = Ok p0 ->
    exec hash ifl o [] lf (branch_mode o) p0 xs p -> drains (p_queue p) ps ->
    NoDup (map sid (xs ++ ps)) /\ dkeys (p_children p) = map sid (xs ++ ps) /\
    StronglySorted le (map depth (xs ++ ps)) /\
    (forall x y, In x ps -> In y (xs ++ ps) -> (depth y <= S (depth x))%nat).
Proof.
  intros RO FD Hp Hs He Hd. set (lf' := Nat.max lf (root_bound root)).
  eapply (exec_facts hash ifl o root db RO FD lf'); eauto; unfold lf'; try lia.
  - eapply prepare_root_mono; [|exact Hp]; lia.
  - eapply exec_mono; [|exact He]; lia.
Qed.

(* C26: at every moment of a run the sets already expanded and those still waiting have pairwise
   different ids, and the recorded graph has exactly these ids as nodes *)
Lemma p_C26_expanded_once : forall hash insert_fails o root db lf r p0 expanded p waiting,
  root_ok root -> fresh_db o insert_fails db ->
  prepare_root hash lf o root = Ok r -> start hash o r db = Ok p0 ->
  exec hash insert_fails o [] lf (branch_mode o) p0 expanded p -> drains (p_queue p) waiting ->
  NoDup (map sid (expanded ++ waiting)) /\ dkeys (p_children p) = map sid (expanded ++ waiting).
Proof.
  intros hash ifl o root db lf r p0 xs p ps RO FD Hp Hs He Hd.
  destruct (exec_facts_any _ _ _ _ _ _ _ _ _ _ _ RO FD Hp Hs He Hd) as (A & B & _). auto.
Qed.
(*EX
Example C26_example : exists lf r p0 expanded p waiting,
  prepare_root (fun t => t) lf default_opts sample = Ok r /\ start (fun t => t) default_opts r [] = Ok p0 /\
  exec (fun t => t) no_fail default_opts [] lf (branch_mode default_opts) p0 expanded p /\
  drains (p_queue p) waiting /\ List.length expanded = 2%nat /\ List.length waiting = 3%nat.
Proof.
  exists 40%nat. do 5 eexists. split; [vm_compute; reflexivity|]. split; [vm_compute; reflexivity|]. split.
  - eapply exec_cons; [vm_compute; reflexivity|vm_compute; reflexivity|vm_compute; reflexivity|].
    eapply exec_cons; [vm_compute; reflexivity|vm_compute; reflexivity|vm_compute; reflexivity|].
    apply exec_nil.
  - split; [|split; [reflexivity|]].
    + repeat (eapply drains_cons; [vm_compute; reflexivity|]). apply drains_nil. reflexivity.
    + reflexivity.
Qed.
EX*)
(* C26: the graph recorded by a finished run is closed and has at most two children per node; with
   early exit too *)
Lemma p_C26_graph_closed : forall hash insert_fails o root db out,
  root_ok root -> fresh_db o insert_fails db -> ends_with hash insert_fails o root db out ->
  closed_graph (out_children out) /\
  forall h, In h (dkeys (out_children out)) -> (List.length (succs (out_children out) h) <= 2)%nat.
Proof.
  intros hash ifl o root db out RO FD E.
  destruct (ends_solved hash ifl o root db RO FD out E) as (r & p & done & pend & S).
  rewrite (sv_children _ _ _ _ _ _ _ _ _ _ _ S).
  apply (inv_closed _ _ _ _ _ _ _ _ _ _ _ _ _ (sv_inv _ _ _ _ _ _ _ _ _ _ _ S)).
Qed.

(* C27: the nodes of the recorded graph are the normalised formulas met when branching from the
   normalised input, and the children recorded for a node are its undecided cofactors, true branch
   first *)
Lemma p_C27_graph_of_formulas : forall hash insert_fails o root db out,
  root_ok root -> fresh_db o insert_fails db -> collision_free hash o root ->
  o_exit o = false -> o_thief o = false -> ends_with hash insert_fails o root db out ->
  let m := branch_mode o in let z := o_sort_by_size o in
  exists G0, normal_form (o_mode o) z (raws root) G0 /\
    (forall h, In h (dkeys (out_children out)) <-> exists G, met m z G0 G /\ h = hash (formula_text G)) /\
    (forall G, met m z G0 G -> exists lb rb,
        child_ids hash m z true G lb /\ child_ids hash m z false G rb /\
        dget text_eqb (hash (formula_text G)) (out_children out) = Some (lb ++ rb)).
Proof.
  intros hash ifl o root db out RO FD CF Hex Ht E m z.
  destruct (ends_solved hash ifl o root db RO FD out E) as (r & p & done & pend & S).
  pose proof (sv_inv _ _ _ _ _ _ _ _ _ _ _ S) as I.
  pose proof (sv_bound _ _ _ _ _ _ _ _ _ _ _ S) as Hb.
  pose proof (sv_prep _ _ _ _ _ _ _ _ _ _ _ S) as Hp.
  pose proof (collision_free_no hash o root _ r RO Hb Hp CF) as NC.
  assert (pend = []) as ->.
  { pose proof (sv_done _ _ _ _ _ _ _ _ _ _ _ S) as Hl. unfold loop_done in Hl.
    rewrite Hex, andb_false_r, orb_false_r, (inv_empty _ _ _ _ _ _ _ _ _ _ _ _ _ I) in Hl.
    destruct pend; [auto|discriminate]. }
  rewrite (sv_children _ _ _ _ _ _ _ _ _ _ _ S).
  assert (Hr : In r (ys done [])).
  { pose proof (i_root _ _ _ _ _ _ _ _ _ _ _ _ _ I) as Hr. destruct (ys done []); [discriminate|]. inv Hr. left; auto. }
  destruct (i_nodes _ _ _ _ _ _ _ _ _ _ _ _ _ I r Hr) as [Nr _].
  assert (Hdone : forall y, In y (ys done []) -> exists k1 k2, In (y, k1, k2) done).
  { intros y Hy. unfold ys in Hy. rewrite app_nil_r in Hy. apply in_map_iff in Hy as ([[y' k1] k2] & Ey & He).
    cbn in Ey; subst. eauto. }
  (* every reachable set is, up to its literals, a recorded one *)
  assert (Hall : forall x, reach hash o (root_bound root) m r x -> exists y, In y (ys done []) /\ raws y = raws x).
  { intros x Hx. induction Hx as [|x k1 k2 c Hx IH Ex Hk]; [exists r; auto|].
    destruct IH as (y & Hy & Ey). destruct (Hdone y Hy) as (j1 & j2 & He).
    destruct (i_exp _ _ _ _ _ _ _ _ _ _ _ _ _ I _ _ _ He) as (Ej & _).
    destruct (i_nodes _ _ _ _ _ _ _ _ _ _ _ _ _ I y Hy) as [Ny Ry].
    assert (Rc : reach hash o (root_bound root) m r c) by (eapply reach_step; [exact Hx|exact Ex|exact Hk]).
    destruct (reach_node _ _ _ _ _ _ _ _ _ _ Nr Hb Hx) as (Nx & _).
    destruct (reach_node _ _ _ _ _ _ _ _ _ _ Nr Hb Rc) as (Nc & Hsc & _).
    destruct (expands_formula hash o Ht _ _ _ x k1 k2 Nx Ex) as [A1 A2].
    destruct (expands_formula hash o Ht _ _ _ y j1 j2 (proj1 Ny) Ej) as [B1 B2].
    rewrite Ey in B1, B2.
    assert (Hc : exists c', (j1 = KNode c' \/ j2 = KNode c') /\ raws c' = raws c).
    { assert (Q : forall b k j, k = KNode c -> kid_of o m b (raws x) k -> kid_of o m b (raws x) j ->
                exists c', j = KNode c' /\ raws c' = raws c).
      { intros b k j -> (D1 & D2 & D3) Hj. destruct j as [v d|c']; simpl in Hj; [destruct Hj; contradiction|].
        exists c'. split; auto. destruct Hj as (_ & _ & D4). eapply normal_form_fun; [exact D1| |exact D4|exact D3].
        intros e He0 ->. auto. }
      destruct Hk as [Hk|Hk].
      - destruct (Q true k1 j1 Hk A1 B1) as (c' & ? & ?). exists c'; auto.
      - destruct (Q false k2 j2 Hk A2 B2) as (c' & ? & ?). exists c'; auto. }
    destruct Hc as (c' & Hj & Ec).
    assert (Rc' : reach hash o (root_bound root) m r c') by (eapply reach_step; [exact Ry|exact Ej|exact Hj]).
    destruct (reach_node _ _ _ _ _ _ _ _ _ _ Nr Hb Rc') as (Nc' & Hsc' & _).
    assert (Hid : In (sid c') (map sid (ys done []))).
    { apply (proj2 (i_done _ _ _ _ _ _ _ _ _ _ _ _ _ I _ He)). unfold e_kids. cbn [fst snd].
      apply in_app_iff. destruct Hj as [->| ->]; simpl; auto. }
    apply in_map_iff in Hid as (w & Ew & Hw). exists w. split; auto.
    destruct (i_nodes _ _ _ _ _ _ _ _ _ _ _ _ _ I w Hw) as [Nw Rw].
    rewrite <- Ec. eapply same_id_same; [exact NC|exact Nw| |exact Rw|exact Rc'|exact Ew].
    exact (reach_node _ _ _ _ _ _ _ _ _ _ Nr Hb Rc'). }
  exists (raws r). split; [|split].
  - unfold prepare_root in Hp. apply bind_ok in Hp as (r1 & E1 & Hp). rewrite Ht in E1.
    apply to_lo_normal in E1.
    2:{ split; [apply RO|]. split; [apply RO|]. left. apply RO. }
    apply bind_ok in Hp as ([h r2] & E2 & Hp). injection Hp as <-.
    replace (raws (set_id r2 h)) with (raws r1); [exact E1|].
    unfold get_hash in E2. cbn in E2. destruct (computed_hash r1); apply bind_ok in E2 as (t & _ & E2); injection E2 as <- <-; reflexivity.
  - intros h. rewrite (i_keys _ _ _ _ _ _ _ _ _ _ _ _ _ I), in_map_iff. split.
    + intros (y & <- & Hy). destruct (i_nodes _ _ _ _ _ _ _ _ _ _ _ _ _ I y Hy) as [Ny Ry].
      exists (raws y). split; [|apply Ny]. exact (reach_met hash o Ht _ _ _ _ _ _ Hb r y Nr Ry).
    + intros (G & HG & ->). destruct (met_reach hash o Ht _ _ _ _ _ _ Hb r G Nr HG) as (x & Hx & <-).
      destruct (Hall x Hx) as (y & Hy & Ey). exists y. split; auto.
      destruct (i_nodes _ _ _ _ _ _ _ _ _ _ _ _ _ I y Hy) as [(_ & Es & _) _]. rewrite Es, Ey. reflexivity.
  - intros G HG. destruct (met_reach hash o Ht _ _ _ _ _ _ Hb r G Nr HG) as (x & Hx & <-).
    destruct (Hall x Hx) as (y & Hy & Ey). destruct (Hdone y Hy) as (k1 & k2 & He).
    destruct (i_nodes _ _ _ _ _ _ _ _ _ _ _ _ _ I y Hy) as [Ny Ry].
    destruct (i_exp _ _ _ _ _ _ _ _ _ _ _ _ _ I _ _ _ He) as (Ek & _).
    destruct (expands_formula hash o Ht _ _ _ y k1 k2 (proj1 Ny) Ek) as [A1 A2].
    exists (kid_ids k1), (kid_ids k2).
    assert (Q : forall b k, (k = k1 \/ k = k2) -> kid_of o m b (raws y) k -> child_ids hash m z b (raws x) (kid_ids k)).
    { rewrite Ey. intros b k Hk H. destruct k as [v d|c]; simpl in H |- *; [left; auto|right].
      exists (raws c). split; auto. f_equal.
      assert (Rc : reach hash o (root_bound root) m r c) by (eapply reach_step; [exact Ry|exact Ek|destruct Hk as [<-|<-]; auto]).
      destruct (reach_node _ _ _ _ _ _ _ _ _ _ Nr Hb Rc) as (_ & Hsc & _). exact Hsc. }
    split; [apply Q; auto|]. split; [apply Q; auto|].
    destruct (i_done _ _ _ _ _ _ _ _ _ _ _ _ _ I _ He) as [Eg _]. cbn [e_node fst] in Eg.
    rewrite <- Ey. change (hash (formula_text (raws y))) with (fhash hash (raws y)).
    rewrite <- (proj1 (proj2 Ny)). exact Eg.
Qed.
(*EX
Example C27_example : o_exit default_opts = false /\ o_thief default_opts = false /\
  collision_free (fun t => t) default_opts sample /\ root_ok sample /\ fresh_db default_opts no_fail [] /\
  exists out, ends_with (fun t => t) no_fail default_opts sample [] out /\ (6 < List.length (out_children out))%nat.
Proof.
  split; [reflexivity|]. split; [reflexivity|]. split; [apply never_collides|]. split; [apply sample_ok|].
  split; [split; discriminate|].
  eexists. split; [exists 40%nat; intros fuel lf H1 H2; apply (solve_set_mono _ _ _ _ _ 40 fuel 40 lf H1 H2);
                   vm_compute; reflexivity|vm_compute; repeat constructor].
Qed.
EX*)

(* C28: stopping at the first solution gives the same verdict and solution; the nodes recorded until
   then are the first ones recorded by the full run, and those already expanded have the same children *)
Lemma p_C28_early_exit : forall hash if1 if2 o1 o2 root db1 db2 full early,
  root_ok root -> fresh_db o1 if1 db1 -> fresh_db o2 if2 db2 ->
  o_mode o1 = o_mode o2 -> o_sort_by_size o1 = o_sort_by_size o2 -> o_thief o1 = o_thief o2 ->
  o_rdb o1 = o_rdb o2 -> o_exit o1 = false -> o_exit o2 = true ->
  ends_with hash if1 o1 root db1 full -> ends_with hash if2 o2 root db2 early ->
  out_sat early = out_sat full /\ out_solution early = out_solution full /\
  (exists more, dkeys (out_children full) = dkeys (out_children early) ++ more) /\
  (forall h, In h (dkeys (out_children early)) ->
     succs (out_children early) h = succs (out_children full) h \/ succs (out_children early) h = []).
Proof.
  intros hash if1 if2 o1 o2 root db1 db2 out1 out2 RO F1 F2 Em Ez Et Er X1 X2 E1 E2.
  destruct (ends_solved hash if1 o1 root db1 RO F1 out1 E1) as (r & p1 & dn1 & pd1 & S1).
  destruct (ends_solved hash if2 o2 root db2 RO F2 out2 E2) as (r' & p2 & dn2 & pd2 & S2).
  assert (r' = r) as ->.
  { pose proof (sv_prep _ _ _ _ _ _ _ _ _ _ _ S1) as P1. pose proof (sv_prep _ _ _ _ _ _ _ _ _ _ _ S2) as P2.
    unfold prepare_root in *. rewrite Em, Ez, Et in P1. rewrite P1 in P2. congruence. }
  assert (Emi : input_mode o1 = input_mode o2) by (unfold input_mode; rewrite Em; auto).
  set (lf := root_bound root) in *. pose proof (sv_bound _ _ _ _ _ _ _ _ _ _ _ S1) as Hb.
  destruct (prepare_root_spec hash o1 lf (root_L root) root RO (root_below root) Hb)
      as (r0 & Ep & N & Hsd & Hc & W & _). rewrite (sv_prep _ _ _ _ _ _ _ _ _ _ _ S1) in Ep. injection Ep as <-.
  assert (Erh : set_hash r (Some (sid r)) = r) by (rewrite <- Hc; destruct r; auto).
  destruct (start_inv hash o1 (raws root) (root_n root) (root_L root) (root_K root) lf (input_mode o1) db1 r
                N Hsd (or_intror Hc) W) as (q1 & Es1 & I1).
  destruct (start_inv hash o2 (raws root) (root_n root) (root_L root) (root_K root) lf (input_mode o2) db2 r
                N Hsd (or_intror Hc) W) as (q2 & Es2 & I2).
  rewrite Erh in I1, I2. rewrite <- Emi in I2.
  destruct (sv_run _ _ _ _ _ _ _ _ _ _ _ S1) as [f1 R1]. destruct (sv_run _ _ _ _ _ _ _ _ _ _ _ S2) as [f2 R2].
  unfold process_nodes_queue in R1, R2. rewrite Es1 in R1. rewrite Es2 in R2. cbn [bind] in R1, R2. rewrite <- Emi in R2.
  destruct (run_early hash if1 if2 o1 o2 [] [] (fun Hg => conj eq_refl (proj2 (proj1 F1 Hg)))
              (fun Hg => conj eq_refl (proj2 (proj1 F2 Hg))) (raws root) (root_n root) (root_L root) (root_K root)
              lf (input_mode o1) Hb db1 db2
               (fun Hg => proj1 (proj1 F1 Hg)) (fun Hg => proj1 (proj1 F2 Hg)) Er Ez Et X1 f2 f1 r q1 q2 p1 p2 [] [r] I1 I2 R1 R2)
    as (done & pend & more & J2 & J1 & Hl & (added & Ha) & Hmore).
  rewrite (sv_sat _ _ _ _ _ _ _ _ _ _ _ S1), (sv_sol _ _ _ _ _ _ _ _ _ _ _ S1), (sv_children _ _ _ _ _ _ _ _ _ _ _ S1).
  rewrite (sv_sat _ _ _ _ _ _ _ _ _ _ _ S2), (sv_sol _ _ _ _ _ _ _ _ _ _ _ S2), (sv_children _ _ _ _ _ _ _ _ _ _ _ S2).
  assert (Esol : p_solution p2 = p_solution p1).
  { rewrite (i_sol _ _ _ _ _ _ _ _ _ _ _ _ _ J1), (i_sol _ _ _ _ _ _ _ _ _ _ _ _ _ J2).
    unfold true_leaves. rewrite flat_map_app.
    destruct pend as [|x xs]; [rewrite (Hmore eq_refl), app_nil_r; auto|].
    unfold loop_done in Hl. rewrite (inv_empty _ _ _ _ _ _ _ _ _ _ _ _ _ J2), X2, andb_true_r in Hl.
    rewrite (i_sol _ _ _ _ _ _ _ _ _ _ _ _ _ J2) in Hl. unfold true_leaves in Hl.
    destruct (flat_map e_true done); [discriminate|reflexivity]. }
  split; [|split; [exact Esol|split]].
  - rewrite (proj1 (sol_sat _ _ _ _ _ _ _ _ _ _ _ _ _ J1)), (proj1 (sol_sat _ _ _ _ _ _ _ _ _ _ _ _ _ J2)), Esol. auto.
  - exists (map sid added).
    rewrite (i_keys _ _ _ _ _ _ _ _ _ _ _ _ _ J1), (i_keys _ _ _ _ _ _ _ _ _ _ _ _ _ J2), Ha, map_app. auto.
  - intros h Hh. rewrite (i_keys _ _ _ _ _ _ _ _ _ _ _ _ _ J2) in Hh. apply in_map_iff in Hh as (y & <- & Hy).
    unfold ys in Hy. apply in_app_iff in Hy as [Hy|Hy].
    + left. apply in_map_iff in Hy as (e & <- & He). unfold succs.
      rewrite (proj1 (i_done _ _ _ _ _ _ _ _ _ _ _ _ _ J2 e He)).
      rewrite (proj1 (i_done _ _ _ _ _ _ _ _ _ _ _ _ _ J1 e (proj2 (in_app_iff _ _ _) (or_introl He)))). auto.
    + right. unfold succs. rewrite (i_pend _ _ _ _ _ _ _ _ _ _ _ _ _ J2 y Hy). auto.
Qed.
(*EX
Example C28_example : exists full early,
  ends_with (fun t => t) no_fail default_opts sample [] full /\
  ends_with (fun t => t) no_fail (mkOpts MODE_FLO false false true false false false false false) sample [] early /\
  (List.length (out_children early) < List.length (out_children full))%nat.
Proof.
  do 2 eexists. split; [|split].
  - exists 40%nat; intros fuel lf H1 H2; apply (solve_set_mono _ _ _ _ _ 40 fuel 40 lf H1 H2); vm_compute; reflexivity.
  - exists 40%nat; intros fuel lf H1 H2; apply (solve_set_mono _ _ _ _ _ 40 fuel 40 lf H1 H2); vm_compute; reflexivity.
  - vm_compute; repeat constructor.
Qed.
EX*)

(* C32: on every closed graph, also cyclic or with shared nodes, the traversal ends without a missing
   key, and the unique count of each node is the number of nodes reachable from it *)
Lemma p_C32_unique_counts : forall (g : graph) root,
  closed_graph g -> In root (dkeys g) ->
  exists N stats redundants, (forall fuel, (N <= fuel)%nat -> construct_graph_stats fuel root g = Ok (stats, redundants)) /\
    forall n, In n (dkeys g) -> exists u rn rh R, dget text_eqb n stats = Some (u, rn, rh) /\
      NoDup R /\ (forall x, In x R <-> reaches (succs g) n x) /\ u = Z.of_nat (List.length R).
Proof.
  intros g root G Hr. set (f := S (List.length (dkeys g))).
  destruct (construct_stats_spec g G f root) as (stats & rr & E & H); [unfold f; lia|auto|].
  exists f, stats, rr. split.
  - intros fuel Hf. unfold construct_graph_stats in *. eapply graph_stats_mono; eauto.
  - intros n Hn. destruct (H n Hn) as ([[u rn] rh] & Eg & Hs).
    destruct (stat_counts g n u rn rh Hs) as (R & T & A1 & A2 & A3 & _). exists u, rn, rh, R. auto.
Qed.
(* C33: redundant hits are the edges leaving the reachable nodes, minus the nodes, plus one; the
   redundant count is the number of reachable nodes arrived at at least twice *)
Lemma p_C33_redundancy_counts : forall (g : graph) root,
  closed_graph g -> In root (dkeys g) ->
  exists N stats redundants, (forall fuel, (N <= fuel)%nat -> construct_graph_stats fuel root g = Ok (stats, redundants)) /\
    forall n, In n (dkeys g) -> exists u rn rh R T, dget text_eqb n stats = Some (u, rn, rh) /\
      NoDup R /\ (forall x, In x R <-> reaches (succs g) n x) /\
      rh = Z.of_nat (List.length (flat_map (succs g) R)) - Z.of_nat (List.length R) + 1 /\
      NoDup T /\ rn = Z.of_nat (List.length T) /\
      (forall x, In x T <-> In x R /\ (2 <= count_occ text_dec (n :: flat_map (succs g) R) x)%nat).
Proof.
  intros g root G Hr. set (f := S (List.length (dkeys g))).
  destruct (construct_stats_spec g G f root) as (stats & rr & E & H); [unfold f; lia|auto|].
  exists f, stats, rr. split.
  - intros fuel Hf. unfold construct_graph_stats in *. eapply graph_stats_mono; eauto.
  - intros n Hn. destruct (H n Hn) as ([[u rn] rh] & Eg & Hs).
    destruct (stat_counts g n u rn rh Hs) as (R & T & A1 & A2 & A3 & A4 & A5 & A6 & A7). exists u, rn, rh, R, T. auto 10.
Qed.
(*EX
(* a cyclic graph with a shared node *)
Definition cyclic : graph :=
  [(txt "a", [txt "b"; txt "c"]); (txt "b", [txt "c"; txt "c"]); (txt "c", [txt "a"])].
Example C33_example : closed_graph cyclic /\ In (txt "a") (dkeys cyclic) /\
  exists rr, construct_graph_stats 10 (txt "a") cyclic =
    Ok ([(txt "a", (3, 2, 3)); (txt "b", (3, 2, 3)); (txt "c", (3, 1, 3))], rr).
Proof.
  split; [|split; [left; reflexivity|eexists; vm_compute; reflexivity]].
  split.
  - repeat constructor; simpl; intros H; repeat (destruct H as [H|H]; [discriminate|]); destruct H.
  - intros n H x Hx. vm_compute in H. repeat (destruct H as [<-|H]; [vm_compute in Hx; vm_compute; tauto|]). destruct H.
Qed.
EX*)

Lemma inv_connected hash o F n L K lf m db r p done pend : Inv hash o F n L K lf m db r p done pend ->
  forall y, In y (ys done pend) -> reaches (succs (p_children p)) (sid r) (sid y).
Proof.
  intros I. assert (H : forall d y, (depth y <= d)%nat -> In y (ys done pend) -> reaches (succs (p_children p)) (sid r) (sid y)).
  { induction d as [|d IH]; intros y Hd Hy; destruct (i_conn _ _ _ _ _ _ _ _ _ _ _ _ _ I y Hy) as [->|(e & He & Hk & Hlt)];
      try constructor; try lia.
    eapply reaches_step.
    - apply (IH (e_node e)); [lia|]. unfold ys. apply in_app_iff. left. apply in_map; auto.
    - unfold succs. rewrite (proj1 (i_done _ _ _ _ _ _ _ _ _ _ _ _ _ I e He)). auto. }
  intros y. apply (H (depth y)). auto.
Qed.
(* C32/C33 for a finished run: whether or not the statistics pass is run, the reported number of unique
   nodes is the number of recorded nodes, and the reported hits the number of edges in excess *)
Lemma p_C32_reported_uniques : forall hash insert_fails o root db out,
  root_ok root -> fresh_db o insert_fails db -> ends_with hash insert_fails o root db out ->
  let g := out_children out in
  out_uniques out = Z.of_nat (List.length g) /\
  out_hits out = Z.of_nat (List.length (flat_map (succs g) (dkeys g))) - Z.of_nat (List.length g) + 1.
Proof.
  intros hash ifl o root db out RO FD E g. unfold g. clear g.
  destruct (ends_solved hash ifl o root db RO FD out E) as (r & p & done & pend & S).
  pose proof (sv_inv _ _ _ _ _ _ _ _ _ _ _ S) as I.
  rewrite (sv_children _ _ _ _ _ _ _ _ _ _ _ S). pose proof (i_keys _ _ _ _ _ _ _ _ _ _ _ _ _ I) as Ek.
  assert (El : List.length (p_children p) = List.length (ys done pend)).
  { rewrite <- (map_length fst). change (map fst (p_children p)) with (dkeys (p_children p)).
    rewrite Ek, map_length. auto. }
  assert (Ef : flat_map (succs (p_children p)) (dkeys (p_children p)) = flat_map e_kids done).
  { rewrite Ek. unfold ys. rewrite map_app, flat_map_app, map_map.
    assert (H1 : forall l, incl l done -> flat_map (succs (p_children p)) (map (fun e => sid (e_node e)) l) = flat_map e_kids l).
    { induction l as [|e l IH]; intros Hl; simpl; auto. f_equal.
      - unfold succs. rewrite (proj1 (i_done _ _ _ _ _ _ _ _ _ _ _ _ _ I e (Hl e (or_introl eq_refl)))). auto.
      - apply IH. intros x Hx. apply Hl; right; auto. }
    assert (H2 : forall l, incl l pend -> flat_map (succs (p_children p)) (map sid l) = []).
    { induction l as [|e l IH]; intros Hl; simpl; auto.
      unfold succs at 1. rewrite (i_pend _ _ _ _ _ _ _ _ _ _ _ _ _ I e (Hl e (or_introl eq_refl))).
      apply IH. intros x Hx. apply Hl; right; auto. }
    rewrite H1, H2, app_nil_r by apply incl_refl. auto. }
  destruct (o_no_stats o) eqn:En.
  - destruct (sv_nostats _ _ _ _ _ _ _ _ _ _ _ S En) as (-> & _ & -> & _).
    pose proof (i_uniq _ _ _ _ _ _ _ _ _ _ _ _ _ I) as Hu. pose proof (i_hits _ _ _ _ _ _ _ _ _ _ _ _ _ I) as Hh.
    rewrite El, Ef. lia.
  - destruct (sv_stats _ _ _ _ _ _ _ _ _ _ _ S En) as (fuel & stats & rr & _ & _ & Hrow & _).
    destruct (stat_counts _ _ _ _ _ Hrow) as (R & T & A1 & A2 & A3 & A4 & _).
    assert (P : Permutation R (dkeys (p_children p))).
    { apply NoDup_Permutation; auto.
      - rewrite Ek. apply I.
      - intros x. rewrite A2. split.
        + intros Hx. destruct (inv_closed _ _ _ _ _ _ _ _ _ _ _ _ _ I) as [[_ Hc] _].
          remember (sid r) as i eqn:Ei. induction Hx as [i|a b c Hab IH Hbc].
          * rewrite Ei, Ek. apply in_map. pose proof (i_root _ _ _ _ _ _ _ _ _ _ _ _ _ I) as Hr.
            destruct (ys done pend); [discriminate|]. inv Hr. left; auto.
          * apply (Hc b); auto.
        + rewrite Ek. intros Hx. apply in_map_iff in Hx as (y & <- & Hy). eapply inv_connected; eauto. }
    rewrite A3, A4. rewrite (Permutation_length (Permutation_flat_map _ P)).
    rewrite (Permutation_length P). unfold dkeys. rewrite map_length. lia.
Qed.

(* C45: breadth first.  At every moment of a run, the sets expanded so far followed by those waiting are
   in order of non-decreasing branching depth, and no depth exceeds that of a waiting set by more than 1 *)
Lemma p_C45_breadth_first : forall hash insert_fails o root db lf r p0 expanded p waiting,
  root_ok root -> fresh_db o insert_fails db ->
  prepare_root hash lf o root = Ok r -> start hash o r db = Ok p0 ->
  exec hash insert_fails o [] lf (branch_mode o) p0 expanded p -> drains (p_queue p) waiting ->
  StronglySorted le (map depth (expanded ++ waiting)) /\
  (forall x y, In x waiting -> In y (expanded ++ waiting) -> (depth y <= S (depth x))%nat).
Proof.
  intros hash ifl o root db lf r p0 xs p ps RO FD Hp Hs He Hd.
  destruct (exec_facts_any _ _ _ _ _ _ _ _ _ _ _ RO FD Hp Hs He Hd) as (_ & _ & A & B). auto.
Qed.

(* C46: the drawing shows the recorded graph: one box per recorded node and one arrow per recorded
   child, nothing without the graph option *)
Lemma p_C46_drawing_shows_graph : forall hash insert_fails o root db out,
  root_ok root -> fresh_db o insert_fails db -> ends_with hash insert_fails o root db out ->
  (o_graph o = false -> out_dot out = []) /\
  (o_graph o = true ->
     dot_nodes (out_dot out) = dkeys (out_children out) /\
     dot_edges (out_dot out) =
       flat_map (fun n => map (pair n) (succs (out_children out) n)) (dkeys (out_children out)) /\
     (o_no_stats o = true -> Z.of_nat (List.length (dot_reds (out_dot out))) = out_hits out) /\
     (out_sat out = true <-> exists n, In (n, true) (dot_leaf_edges (out_dot out)))).
Proof.
  intros hash ifl o root db out RO FD E.
  destruct (ends_solved hash ifl o root db RO FD out E) as (r & p & done & pend & S).
  pose proof (sv_inv _ _ _ _ _ _ _ _ _ _ _ S) as I.
  rewrite (sv_children _ _ _ _ _ _ _ _ _ _ _ S), (sv_dot _ _ _ _ _ _ _ _ _ _ _ S), (sv_sat _ _ _ _ _ _ _ _ _ _ _ S).
  pose proof (i_keys _ _ _ _ _ _ _ _ _ _ _ _ _ I) as Ek.
  split; [apply I|]. intros Hg. split; [|split; [|split]].
  - rewrite (i_dot1 _ _ _ _ _ _ _ _ _ _ _ _ _ I Hg), Ek. auto.
  - rewrite (i_dot2 _ _ _ _ _ _ _ _ _ _ _ _ _ I Hg), Ek. unfold ys. rewrite map_app, flat_map_app, map_map.
    assert (H1 : forall l, incl l done ->
       flat_map (fun n => map (pair n) (succs (p_children p) n)) (map (fun e => sid (e_node e)) l) = flat_map e_edges l).
    { induction l as [|e l IH]; intros Hl; simpl; auto. f_equal.
      - unfold succs. rewrite (proj1 (i_done _ _ _ _ _ _ _ _ _ _ _ _ _ I e (Hl e (or_introl eq_refl)))). auto.
      - apply IH. intros x Hx. apply Hl; right; auto. }
    assert (H2 : forall l, incl l pend -> flat_map (fun n => map (pair n) (succs (p_children p) n)) (map sid l) = []).
    { induction l as [|e l IH]; intros Hl; simpl; auto.
      unfold succs at 1. rewrite (i_pend _ _ _ _ _ _ _ _ _ _ _ _ _ I e (Hl e (or_introl eq_refl))).
      apply IH. intros x Hx. apply Hl; right; auto. }
    rewrite H1, H2, app_nil_r by apply incl_refl. auto.
  - intros Hn. destruct (sv_nostats _ _ _ _ _ _ _ _ _ _ _ S Hn) as (_ & _ & -> & _). apply I; auto.
  - rewrite (i_dot3 _ _ _ _ _ _ _ _ _ _ _ _ _ I Hg), (i_sat _ _ _ _ _ _ _ _ _ _ _ _ _ I). split.
    + intros Ht. destruct (true_leaves done) as [|d l] eqn:El; [discriminate|].
      destruct (true_leaf_entry done d) as (x & k1 & k2 & He & Hk); [rewrite El; left; auto|].
      exists (sid x). apply in_flat_map. exists (x, k1, k2). split; auto.
      unfold e_leaf_edges. cbn [e_node fst snd]. apply in_map. apply in_app_iff. destruct Hk as [->| ->]; simpl; auto.
    + intros (n & Hn). apply in_flat_map in Hn as ([[x k1] k2] & He & Hn). unfold e_leaf_edges in Hn.
      apply in_map_iff in Hn as (v & Ev & Hv). injection Ev as _ ->. cbn [fst snd] in Hv. apply in_app_iff in Hv.
      assert (Hd : exists d, In d (true_leaves done)).
      { destruct Hv as [Hv|Hv]; [destruct k1 as [[|] d|c]|destruct k2 as [[|] d|c]]; simpl in Hv;
          try (destruct Hv as [Hv|[]]; discriminate); try contradiction;
          exists d; apply in_flat_map; exists (x, k1, k2) || (eexists; split; [exact He|]);
          unfold e_true; cbn [fst snd true_leaf]; try (apply in_app_iff; simpl; auto). }
      destruct Hd as [d Hd]. destruct (true_leaves done); [destruct Hd|auto].
Qed.

(* C46: the colours: a box is marked red once for every arrow that leads to it beyond the first, so that exactly those
   that two arrows lead to are red; the first box, which no branch discovered, for every arrow *)
Lemma p_C46_red_boxes : forall hash insert_fails o root db out,
  root_ok root -> fresh_db o insert_fails db -> ends_with hash insert_fails o root db out -> o_graph o = true ->
  exists first rest, dot_nodes (out_dot out) = first :: rest /\ NoDup (first :: rest) /\
    let arrows := fun n => count_occ text_dec (map snd (dot_edges (out_dot out))) n in
    let marks := fun n => count_occ text_dec (dot_reds (out_dot out)) n in
    (forall n, In n rest -> arrows n = S (marks n) /\ (In n (dot_reds (out_dot out)) <-> (2 <= arrows n)%nat)) /\
    arrows first = marks first /\
    (forall n, ~ In n (first :: rest) -> arrows n = 0%nat /\ marks n = 0%nat).
Proof.
  intros hash ifl o root db out RO FD E Hg.
  destruct (ends_solved hash ifl o root db RO FD out E) as (r & p & done & pend & S).
  pose proof (sv_inv _ _ _ _ _ _ _ _ _ _ _ S) as I. rewrite (sv_dot _ _ _ _ _ _ _ _ _ _ _ S).
  pose proof (i_dot6 _ _ _ _ _ _ _ _ _ _ _ _ _ I Hg) as A. pose proof (i_nodup _ _ _ _ _ _ _ _ _ _ _ _ _ I) as ND.
  pose proof (i_root _ _ _ _ _ _ _ _ _ _ _ _ _ I) as Er. pose proof (i_dot1 _ _ _ _ _ _ _ _ _ _ _ _ _ I Hg) as D.
  pose proof (i_dot2 _ _ _ _ _ _ _ _ _ _ _ _ _ I Hg) as D2.
  assert (In2 : forall n, In n (map snd (dot_edges (p_dot p))) -> In n (dot_nodes (p_dot p))).
  { intros n J. rewrite D2 in J. apply in_map_iff in J as ((a, b) & <- & J). apply in_flat_map in J as ([[x k1] k2] & He & J).
    unfold e_edges in J. apply in_map_iff in J as (i & J & K). injection J as _ <-. cbn [snd]. rewrite D.
    destruct (i_done _ _ _ _ _ _ _ _ _ _ _ _ _ I _ He) as [_ C]. apply C. exact K. }
  destruct (ys done pend) as [|x xs]; [discriminate|]. injection Er as ->. cbn [map] in D, ND. rewrite D in A, In2 |- *.
  exists (sid r), (map sid xs). split; [reflexivity|]. split; [exact ND|]. cbv zeta.
  assert (C1 : forall n, In n (map sid xs) -> count_occ text_dec (sid r :: map sid xs) n = 1%nat /\ count_occ text_dec [sid r] n = 0%nat).
  { intros n J. split; [apply NoDup_count_occ'; [exact ND|right; exact J]|]. apply count_occ_not_In. intros [<-|[]]. inv ND. auto. }
  split; [|split].
  - intros n J. specialize (A n). destruct (C1 n J) as [K1 K2]. rewrite K1, K2 in A. split; [lia|].
    rewrite (count_occ_In text_dec). split; intros H; lia.
  - specialize (A (sid r)). rewrite (proj1 (NoDup_count_occ' text_dec _) ND (sid r) (or_introl eq_refl)) in A.
    replace (count_occ text_dec [sid r] (sid r)) with 1%nat in A; [lia|]. cbn [count_occ]. destruct (text_dec (sid r) (sid r)); congruence.
  - intros n J. specialize (A n). rewrite (proj1 (count_occ_not_In text_dec _ n) J) in A.
    assert (Z0 : count_occ text_dec (map snd (dot_edges (p_dot p))) n = 0%nat) by (apply count_occ_not_In; intros K; exact (J (In2 n K))).
    assert (Z1 : count_occ text_dec [sid r] n = 0%nat) by (apply count_occ_not_In; intros [<-|[]]; apply J; left; reflexivity).
    lia.
Qed.

(* C46: every box has two arrows that leave it, to boxes or to the leaves True and False, one for each value of its branching
   variable; only with -e, once a solution is found, some boxes have none: those still waiting *)
Lemma p_C46_two_arrows : forall hash insert_fails o root db out,
  root_ok root -> fresh_db o insert_fails db -> ends_with hash insert_fails o root db out -> o_graph o = true ->
  forall n, In n (dot_nodes (out_dot out)) ->
    let arrows := (count_occ text_dec (map fst (dot_edges (out_dot out))) n +
                   count_occ text_dec (map fst (dot_leaf_edges (out_dot out))) n)%nat in
    arrows = 2%nat \/ arrows = 0%nat /\ o_exit o = true /\ out_sat out = true.
Proof.
  intros hash ifl o root db out RO FD E Hg n Hn.
  destruct (ends_solved hash ifl o root db RO FD out E) as (r & p & done & pend & S).
  pose proof (sv_inv _ _ _ _ _ _ _ _ _ _ _ S) as I.
  rewrite (sv_dot _ _ _ _ _ _ _ _ _ _ _ S) in *. rewrite (sv_sat _ _ _ _ _ _ _ _ _ _ _ S).
  rewrite (i_dot1 _ _ _ _ _ _ _ _ _ _ _ _ _ I Hg) in Hn. cbv zeta.
  rewrite (i_dot2 _ _ _ _ _ _ _ _ _ _ _ _ _ I Hg), (i_dot3 _ _ _ _ _ _ _ _ _ _ _ _ _ I Hg).
  pose proof (i_nodup _ _ _ _ _ _ _ _ _ _ _ _ _ I) as ND.
  assert (ND1 : forall a b : list digest, NoDup (a ++ b) -> NoDup a).
  { induction a as [|x a IH]; intros b H; [constructor|]. inversion H; subst. constructor; [|eapply IH; eauto].
    intros J. apply H2. apply in_app_iff. auto. }
  assert (ND2 : forall (a b : list digest) x, NoDup (a ++ b) -> In x a -> ~ In x b).
  { induction a as [|y a IH]; intros b x H J K; [destruct J|]. inversion H; subst. destruct J as [->|J].
    - apply H2. apply in_app_iff. auto.
    - eapply IH; eauto. }
  assert (M : forall (A : Type) (i : digest) (l : list A), map fst (map (pair i) l) = repeat i (List.length l)).
  { intros A i l. induction l; cbn [map fst repeat List.length]; [reflexivity|]. f_equal; auto. }
  assert (R : forall (i : digest) k, count_occ text_dec (repeat i k) n = if text_dec i n then k else 0%nat).
  { intros i k. induction k as [|k IH]; cbn [repeat count_occ]; [destruct (text_dec i n); reflexivity|].
    rewrite IH. destruct (text_dec i n); reflexivity. }
  assert (T : forall l, (count_occ text_dec (map fst (flat_map e_edges l)) n + count_occ text_dec (map fst (flat_map e_leaf_edges l)) n =
                         2 * count_occ text_dec (map (fun e => sid (e_node e)) l) n)%nat).
  { induction l as [|e l IH]; [reflexivity|]. cbn [flat_map map]. rewrite !map_app, !count_occ_app.
    unfold e_edges at 1, e_leaf_edges at 1. rewrite !M, !R. cbn [count_occ].
    assert (L : (List.length (e_kids e) + List.length (kid_leaf (snd (fst e)) ++ kid_leaf (snd e)) = 2)%nat).
    { unfold e_kids. rewrite !app_length. destruct (snd (fst e)), (snd e); reflexivity. }
    destruct (text_dec (sid (e_node e)) n); lia. }
  rewrite T. unfold ys in Hn, ND. rewrite map_app, map_map in Hn, ND. apply in_app_iff in Hn as [Hn|Hn].
  - left. rewrite (proj1 (NoDup_count_occ' text_dec _) (ND1 _ _ ND) n Hn). reflexivity.
  - right. assert (Z0 : count_occ text_dec (map (fun e => sid (e_node e)) done) n = 0%nat).
    { apply count_occ_not_In. intros K. exact (ND2 _ _ n ND K Hn). }
    rewrite Z0. split; [reflexivity|].
    pose proof (sv_done _ _ _ _ _ _ _ _ _ _ _ S) as D. unfold loop_done in D.
    rewrite (qrep_empty _ _ _ _ (i_queue _ _ _ _ _ _ _ _ _ _ _ _ _ I)) in D. destruct pend; [destruct Hn|].
    cbn [orb] in D. apply andb_true_iff in D as [D1 D2]. split; [exact D2|].
    rewrite (proj1 (sol_sat _ _ _ _ _ _ _ _ _ _ _ _ _ I)). exact D1.
Qed.
(*EX
Example C46_example : exists out,
  ends_with (fun t => t) no_fail (mkOpts MODE_FLO false false false false false false false true) sample [] out /\
  (5 < List.length (dot_edges (out_dot out)))%nat /\ (0 < List.length (dot_reds (out_dot out)))%nat.
Proof.
  eexists. split.
  - exists 40%nat; intros fuel lf H1 H2; apply (solve_set_mono _ _ _ _ _ 40 fuel 40 lf H1 H2); vm_compute; reflexivity.
  - vm_compute; repeat constructor.
Qed.
EX*)
