(* Properties2.v -- generated by tools/genprops.py from PP2.v: property theorems, their
   assumptions, and examples showing that the hypotheses are met.  Proofs are in PP2.v. *)
From Coq Require Import String Ascii ZArith List Bool Lia Permutation Sorted.
From Verif Require Import Spec PyBase MSet MText MQueue MDb MSolver SpecRun PLib PClause PRename PLo
  PNorm PEval PText PQueue PNode PStep PRun PStats PSolver PSolve PSearch PGraph PP1.
Import ListNotations.
From Verif Require Import PP2.
Open Scope Z_scope.

(* C21: verdict soundness.  Whatever the hash function does, a reported solution is a solution of the
   input formula, and 'not satisfiable' comes without a solution. *)
Theorem C21_sat_verdict_sound : forall hash insert_fails o root db out,
  root_ok root -> fresh_db o insert_fails db -> ends_with hash insert_fails o root db out ->
  (out_sat out = true ->
     satisfiable (raws root) /\
     exists sol, out_solution out = Some sol /\ sol <> [] /\ NoDup (dkeys sol) /\ StronglySorted Z.lt (dkeys sol) /\
       (forall a, extends a sol -> cnf_true a (raws root)) /\
       incl (evaluated_vars root) sol /\
       (forall v, In v (dkeys sol) -> In v (fvars (raws root)) \/ In v (dkeys (evaluated_vars root)))) /\
  (out_sat out = false -> out_solution out = None).
Proof. exact p_C21_sat_verdict_sound. Qed.
Print Assumptions C21_sat_verdict_sound.

Example C21_example : root_ok sample /\ fresh_db default_opts no_fail [] /\
  exists out, ends_with (fun t => t) no_fail default_opts sample [] out /\ out_sat out = true.
Proof.
  split; [apply sample_ok|]. split; [split; discriminate|].
  eexists. split; [exists 40%nat; intros fuel lf H1 H2; apply (solve_set_mono _ _ _ _ _ 40 fuel 40 lf H1 H2);
                   vm_compute; reflexivity|reflexivity].
Qed.

(* C22: verdict completeness: unless two different formulas met in this search have the same hash *)
Theorem C22_verdict_exact : forall hash insert_fails o root db out,
  root_ok root -> fresh_db o insert_fails db -> collision_free hash o root ->
  ends_with hash insert_fails o root db out ->
  (out_sat out = true <-> satisfiable (raws root)).
Proof. exact p_C22_verdict_exact. Qed.
Print Assumptions C22_verdict_exact.

(* C22, the hypothesis on hashes is needed: with a constant hash the search stops too early *)
Theorem C22_collision_refuted : exists root out,
  root_ok root /\ satisfiable (raws root) /\
  ends_with (fun _ => []) no_fail default_opts root [] out /\ out_sat out = false.
Proof. exact p_C22_collision_refuted. Qed.
Print Assumptions C22_collision_refuted.

Example C22_example : collision_free (fun t => t) default_opts sample_unsat /\ root_ok sample_unsat /\
  exists out, ends_with (fun t => t) no_fail default_opts sample_unsat [] out /\ out_sat out = false.
Proof.
  split; [apply never_collides|]. split.
  - split; try reflexivity; try discriminate; try (intros v []; fail).
    + intros c H. vm_compute in H. repeat (destruct H as [<-|H]; [discriminate|]). destruct H.
    + intros c H. vm_compute in H. repeat (destruct H as [<-|H]; [repeat constructor; simpl; lia|]). destruct H.
    + intros c H. vm_compute in H. repeat (destruct H as [<-|H]; [reflexivity|]). destruct H.
    + constructor.
  - eexists. split; [exists 40%nat; intros fuel lf H1 H2; apply (solve_set_mono _ _ _ _ _ 40 fuel 40 lf H1 H2);
                   vm_compute; reflexivity|reflexivity].
Qed.

(* C23: the solver ends with a verdict and raises no exception *)
Theorem C23_solver_terminates : forall hash insert_fails o root db,
  root_ok root -> fresh_db o insert_fails db -> exists out, ends_with hash insert_fails o root db out.
Proof. exact p_C23_solver_terminates. Qed.
Print Assumptions C23_solver_terminates.

(* C24: the verdict does not depend on the options *)
Theorem C24_verdict_option_independent : forall hash insert_fails1 insert_fails2 o1 o2 root db1 db2 out1 out2,
  root_ok root -> fresh_db o1 insert_fails1 db1 -> fresh_db o2 insert_fails2 db2 ->
  collision_free hash o1 root -> collision_free hash o2 root ->
  ends_with hash insert_fails1 o1 root db1 out1 -> ends_with hash insert_fails2 o2 root db2 out2 ->
  out_sat out1 = out_sat out2.
Proof. exact p_C24_verdict_option_independent. Qed.
Print Assumptions C24_verdict_option_independent.

(* C25: the built-in verifier answers True exactly when every clause contains a literal made true by an
   assigned variable *)
Theorem C25_verifier_exact : forall (cnf : cset) (d : list (Z * bool)),
  verify_solution cnf d = true <->
  forall c, In c (raws cnf) -> exists l, In l c /\ ((0 < l /\ In (l, true) d) \/ (l < 0 /\ In (- l, false) d)).
Proof. exact p_C25_verifier_exact. Qed.
Print Assumptions C25_verifier_exact.

(* C25: every solution the solver finds is accepted by the verifier (literal 0 excepted) *)
Theorem C25_found_solution_verifies : forall hash insert_fails o root db out sol,
  root_ok root -> fresh_db o insert_fails db -> (forall v, In v (fvars (raws root)) -> v <> 0) ->
  ends_with hash insert_fails o root db out -> out_solution out = Some sol ->
  verify_solution root sol = true.
Proof. exact p_C25_found_solution_verifies. Qed.
Print Assumptions C25_found_solution_verifies.

(* C25, literal 0 (accepted by the single-line reader): a correct solution is rejected *)
Theorem C25_literal_zero_refuted : exists root out sol,
  root_ok root /\ ends_with (fun t => t) no_fail default_opts root [] out /\ out_solution out = Some sol /\
  (forall a, extends a sol -> cnf_true a (raws root)) /\ verify_solution root sol = false.
Proof. exact p_C25_literal_zero_refuted. Qed.
Print Assumptions C25_literal_zero_refuted.

(* C26: at every moment of a run the sets already expanded and those still waiting have pairwise
   different ids, and the recorded graph has exactly these ids as nodes *)
Theorem C26_expanded_once : forall hash insert_fails o root db lf r p0 expanded p waiting,
  root_ok root -> fresh_db o insert_fails db ->
  prepare_root hash lf o root = Ok r -> start hash o r db = Ok p0 ->
  exec hash insert_fails o [] lf (branch_mode o) p0 expanded p -> drains (p_queue p) waiting ->
  NoDup (map sid (expanded ++ waiting)) /\ dkeys (p_children p) = map sid (expanded ++ waiting).
Proof. exact p_C26_expanded_once. Qed.
Print Assumptions C26_expanded_once.

Example C26_example : exists lf r p0 expanded p waiting,
  prepare_root (fun t => t) lf default_opts sample = Ok r /\ start (fun t => t) default_opts r [] = Ok p0 /\
  exec (fun t => t) no_fail default_opts [] lf (branch_mode default_opts) p0 expanded p /\
  drains (p_queue p) waiting /\ List.length expanded = 2%nat /\ List.length waiting = 3%nat.
Proof.
  exists 40%nat. do 5 eexists. split; [vm_compute; reflexivity|]. split; [vm_compute; reflexivity|]. split.
  - eapply exec_cons; [vm_compute; reflexivity|vm_compute; reflexivity|vm_compute; reflexivity|].
    eapply exec_cons; [vm_compute; reflexivity|vm_compute; reflexivity|vm_compute; reflexivity|].
    apply exec_nil.
  - split; [|split; [reflexivity|]].
    + repeat (eapply drains_cons; [vm_compute; reflexivity|]). apply drains_nil. reflexivity.
    + reflexivity.
Qed.

(* C26: the graph recorded by a finished run is closed and has at most two children per node; with
   early exit too *)
Theorem C26_graph_closed : forall hash insert_fails o root db out,
  root_ok root -> fresh_db o insert_fails db -> ends_with hash insert_fails o root db out ->
  closed_graph (out_children out) /\
  forall h, In h (dkeys (out_children out)) -> (List.length (succs (out_children out) h) <= 2)%nat.
Proof. exact p_C26_graph_closed. Qed.
Print Assumptions C26_graph_closed.

(* C27: the nodes of the recorded graph are the normalised formulas met when branching from the
   normalised input, and the children recorded for a node are its undecided cofactors, true branch
   first *)
Theorem C27_graph_of_formulas : forall hash insert_fails o root db out,
  root_ok root -> fresh_db o insert_fails db -> collision_free hash o root ->
  o_exit o = false -> o_thief o = false -> ends_with hash insert_fails o root db out ->
  let m := branch_mode o in let z := o_sort_by_size o in
  exists G0, normal_form (o_mode o) z (raws root) G0 /\
    (forall h, In h (dkeys (out_children out)) <-> exists G, met m z G0 G /\ h = hash (formula_text G)) /\
    (forall G, met m z G0 G -> exists lb rb,
        child_ids hash m z true G lb /\ child_ids hash m z false G rb /\
        dget text_eqb (hash (formula_text G)) (out_children out) = Some (lb ++ rb)).
Proof. exact p_C27_graph_of_formulas. Qed.
Print Assumptions C27_graph_of_formulas.

Example C27_example : o_exit default_opts = false /\ o_thief default_opts = false /\
  collision_free (fun t => t) default_opts sample /\ root_ok sample /\ fresh_db default_opts no_fail [] /\
  exists out, ends_with (fun t => t) no_fail default_opts sample [] out /\ (6 < List.length (out_children out))%nat.
Proof.
  split; [reflexivity|]. split; [reflexivity|]. split; [apply never_collides|]. split; [apply sample_ok|].
  split; [split; discriminate|].
  eexists. split; [exists 40%nat; intros fuel lf H1 H2; apply (solve_set_mono _ _ _ _ _ 40 fuel 40 lf H1 H2);
                   vm_compute; reflexivity|vm_compute; repeat constructor].
Qed.

(* C28: stopping at the first solution gives the same verdict and solution; the nodes recorded until
   then are the first ones recorded by the full run, and those already expanded have the same children *)
Theorem C28_early_exit : forall hash if1 if2 o1 o2 root db1 db2 full early,
  root_ok root -> fresh_db o1 if1 db1 -> fresh_db o2 if2 db2 ->
  o_mode o1 = o_mode o2 -> o_sort_by_size o1 = o_sort_by_size o2 -> o_thief o1 = o_thief o2 ->
  o_rdb o1 = o_rdb o2 -> o_exit o1 = false -> o_exit o2 = true ->
  ends_with hash if1 o1 root db1 full -> ends_with hash if2 o2 root db2 early ->
  out_sat early = out_sat full /\ out_solution early = out_solution full /\
  (exists more, dkeys (out_children full) = dkeys (out_children early) ++ more) /\
  (forall h, In h (dkeys (out_children early)) ->
     succs (out_children early) h = succs (out_children full) h \/ succs (out_children early) h = []).
Proof. exact p_C28_early_exit. Qed.
Print Assumptions C28_early_exit.

Example C28_example : exists full early,
  ends_with (fun t => t) no_fail default_opts sample [] full /\
  ends_with (fun t => t) no_fail (mkOpts MODE_FLO false false true false false false false false) sample [] early /\
  (List.length (out_children early) < List.length (out_children full))%nat.
Proof.
  do 2 eexists. split; [|split].
  - exists 40%nat; intros fuel lf H1 H2; apply (solve_set_mono _ _ _ _ _ 40 fuel 40 lf H1 H2); vm_compute; reflexivity.
  - exists 40%nat; intros fuel lf H1 H2; apply (solve_set_mono _ _ _ _ _ 40 fuel 40 lf H1 H2); vm_compute; reflexivity.
  - vm_compute; repeat constructor.
Qed.

(* C32: on every closed graph, also cyclic or with shared nodes, the traversal ends without a missing
   key, and the unique count of each node is the number of nodes reachable from it *)
Theorem C32_unique_counts : forall (g : graph) root,
  closed_graph g -> In root (dkeys g) ->
  exists N stats redundants, (forall fuel, (N <= fuel)%nat -> construct_graph_stats fuel root g = Ok (stats, redundants)) /\
    forall n, In n (dkeys g) -> exists u rn rh R, dget text_eqb n stats = Some (u, rn, rh) /\
      NoDup R /\ (forall x, In x R <-> reaches (succs g) n x) /\ u = Z.of_nat (List.length R).
Proof. exact p_C32_unique_counts. Qed.
Print Assumptions C32_unique_counts.

(* C33: redundant hits are the edges leaving the reachable nodes, minus the nodes, plus one; the
   redundant count is the number of reachable nodes arrived at at least twice *)
Theorem C33_redundancy_counts : forall (g : graph) root,
  closed_graph g -> In root (dkeys g) ->
  exists N stats redundants, (forall fuel, (N <= fuel)%nat -> construct_graph_stats fuel root g = Ok (stats, redundants)) /\
    forall n, In n (dkeys g) -> exists u rn rh R T, dget text_eqb n stats = Some (u, rn, rh) /\
      NoDup R /\ (forall x, In x R <-> reaches (succs g) n x) /\
      rh = Z.of_nat (List.length (flat_map (succs g) R)) - Z.of_nat (List.length R) + 1 /\
      NoDup T /\ rn = Z.of_nat (List.length T) /\
      (forall x, In x T <-> In x R /\ (2 <= count_occ text_dec (n :: flat_map (succs g) R) x)%nat).
Proof. exact p_C33_redundancy_counts. Qed.
Print Assumptions C33_redundancy_counts.

(* a cyclic graph with a shared node *)
Definition cyclic : graph :=
  [(txt "a", [txt "b"; txt "c"]); (txt "b", [txt "c"; txt "c"]); (txt "c", [txt "a"])].
Example C33_example : closed_graph cyclic /\ In (txt "a") (dkeys cyclic) /\
  exists rr, construct_graph_stats 10 (txt "a") cyclic =
    Ok ([(txt "a", (3, 2, 3)); (txt "b", (3, 2, 3)); (txt "c", (3, 1, 3))], rr).
Proof.
  split; [|split; [left; reflexivity|eexists; vm_compute; reflexivity]].
  split.
  - repeat constructor; simpl; intros H; repeat (destruct H as [H|H]; [discriminate|]); destruct H.
  - intros n H x Hx. vm_compute in H. repeat (destruct H as [<-|H]; [vm_compute in Hx; vm_compute; tauto|]). destruct H.
Qed.

(* C32/C33 for a finished run: whether or not the statistics pass is run, the reported number of unique
   nodes is the number of recorded nodes, and the reported hits the number of edges in excess *)
Theorem C32_reported_uniques : forall hash insert_fails o root db out,
  root_ok root -> fresh_db o insert_fails db -> ends_with hash insert_fails o root db out ->
  let g := out_children out in
  out_uniques out = Z.of_nat (List.length g) /\
  out_hits out = Z.of_nat (List.length (flat_map (succs g) (dkeys g))) - Z.of_nat (List.length g) + 1.
Proof. exact p_C32_reported_uniques. Qed.
Print Assumptions C32_reported_uniques.

(* C45: breadth first.  At every moment of a run, the sets expanded so far followed by those waiting are
   in order of non-decreasing branching depth, and no depth exceeds that of a waiting set by more than 1 *)
Theorem C45_breadth_first : forall hash insert_fails o root db lf r p0 expanded p waiting,
  root_ok root -> fresh_db o insert_fails db ->
  prepare_root hash lf o root = Ok r -> start hash o r db = Ok p0 ->
  exec hash insert_fails o [] lf (branch_mode o) p0 expanded p -> drains (p_queue p) waiting ->
  StronglySorted le (map depth (expanded ++ waiting)) /\
  (forall x y, In x waiting -> In y (expanded ++ waiting) -> (depth y <= S (depth x))%nat).
Proof. exact p_C45_breadth_first. Qed.
Print Assumptions C45_breadth_first.

(* C46: the drawing shows the recorded graph: one box per recorded node and one arrow per recorded
   child, nothing without the graph option *)
Theorem C46_drawing_shows_graph : forall hash insert_fails o root db out,
  root_ok root -> fresh_db o insert_fails db -> ends_with hash insert_fails o root db out ->
  (o_graph o = false -> out_dot out = []) /\
  (o_graph o = true ->
     dot_nodes (out_dot out) = dkeys (out_children out) /\
     dot_edges (out_dot out) =
       flat_map (fun n => map (pair n) (succs (out_children out) n)) (dkeys (out_children out)) /\
     (o_no_stats o = true -> Z.of_nat (List.length (dot_reds (out_dot out))) = out_hits out) /\
     (out_sat out = true <-> exists n, In (n, true) (dot_leaf_edges (out_dot out)))).
Proof. exact p_C46_drawing_shows_graph. Qed.
Print Assumptions C46_drawing_shows_graph.

(* C46: the colours: a box is marked red once for every arrow that leads to it beyond the first, so that exactly those
   that two arrows lead to are red; the first box, which no branch discovered, for every arrow *)
Theorem C46_red_boxes : forall hash insert_fails o root db out,
  root_ok root -> fresh_db o insert_fails db -> ends_with hash insert_fails o root db out -> o_graph o = true ->
  exists first rest, dot_nodes (out_dot out) = first :: rest /\ NoDup (first :: rest) /\
    let arrows := fun n => count_occ text_dec (map snd (dot_edges (out_dot out))) n in
    let marks := fun n => count_occ text_dec (dot_reds (out_dot out)) n in
    (forall n, In n rest -> arrows n = S (marks n) /\ (In n (dot_reds (out_dot out)) <-> (2 <= arrows n)%nat)) /\
    arrows first = marks first /\
    (forall n, ~ In n (first :: rest) -> arrows n = 0%nat /\ marks n = 0%nat).
Proof. exact p_C46_red_boxes. Qed.
Print Assumptions C46_red_boxes.

(* C46: every box has two arrows that leave it, to boxes or to the leaves True and False, one for each value of its branching
   variable; only with -e, once a solution is found, some boxes have none: those still waiting *)
Theorem C46_two_arrows : forall hash insert_fails o root db out,
  root_ok root -> fresh_db o insert_fails db -> ends_with hash insert_fails o root db out -> o_graph o = true ->
  forall n, In n (dot_nodes (out_dot out)) ->
    let arrows := (count_occ text_dec (map fst (dot_edges (out_dot out))) n +
                   count_occ text_dec (map fst (dot_leaf_edges (out_dot out))) n)%nat in
    arrows = 2%nat \/ arrows = 0%nat /\ o_exit o = true /\ out_sat out = true.
Proof. exact p_C46_two_arrows. Qed.
Print Assumptions C46_two_arrows.

Example C46_example : exists out,
  ends_with (fun t => t) no_fail (mkOpts MODE_FLO false false false false false false false true) sample [] out /\
  (5 < List.length (dot_edges (out_dot out)))%nat /\ (0 < List.length (dot_reds (out_dot out)))%nat.
Proof.
  eexists. split.
  - exists 40%nat; intros fuel lf H1 H2; apply (solve_set_mono _ _ _ _ _ 40 fuel 40 lf H1 H2); vm_compute; reflexivity.
  - vm_compute; repeat constructor.
Qed.
