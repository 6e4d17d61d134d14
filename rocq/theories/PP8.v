(* PP8.v -- proofs of C39 (resuming on the table of an interrupted run); Properties8.v states them. *)
From Coq Require Import String Ascii ZArith List Bool Lia Permutation Sorted.
From Verif Require Import Spec PyBase MSet MText MQueue MDb MSolver SpecRun PLib PClause PRename PLo PNorm PEval PText PQueue PNode PStep PRun PStats PSolver PSolve PSearch PDb PResume PReplay PResumed PP1 PP2.
Import ListNotations.
Open Scope Z_scope.

(* a searched set and the constants never have the same text *)
Lemma distinct_constants : forall o root, root_ok root -> constants_distinct (fun t => t) o root.
Proof.
  intros o root RO. split; [vm_compute; discriminate|]. intros x t Hx Et.
  destruct (prepare_root_spec (fun t => t) o (root_bound root) (root_L root) root RO (root_below root) (le_n _))
    as (r & Ep & N & Hs & Hc & W & _).
  pose proof (searched_reach _ o root _ r x RO (le_n _) Ep Hx) as Rx.
  assert (Nr : is_node (fun t => t) (raws root) (root_n root) (root_L root) (root_K root) r) by (split; auto).
  destruct (reach_node _ _ _ _ _ _ _ _ _ _ Nr (le_n _) Rx) as (Nx & _).
  rewrite (node_text _ _ Nx) in Et. injection Et as <-.
  destruct (node_nonempty _ _ Nx) as [A B]. apply formula_text_not_const; auto.
Qed.
(* running the loop k times *)
Fixpoint steps (hash : text -> digest) (ifl : digest -> bool) (o : opts) (lf : nat) (m : mode) (k : nat) (p : pstate)
  : result (list cset * pstate) :=
  match k with
  | O => Ok ([], p)
  | S k => if loop_done o p then OutOfFuel else
      '(x, _) <- queue_pop (p_queue p) ;; p1 <- step hash ifl o [] lf m p ;;
      '(xs, p') <- steps hash ifl o lf m k p1 ;; Ok (x :: xs, p')
  end.
Lemma steps_exec hash ifl o lf m : forall k p xs p', steps hash ifl o lf m k p = Ok (xs, p') ->
  exec hash ifl o [] lf m p xs p'.
Proof.
  induction k as [|k IH]; intros p xs p' H; cbn [steps] in H; [injection H as <- <-; constructor|].
  destruct (loop_done o p) eqn:El; [discriminate|]. apply bind_ok in H as ([x q] & E1 & H).
  apply bind_ok in H as (p1 & E2 & H). apply bind_ok in H as ([xs' p2] & E3 & H). injection H as <- <-.
  econstructor; eauto.
Qed.

(* C39: a child loaded from the global table carries no variable maps; unless it is a constant it cannot
   be branched: doing so raises an exception *)
Lemma p_C39_loaded_child : forall hash t h s, child_from_gdb hash t h = Some s ->
  evaluated_vars s = [] /\ original_values s = [] /\ final_names_map s = [] /\
  (svalue s = None -> raws s <> [] -> nonempty_clauses (raws s) -> evaluate s = Err IndexError).
Proof.
  intros hash t h s H.
  assert (G : evaluated_vars s = [] /\ original_values s = [] /\ final_names_map s = []).
  { unfold child_from_gdb in H.
    destruct (text_eqb h (TRUE_SET_HASH hash)); [injection H as <-; auto|].
    destruct (text_eqb h (FALSE_SET_HASH hash)); [injection H as <-; auto|].
    destruct (gs_get_set_data t h) as [w|]; [|discriminate]. injection H as <-.
    assert (A : forall cls k s0, evaluated_vars (add_numbered s0 k cls) = evaluated_vars s0 /\
              original_values (add_numbered s0 k cls) = original_values s0 /\
              final_names_map (add_numbered s0 k cls) = final_names_map s0).
    { induction cls as [|c cls IH]; intros k s0; cbn [add_numbered]; auto. 
      destruct (IH (k + 1) (add_clause s0 (with_index (clause_init c) k))) as (E1 & E2 & E3).
      rewrite E1, E2, E3. unfold add_clause. destruct (svalue s0) as [[]|]; auto; destruct (cvalue (with_index (clause_init c) k)) as [[]|]; auto; destruct (clauses s0); auto. }
    unfold set_of_text. destruct (r_body w) as [|a u]; auto.
    destruct (parse_clauses (a :: u)) as [cls|]; auto. apply A. }
  destruct G as (G1 & G2 & G3). do 3 (split; auto).
  intros _ Hne Hn. destruct (clauses s) as [|c cs] eqn:Ec; [exfalso; apply Hne; unfold raws; rewrite Ec; auto|].
  destruct (raw c) as [|x u] eqn:Er.
  - exfalso. apply (Hn []); auto. unfold raws. rewrite Ec. left; auto.
  - eapply no_names_evaluate; eauto.
Qed.
(*EX
Example C39_loaded_example : exists t h s, child_from_gdb (fun t => t) t h = Some s /\ svalue s = None /\
  raws s = [[1; 2]; [-1; 3]] /\ evaluate s = Err IndexError.
Proof.
  exists [(txt "h", mkRow (txt "1|2&-1|3") (txt "T") (txt "F") 2 3 0 0 0 0)], (txt "h").
  eexists. split; [vm_compute; reflexivity|]. repeat split; vm_compute; reflexivity.
Qed.
EX*)

(* C39: a run on the table left by a run interrupted after any number of steps either aborts with an
   exception or gives the right verdict; the solution it prints is either empty or correct *)
Lemma p_C39_resume_safe : forall hash insert_fails1 insert_fails2 o1 o2 root lf r p0 expanded p,
  root_ok root -> (forall h, insert_fails1 h = false) -> (forall h, insert_fails2 h = false) ->
  o_gdb o1 = true -> o_gdb o2 = true -> same_search o1 o2 -> constants_distinct hash o1 root ->
  prepare_root hash lf o1 root = Ok r -> start hash o1 r [] = Ok p0 ->
  exec hash insert_fails1 o1 [] lf (branch_mode o1) p0 expanded p ->
  (exists N, forall fuel lf', (N <= fuel)%nat -> (N <= lf')%nat ->
     solve_set hash insert_fails2 fuel lf' o2 root (p_db p) = Err IndexError) \/
  exists out, ends_with hash insert_fails2 o2 root (p_db p) out /\
    (out_sat out = true -> satisfiable (raws root)) /\
    (collision_free hash o2 root -> satisfiable (raws root) -> out_sat out = true) /\
    (out_sat out = false -> out_solution out = None) /\
    (forall sol, out_solution out = Some sol -> sol = [] \/ (forall a, extends a sol -> cnf_true a (raws root))).
Proof.
  intros hash if1 if2 o1 o2 root lf r p0 expanded p RO N1 N2 G1 G2 SS CD Hp Hs He.
  exact (rs_any hash if1 if2 o1 o2 root lf r p0 p expanded RO N1 N2 G1 G2 SS CD Hp Hs He).
Qed.

(* C39: when all branches of the root are in the table but the first run had not finished, the second run
   aborts with an exception *)
Lemma p_C39_resume_aborts : forall hash insert_fails1 insert_fails2 o1 o2 root lf r p0 expanded p,
  root_ok root -> (forall h, insert_fails1 h = false) ->
  o_gdb o1 = true -> o_gdb o2 = true -> same_search o1 o2 -> constants_distinct hash o1 root ->
  prepare_root hash lf o1 root = Ok r -> start hash o1 r [] = Ok p0 ->
  exec hash insert_fails1 o1 [] lf (branch_mode o1) p0 expanded p -> expanded <> [] ->
  incl (succs (p_children p) (sid r)) (dkeys (p_db p)) ->
  queue_is_empty (p_queue p) = false ->
  exists N, forall fuel lf', (N <= fuel)%nat -> (N <= lf')%nat ->
    solve_set hash insert_fails2 fuel lf' o2 root (p_db p) = Err IndexError.
Proof.
  intros hash if1 if2 o1 o2 root lf r p0 expanded p RO N1 G1 G2 SS CD Hp Hs He Hne Hk Hq.
  destruct (rs_loaded hash if1 if2 o1 o2 root lf r p0 p expanded RO N1 G1 G2 SS CD Hp Hs He Hk Hne) as [[_ H]|[H _]];
    [exact H|congruence].
Qed.

(* C39: on the complete table of a run stopped before its statistics were stored, the second run repeats
   verdict and graph, finds every node in the table, and prints an empty solution *)
Lemma p_C39_resume_complete : forall hash insert_fails1 insert_fails2 o1 o2 root lf r p0 expanded p,
  root_ok root -> (forall h, insert_fails1 h = false) ->
  o_gdb o1 = true -> o_gdb o2 = true -> same_search o1 o2 -> constants_distinct hash o1 root ->
  prepare_root hash lf o1 root = Ok r -> start hash o1 r [] = Ok p0 ->
  exec hash insert_fails1 o1 [] lf (branch_mode o1) p0 expanded p ->
  queue_is_empty (p_queue p) = true ->
  exists out, ends_with hash insert_fails2 o2 root (p_db p) out /\ out_sat out = p_sat p /\
    out_solution out = (if p_sat p then Some [] else None) /\ out_children out = p_children p /\
    out_found out = Z.of_nat (List.length expanded).
Proof.
  intros hash if1 if2 o1 o2 root lf r p0 expanded p RO N1 G1 G2 SS CD Hp Hs He Hq.
  destruct (rs_first hash if1 o1 o2 root lf r p0 p expanded RO N1 Hp Hs He) as (d & pe & I0 & I & E & Hl).
  pose proof Hq as Hq0. rewrite (inv_empty _ _ _ _ _ _ _ _ _ _ _ _ _ I) in Hq. destruct pe as [|x pe]; [|discriminate].
  destruct (rs_loaded hash if1 if2 o1 o2 root lf r p0 p expanded RO N1 G1 G2 SS CD Hp Hs He) as [[H _]|[_ H]]; [| |rewrite Hq0 in H; discriminate|exact H].
  - intros h Hh. rewrite (db_keys hash (no_exit o1) _ _ _ _ _ _ _ G1 _ _ _ I).
    destruct (inv_closed _ _ _ _ _ _ _ _ _ _ _ _ _ I) as [[_ Hcl] _].
    apply Hcl in Hh; [|eapply rs_root_key; eauto].
    rewrite (i_keys _ _ _ _ _ _ _ _ _ _ _ _ _ I) in Hh. unfold ys in Hh. rewrite app_nil_r in Hh. exact Hh.
  - intros ->. destruct d; [|discriminate]. pose proof (i_root _ _ _ _ _ _ _ _ _ _ _ _ _ I) as Hr. discriminate.
Qed.
(*EX
Definition with_gdb : opts := mkOpts MODE_FLO false false false false true false false false.
(* the sample formula, interrupted after one and after three steps, and run to the end *)
Example C39_example : root_ok sample /\ same_search with_gdb with_gdb /\
  constants_distinct (fun t => t) with_gdb sample /\
  exists r p0, prepare_root (fun t => t) 40 with_gdb sample = Ok r /\ start (fun t => t) with_gdb r [] = Ok p0 /\
  (exists xs p, exec (fun t => t) no_fail with_gdb [] 40 (branch_mode with_gdb) p0 xs p /\ List.length xs = 1%nat /\
     exists out, ends_with (fun t => t) no_fail with_gdb sample (p_db p) out /\
       out_solution out = Some [(1, true); (3, true); (5, true)]) /\
  (exists xs p, exec (fun t => t) no_fail with_gdb [] 40 (branch_mode with_gdb) p0 xs p /\ List.length xs = 3%nat /\
     incl (succs (p_children p) (sid r)) (dkeys (p_db p)) /\ queue_is_empty (p_queue p) = false) /\
  (exists xs p, exec (fun t => t) no_fail with_gdb [] 40 (branch_mode with_gdb) p0 xs p /\
     queue_is_empty (p_queue p) = true /\ p_sat p = true).
Proof.
  split; [apply sample_ok|]. split; [repeat split|]. split; [apply distinct_constants, sample_ok|].
  eexists _, _. split; [vm_compute; reflexivity|]. split; [vm_compute; reflexivity|]. split; [|split].
  - eexists _, _. split; [apply (steps_exec _ _ _ _ _ 1); vm_compute; reflexivity|]. split; [reflexivity|].
    eexists. split; [exists 40%nat; intros fuel lf H1 H2; apply (solve_set_mono _ _ _ _ _ 40 fuel 40 lf H1 H2);
      vm_compute; reflexivity|reflexivity].
  - eexists _, _. split; [apply (steps_exec _ _ _ _ _ 3); vm_compute; reflexivity|]. split; [reflexivity|].
    split; [|reflexivity]. intros h Hh. vm_compute in Hh |- *. tauto.
  - eexists _, _. split; [apply (steps_exec _ _ _ _ _ 13); vm_compute; reflexivity|]. split; reflexivity.
Qed.
EX*)
