(* PMain.v -- lemmas about the program from the read set to the report. *)
From Coq Require Import String Ascii ZArith List Bool Lia Permutation Sorted.
From Verif Require Import Spec PyBase MSet MText MQueue MDb MSolver MMain SpecInput SpecRun PLib PClause
  PRename PLo PNorm PEval PText PQueue PNode PStep PRun PStats PSolver PSolve PSearch PGraph PReader PP1 PP2.
Import ListNotations.
Open Scope Z_scope.

(* ---- the hash stored by Main before solving has no influence ---- *)
Definition mapR {A B} (f : A -> B) (r : result A) : result B :=
  match r with Ok x => Ok (f x) | Err e => Err e | OutOfFuel => OutOfFuel end.
Section Hash.
  Variable h : option digest.
  Definition H (s : cset) : cset := set_hash s h.
  Lemma rename_vars_hash s : rename_vars (H s) = mapR H (rename_vars s).
  Proof.
    unfold rename_vars. cbn [clauses H set_hash]. destruct (rename_clauses (clauses s) [] 1) as [[cs nm] id].
    destruct (highest_var _) as [hv| |]; auto. cbn [bind]. cbn [final_names_map H set_hash].
    destruct (match final_names_map s with [] => _ | _ => _ end); auto.
  Qed.
  Lemma lo_state_hash m s : is_in_lo_state m (H s) = is_in_lo_state m s.
  Proof. reflexivity. Qed.
  Lemma sort_clauses_hash s : sort_clauses (H s) = H (sort_clauses s).
  Proof. unfold sort_clauses. change (first_nonempty (H s)) with (first_nonempty s). destruct (first_nonempty s); auto. Qed.
  Lemma lo_loop_hash m f : forall s, lo_loop f m (H s) = mapR H (lo_loop f m s).
  Proof.
    induction f as [|f IH]; intros s; cbn [lo_loop]; auto. rewrite lo_state_hash.
    destruct (is_in_lo_state m s) as [[]| |]; auto. cbn [bind]. destruct (sorts_clauses m).
    - rewrite sort_clauses_hash, lo_state_hash. destruct (is_in_lo_state m (sort_clauses s)) as [[]| |]; auto.
      cbn [bind]. rewrite rename_vars_hash. destruct (rename_vars (sort_clauses s)); auto. cbn [mapR bind]. auto.
    - rewrite rename_vars_hash. destruct (rename_vars s); auto. cbn [mapR bind]. auto.
  Qed.
  Lemma to_lo_hash lf m z th s : to_lo_condition lf m z th (H s) = mapR H (to_lo_condition lf m z th s).
  Proof.
    unfold to_lo_condition.
    assert (E : (if mode_eqb m MODE_FLOP || z
                 then sort_clauses_by_length (if th then sort_clauses_by_len_and_initial_index (H s) else H s)
                 else if th then sort_clauses_by_len_and_initial_index (H s) else H s) =
                H (if mode_eqb m MODE_FLOP || z
                 then sort_clauses_by_length (if th then sort_clauses_by_len_and_initial_index s else s)
                 else if th then sort_clauses_by_len_and_initial_index s else s)).
    { assert (K : forall x, sort_clauses_by_length (H x) = H (sort_clauses_by_length x)).
      { intros x. unfold sort_clauses_by_length. change (first_nonempty (H x)) with (first_nonempty x).
        destruct (first_nonempty x); auto. }
      destruct (_ || z), th; auto. rewrite <- K. auto. }
    rewrite E, rename_vars_hash. set (x := if mode_eqb m MODE_FLOP || z then _ else _). clearbody x.
    destruct (rename_vars x); auto. cbn [mapR bind]. apply lo_loop_hash.
  Qed.
  Lemma prepare_root_hash hash lf o root : prepare_root hash lf o (H root) = prepare_root hash lf o root.
  Proof.
    unfold prepare_root. change (get_variables (H root)) with (get_variables root).
    set (d := combine _ _). change (set_original (H root) d) with (H (set_original root d)). rewrite to_lo_hash.
    destruct (to_lo_condition lf _ _ _ (set_original root d)) as [r| |]; auto. cbn [mapR bind].
    unfold get_hash. cbn [computed_hash H set_hash]. change (to_text (H r)) with (to_text r).
    destruct h, (computed_hash r); destruct (to_text r); auto.
  Qed.
  Lemma solve_set_hash hash ifl fuel lf o root db :
    solve_set hash ifl fuel lf o (H root) db = solve_set hash ifl fuel lf o root db.
  Proof. unfold solve_set. rewrite prepare_root_hash. reflexivity. Qed.
End Hash.

Lemma get_hash_shape hash s h s' : get_hash hash false s = Ok (h, s') -> s' = s \/ s' = set_hash s (Some h).
Proof.
  unfold get_hash. destruct (computed_hash s).
  - intros E. injection E as _ ->. auto.
  - intros E. apply bind_ok in E as (t & _ & E). injection E as <- <-. auto.
Qed.
Lemma solve_after_hash hash ifl fuel lf o s h s' db : get_hash hash false s = Ok (h, s') ->
  solve_set hash ifl fuel lf o s' db = solve_set hash ifl fuel lf o s db.
Proof. intros E. apply get_hash_shape in E as [-> | ->]; auto. apply (solve_set_hash (Some h)). Qed.
Lemma get_hash_ok hash s : clauses s <> [] -> exists h s', get_hash hash false s = Ok (h, s').
Proof.
  intros Hc. unfold get_hash. destruct (computed_hash s); eauto.
  assert (exists t, to_text s = Ok t) as [t ->].
  { unfold to_text. destruct (svalue s) as [[]|]; eauto. destruct (clauses s); [congruence|eauto]. }
  cbn [bind]. eauto.
Qed.

Section RunSolver.
  Variable hash : text -> digest.
  Variable insert_fails : digest -> bool.
  Variable o : opts.
  Variable a : main_opts.
  (* what is reported for an outcome *)
  Definition report (cnf : cset) (fi : option fact_info) (mi : option (list Z * Z * Z)) (out : outcome) : result answer :=
    l1 <- fact_lines fi (out_solution out) ;;
    l2 <- mult_lines mi (out_solution out) ;;
    Ok (Report out (l1 ++ l2)
          (match out_solution out with
           | Some (kv :: d) => if a_solution_file a then Some (format_solution (kv :: d)) else None
           | _ => None
           end)
          (match out_solution out with
           | Some (kv :: d) => if a_verify a then Some (verify_solution cnf (kv :: d)) else None
           | _ => None
           end)).
  Lemma run_solver_eq fuel lf cnf fi mi db : clauses cnf <> [] ->
    run_solver hash insert_fails fuel lf o a cnf fi mi db =
    (out <- solve_set hash insert_fails fuel lf o cnf db ;; report cnf fi mi out).
  Proof.
    intros Hc. unfold run_solver, run_with. destruct (get_hash_ok hash cnf Hc) as (h & s' & E).
    destruct (clauses cnf) eqn:Ec; [congruence|]. cbn [andb]. rewrite E. cbn [bind].
    rewrite (solve_after_hash _ _ _ _ _ _ _ _ _ E). auto.
  Qed.
  (* once it ends, the whole run ends *)
  Lemma run_solver_ends cnf fi mi db out : clauses cnf <> [] -> ends_with hash insert_fails o cnf db out ->
    exists N, forall fuel lf, (N <= fuel)%nat -> (N <= lf)%nat ->
      run_solver hash insert_fails fuel lf o a cnf fi mi db = report cnf fi mi out.
  Proof.
    intros Hc [N HN]. exists N. intros fuel lf H1 H2. rewrite run_solver_eq by auto. rewrite HN by auto. auto.
  Qed.
End RunSolver.

(* ---- sets produced by the readers ---- *)
Lemma reads_in i F G : reads i F G -> forall j d, In (j, d) G ->
  exists c, In c F /\ ~ complementary c /\ (forall l, In l d <-> In l c) /\ distinct_vars d /\ sorted_clause d.
Proof.
  induction 1 as [|i c F G H1 H2 IH|i c d F G H1 H2 H3 H4 H5 IH]; intros j x Hx; [destruct Hx| |].
  - destruct (IH _ _ Hx) as (e & He & K). exists e. split; [right|]; auto.
  - destruct Hx as [E|Hx].
    + injection E as <- <-. exists c. split; [left; auto|]. auto.
    + destruct (IH _ _ Hx) as (e & He & K). exists e. split; [right|]; auto.
Qed.
Lemma reads_ne i F G : reads i F G -> (exists c, In c F /\ ~ complementary c) -> G <> [].
Proof.
  induction 1 as [|i c F G H1 H2 IH|i c d F G H1 H2 H3 H4 H5 IH]; intros (x & Hx & Hn).
  - destruct Hx.
  - apply IH. destruct Hx as [<-|Hx]; [tauto|eauto].
  - discriminate.
Qed.
Lemma read_root_ok F s : reads 1 F (map (fun c => (initial_index c, raw c)) (clauses s)) ->
  (forall c, In c F -> c <> []) -> (exists c, In c F /\ ~ complementary c) ->
  (forall c, In c (clauses s) -> cvalue c = None) ->
  svalue s = (match clauses s with [] => Some true | _ => None end) ->
  evaluated_vars s = [] -> final_names_map s = [] -> root_ok s.
Proof.
  intros HR HF HT Hc Hv He Hf.
  assert (Hin : forall c, In c (raws s) -> exists d, In d F /\ (forall l, In l c <-> In l d) /\ distinct_vars c).
  { intros c Hi. unfold raws in Hi. apply in_map_iff in Hi as (k & <- & Hk).
    destruct (reads_in _ _ _ HR (initial_index k) (raw k)) as (d & D1 & _ & D2 & D3 & _).
    - apply in_map_iff. exists k; auto.
    - exists d; auto. }
  assert (Hne : clauses s <> []).
  { apply (reads_ne _ _ _ HR) in HT. intros E. rewrite E in HT. apply HT; auto. }
  split; auto.
  - intros c Hi. destruct (Hin c Hi) as (d & D1 & D2 & _). intros ->. apply (HF d D1).
    destruct d as [|z d]; auto. destruct (proj2 (D2 z)). left; auto.
  - intros c Hi. destruct (Hin c Hi) as (d & D1 & D2 & D3). auto.
  - rewrite Hv. destruct (clauses s); [congruence|auto].
  - rewrite He. constructor.
  - rewrite He. intros v [].
  - rewrite He. intros v [].
Qed.
(* ---- a report reached with some bound on the loops is reached with every larger bound ---- *)
Lemma run_solver_mono hash ifl o a cnf fi mi db f f' lf lf' : (f <= f')%nat -> (lf <= lf')%nat ->
  okle (run_solver hash ifl f lf o a cnf fi mi db) (run_solver hash ifl f' lf' o a cnf fi mi db).
Proof.
  intros H1 H2. unfold run_solver, run_with. destruct (_ && _); [apply okle_refl|].
  apply okle_bind; [apply okle_refl|]. intros [h c]. apply okle_bind; [apply solve_set_mono; auto|]. intros. apply okle_refl.
Qed.
Lemma main_report_mono hash ifl o a i db f f' lf lf' out l fi v :
  main_run hash ifl f lf o a i db = Ok (Report out l fi v) -> (f <= f')%nat -> (lf <= lf')%nat ->
  main_run hash ifl f' lf' o a i db = Ok (Report out l fi v).
Proof.
  intros H H1 H2. unfold main_run, main_with in *. fold (preprocess hash ifl f lf o a) in H.
  fold (preprocess hash ifl f' lf' o a). destruct (get_cnf_set i) as [cnf|e|]; cbn [bind] in *; try discriminate.
  assert (K : okle (preprocess hash ifl f lf o a cnf db) (preprocess hash ifl f' lf' o a cnf db)).
  { unfold preprocess, preprocess_with. fold (run_solver hash ifl f lf o a). fold (run_solver hash ifl f' lf' o a). destruct (if a_factorize a then _ else _) as [fi0 c1]. destruct (a_multiply a) as [[x y]|].
    - destruct (multiply c1 x y) as [[[[rb l1] l2] c2]|]; [|apply okle_refl]. destruct (existsb _ _); [apply okle_refl|].
      apply run_solver_mono; auto.
    - apply run_solver_mono; auto. }
  destruct (preprocess hash ifl f lf o a cnf db) as [r|e|] eqn:E; cbn [catch] in H; try discriminate.
  injection H as ->. rewrite (K _ eq_refl). reflexivity.
Qed.
