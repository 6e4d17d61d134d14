(* PP5.v -- the whole program (C41-C43, C47): statements and proofs. *)
From Coq Require Import String Ascii ZArith List Bool Lia Permutation Sorted.
From Verif Require Import Spec PyBase MSet MText MQueue MDb MSolver MMain SpecInput SpecRun PLib PClause
  PRename PLo PNorm PEval PText PQueue PNode PStep PRun PStats PSolver PSolve PSearch PGraph PReader PMain
  PP1 PP2 PP4.
Import ListNotations.
Open Scope Z_scope.

Lemma to_lo_empty lf m z th s : clauses s = [] -> to_lo_condition lf m z th s = Err ValueError.
Proof.
  destruct s as [cs v i h f e og hi]. cbn [clauses]. intros ->. unfold to_lo_condition, sort_clauses_by_length, first_nonempty.
  destruct th; cbn; destruct (_ || z); reflexivity.
Qed.
Lemma represents_read i F : represents i F -> exists s, get_cnf_set i = Ok s /\
  (forall a, cnf_true a (raws s) <-> cnf_true a F) /\
  reads 1 F (map (fun c => (initial_index c, raw c)) (clauses s)) /\
  (forall c, In c (clauses s) -> cvalue c = None) /\
  (F <> [] -> svalue s = (match clauses s with [] => Some true | _ => None end)) /\
  (F = [] -> s = empty_set) /\
  evaluated_vars s = [] /\ final_names_map s = [] /\ (forall c, In c F -> c <> []).
Proof.
  intros [F' t rest H1 H2 H3|h ls rest F' last H1 H2 H3 H4 H5 H6].
  - destruct (p_C16_single_line F' t rest H1 H3) as (s & A & B & C & D & E & G & I).
    exists s. destruct H1 as [Hn (ps & Hp & _)]. repeat split; auto; try apply B; try congruence.
    intros c Hc. clear -Hp Hc. induction Hp as [|x y l l' Hx _ IH]; [destruct Hc|]. destruct Hc as [<-|Hc]; auto. apply Hx.
  - destruct (p_C18_dimacs_read h ls rest F' last _ H1 H2 H3 H4 H6 eq_refl) as (s & A & B & C & D & E & G & I).
    exists s. repeat split; auto; try apply B.
    + intros E0. apply app_eq_nil in E0 as [-> E0]. destruct last; [|discriminate].
      rewrite (read_body h ls rest (terminated [] ++ [])) in A by auto. cbn in A. congruence.
    + intros c Hc. apply in_app_iff in Hc as [Hc|Hc]; [apply H3; auto|].
      destruct last; [destruct Hc|]. destruct Hc as [<-|[]]. discriminate.
Qed.

(* C47: the whole program on a file holding a formula (either format, at least one clause that is not a
   tautology, no preprocessing): it ends with a report; 'SATISFIABLE' is always right and comes with a
   correct solution, the file written and the verifier's answer are about that solution; the verdict is
   exact unless two formulas met in the search have the same hash *)
Lemma p_C47_program_verdict : forall hash insert_fails o a i db F,
  represents i F -> (exists c, In c F /\ ~ complementary c) ->
  fresh_db o insert_fails db -> a_factorize a = false -> a_multiply a = None ->
  exists root out file ver,
    get_cnf_set i = Ok root /\
    program_answers hash insert_fails o a i db (Report out [] file ver) /\
    (out_sat out = true -> satisfiable F /\
       exists sol, out_solution out = Some sol /\ NoDup (dkeys sol) /\
         (forall asg, extends asg sol -> cnf_true asg F) /\
         (forall v, In v (dkeys sol) -> In v (fvars F)) /\
         file = (if a_solution_file a then Some (format_solution sol) else None) /\
         exists b, ver = (if a_verify a then Some b else None) /\ (~ In 0 (fvars F) -> b = true)) /\
    (out_sat out = false -> out_solution out = None /\ file = None /\ ver = None) /\
    (collision_free hash o root -> (out_sat out = true <-> satisfiable F)).
Proof.
  intros hash ifl o a i db F HR HT FD Hf Hm.
  destruct (represents_read i F HR) as (s & A & B & C & D & E & _ & G & I & J).
  assert (HF : F <> []) by (destruct HT as (c & Hc & _); intros ->; destruct Hc).
  assert (RO : root_ok s) by (eapply read_root_ok; eauto).
  destruct (p_C23_solver_terminates hash ifl o s db RO FD) as (out & HE).
  pose proof (ro_ne s RO) as Hne.
  destruct (run_solver_ends hash ifl o a s None None db out Hne HE) as (N & HN).
  destruct (p_C21_sat_verdict_sound hash ifl o s db out RO FD HE) as [S1 S2].
  set (file := match out_solution out with
           | Some (kv :: d) => if a_solution_file a then Some (format_solution (kv :: d)) else None
           | _ => None end).
  set (ver := match out_solution out with
           | Some (kv :: d) => if a_verify a then Some (verify_solution s (kv :: d)) else None
           | _ => None end).
  assert (Hvars : forall v, In v (fvars (raws s)) -> In v (fvars F)).
  { intros v Hv. apply in_fvars in Hv as (c & Hc & Hv). unfold raws in Hc. apply in_map_iff in Hc as (k & <- & Hk).
    destruct (reads_in _ _ _ C (initial_index k) (raw k)) as (d & D1 & _ & D2 & _).
    { apply in_map_iff. exists k; auto. }
    apply in_fvars. exists d. split; auto. unfold cvars in *. apply in_map_iff in Hv as (l & <- & Hl).
    apply in_map. apply D2; auto. }
  exists s, out, file, ver. split; auto. split; [|split; [|split]].
  - exists N. intros fuel lf H1 H2. unfold main_run, main_with. rewrite A. cbn [bind]. unfold preprocess, preprocess_with. fold (run_solver hash ifl fuel lf o a).
    rewrite Hf, Hm. rewrite HN by auto. unfold report. reflexivity.
  - intros Hs. destruct (S1 Hs) as ((asg & Hasg) & sol & Es & Hsn & Nd & _ & Hsol & _ & Hk).
    split; [exists asg; apply B; auto|]. exists sol. split; auto. split; auto.
    split; [intros x Hx; apply B; auto|]. split.
    { intros v Hv. destruct (Hk v Hv) as [H|H]; auto. rewrite G in H. destruct H. }
    unfold file, ver. rewrite Es. destruct sol as [|kv d]; [congruence|]. split; auto.
    exists (verify_solution s (kv :: d)). split; auto. intros Hz.
    apply (p_C25_found_solution_verifies hash ifl o s db out); auto.
    intros v Hv ->. apply Hz, Hvars; auto.
  - intros Hs. unfold file, ver. rewrite (S2 Hs). auto.
  - intros CF. rewrite (p_C22_verdict_exact hash ifl o s db out RO FD CF HE).
    split; intros (asg & Hasg); exists asg; apply B; auto.
Qed.
(* C47, exception: a formula all of whose clauses are tautologies makes the program fail *)
Lemma p_C47_tautologies_fail : forall hash insert_fails fuel lf o a i db F,
  represents i F -> F <> [] -> (forall c, In c F -> complementary c) -> a_multiply a = None ->
  main_run hash insert_fails fuel lf o a i db = Ok (Failed ValueError).
Proof.
  intros hash ifl fuel lf o a i db F HR HF HT Hm.
  destruct (represents_read i F HR) as (s & A & B & C & D & E & _ & G & I & J).
  assert (Hc : clauses s = []).
  { destruct (clauses s) as [|k cs]; auto. exfalso.
    destruct (reads_in _ _ _ C (initial_index k) (raw k)) as (d & D1 & D2 & _); [left; auto|]. auto. }
  specialize (E HF). rewrite Hc in E. unfold main_run, main_with. rewrite A. cbn [bind]. unfold preprocess, preprocess_with. fold (run_solver hash ifl fuel lf o a). rewrite Hm.
  assert (Ef : factorize s = None) by (unfold factorize, sabry_head; rewrite Hc; auto).
  assert (K : run_solver hash ifl fuel lf o a s None None db = Err ValueError).
  { unfold run_solver, run_with. rewrite Hc, E. cbn [andb].
    assert (exists h s', get_hash hash false s = Ok (h, s')) as (h & s' & Eh).
    { unfold get_hash, to_text. rewrite E. destruct (computed_hash s); cbn [bind]; eauto. }
    rewrite Eh. cbn [bind]. rewrite (solve_after_hash _ _ _ _ _ _ _ _ _ Eh).
    unfold solve_set, to_pretty. rewrite E. cbn [bind]. unfold prepare_root. rewrite to_lo_empty; auto. }
  rewrite Ef. destruct (a_factorize a); rewrite K; auto.
Qed.
(* C47, exception: a file without any clause gets no verdict *)
Lemma p_C47_no_clauses_no_verdict : forall hash insert_fails fuel lf o a i db,
  represents i [] -> a_multiply a = None ->
  main_run hash insert_fails fuel lf o a i db = Ok NoAnswer.
Proof.
  intros hash ifl fuel lf o a i db HR Hm.
  destruct (represents_read i [] HR) as (s & A & _ & _ & _ & _ & E & _).
  unfold main_run, main_with. rewrite A, E by auto. cbn [bind]. unfold preprocess, preprocess_with. rewrite Hm.
  destruct (a_factorize a); reflexivity.
Qed.

(*EX
Example C47_example : represents (InSLF (txt "1|2&-1" ++ [])) [[1; 2]; [-1]] /\
  (exists c, In c [[1; 2]; [-1]] /\ ~ complementary c) /\ fresh_db default_opts no_fail [] /\
  represents (InSLF (txt "1|-1" ++ [])) [[1; -1]] /\ complementary [1; -1] /\
  represents (InDimacs (file_of [chars "p cnf 0 0"; []])) [].
Proof.
  assert (L : forall z n, numeral z n -> literal_written z n).
  { intros z n H. exists [], n, []. rewrite app_nil_r. repeat split; auto. }
  split; [|split; [|split; [|split; [|split]]]].
  - apply rep_line; [|repeat constructor|auto]. split; [discriminate|]. exists [txt "1|2"; txt "-1"]. split; [|reflexivity].
    repeat constructor; try discriminate.
    + exists [txt "1"; txt "2"]. split; [|reflexivity]. repeat constructor; apply L;
      [apply (num_plain [1]%nat)|apply (num_plain [2]%nat)]; try discriminate; repeat constructor.
    + exists [txt "-1"]. split; [|reflexivity]. repeat constructor; apply L.
      apply (num_minus [1]%nat); try discriminate; repeat constructor.
  - exists [-1]. split; [right; left; auto|]. intros (v & H & [H1|[]] & [H2|[]]). lia.
  - split; discriminate.
  - apply rep_line; [|repeat constructor|auto]. split; [discriminate|]. exists [txt "1|-1"]. split; [|reflexivity].
    repeat constructor; try discriminate. exists [txt "1"; txt "-1"]. split; [|reflexivity]. repeat constructor; apply L;
      [apply (num_plain [1]%nat)|apply (num_minus [1]%nat)]; try discriminate; repeat constructor.
  - exists 1. simpl. repeat split; auto. lia.
  - apply (rep_dimacs (chars "p cnf 0 0") [] [[]] [] []).
    + repeat constructor; vm_compute; intuition discriminate.
    + right. exists [], []. split; [reflexivity|constructor].
    + intros c [].
    + intros [].
    + left. simpl. lia.
    + constructor.
Qed.
EX*)
