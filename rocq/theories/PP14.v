(* PP14.v -- the command line and the whole program with worker processes (C58-C61): statements and proofs. *)
From Coq Require Import String Ascii ZArith List Bool Lia Permutation Sorted.
From Verif Require Import Spec PyBase MSet MText MQueue MDb MSolver MMain MProc MShare MCli MGen SpecInput SpecRun SpecProc
  SpecShare SpecGen SpecCli PLib PSolver PReader PMain PGen5 PGen6 PGen9 PGen10 PGen11 PGen12 PGen13 PP1 PP2 PP5 PP6 PP9 PP10 PP12 PProg PProg2 PCli PSplit.
Import ListNotations.
Open Scope Z_scope.

(* a run of three worker processes on a formula of five clauses *)
Definition plain_env : env := mkEnv (fun t => t) no_fail 2 (fun _ => false) (fun _ _ => true) (round_robin 3) 0.
Definition sample_text : text := txt "6|3|-5&8|1|3&-7|2|5&8|4|1&9|8|3".
Definition on_file (gdb : bool) (threads : Z) : cli :=
  mkCli false false false true None (Some (txt "in/s.txt", sample_text)) None (Some (txt "g")) true true threads
        false true false gdb false false false false None MODE_LO.

(* C58: which command lines are accepted: exactly one input, at most one of -v -vv -q -qn, a number of threads
   that is not negative, -gnm only together with -gdb, two factors greater than 1 for -mult.  An accepted command line
   never ends with a usage error, any other one always does at once, without reading the input: with status 3
   when only the number of threads, or the number of threads and other values are wrong, else with status 2 *)
Lemma p_C58_accepted_commands : forall e c db,
  (proper c -> forall fuel lf status, command e fuel lf c db <> Ok (Exit status)) /\
  (~ proper c -> exists status, (forall fuel lf, command e fuel lf c db = Ok (Exit status)) /\
     (status = 3 /\ one_input c /\ one_verbosity c /\ c_threads c < 0 \/
      status = 2 /\ ~ (one_input c /\ one_verbosity c /\ c_threads c < 0))).
Proof.
  intros e c db. split.
  - intros P fuel lf st. rewrite proper_command by auto. destruct (main_with _ _ _ _ _); cbn [bind]; discriminate.
  - intros P. rewrite proper_iff in P. unfold command. destruct (groups_ok c) eqn:Eg; cbn [negb].
    + apply groups_ok_spec in Eg as [V I]. destruct (checks c) as [st|] eqn:Ec; [|exfalso; apply P; auto].
      exists st. split; auto. apply checks_spec in Ec as [[-> L]|[-> L]]; auto. right. split; auto. intros (_ & _ & K). lia.
    + exists 2. split; auto. right. split; auto. intros (A & B & _). assert (groups_ok c = true) by (apply groups_ok_spec; auto). congruence.
Qed.

(* C58: the files written.  The graph goes to the file named by -g; the solution, with -s and if one was
   found, to the input's name without extension followed by the mode, which is never the input file itself;
   nothing else is written *)
Lemma p_C58_files_written : forall e fuel lf c db ans written shown,
  command e fuel lf c db = Ok (Ran ans written shown) ->
  (forall name f, In (name, f) written ->
     exists out lines file ver, ans = Report out lines file ver /\
       ((c_graph c = Some name /\ name <> [] /\ f = GraphFile (out_dot out)) \/
        (c_solution_file c = true /\ exists sol input_name i stem,
           out_solution out = Some sol /\ sol <> [] /\ f = SolutionFile (format_solution sol) /\
           reads_file c input_name i /\ stem_of input_name stem /\
           name = stem ++ txt "_" ++ mode_name (c_mode c) ++ txt ".sol" /\ name <> input_name))) /\
  (forall out lines file ver sol, ans = Report out lines file ver -> out_solution out = Some sol -> sol <> [] ->
     c_solution_file c = true -> exists name, In (name, SolutionFile (format_solution sol)) written) /\
  (forall out lines file ver name, ans = Report out lines file ver -> c_graph c = Some name -> name <> [] ->
     In (name, GraphFile (out_dot out)) written).
Proof.
  intros e fuel lf c db ans written shown H.
  assert (P : proper c).
  { apply proper_iff. unfold command in H. destruct (groups_ok c); cbn [negb] in H; [|discriminate].
    destruct (checks c); [discriminate|]. auto. }
  rewrite proper_command in H by auto. apply bind_ok in H as (ans' & E & H). injection H as -> <- <-.
  assert (R : forall out lines file ver, ans = Report out lines file ver ->
    file = (match out_solution out with Some (kv :: d) => if c_solution_file c then Some (format_solution (kv :: d)) else None | _ => None end) /\
    exists name i, reads_file c name i /\ input_name c = name).
  { intros out lines file ver ->. unfold main_with in E. destruct (get_cnf_set (chosen_input c)) as [cnf| |] eqn:Eg; cbn [bind catch] in E; try discriminate.
    split.
    - unfold preprocess_with in E.
      assert (G : forall cnf fi mi, catch (run_with (e_hash e) (solver e fuel lf c) (main_opts_of c) cnf fi mi db) = Ok (Report out lines file ver) ->
        file = (match out_solution out with Some (kv :: d) => if c_solution_file c then Some (format_solution (kv :: d)) else None | _ => None end)).
      { clear. intros cnf fi mi K. unfold run_with in K. destruct (_ && _); [discriminate|].
        destruct (get_hash _ _ _) as [[h s]| |]; cbn [bind catch] in K; try discriminate.
        destruct (solver _ _ _ _ _ _) as [out'| |]; cbn [bind catch] in K; try discriminate.
        destruct (fact_lines _ _) as [l1| |]; cbn [bind catch] in K; try discriminate.
        destruct (mult_lines _ _) as [l2| |]; cbn [bind catch] in K; try discriminate.
        injection K as -> _ <- _. cbn [a_solution_file main_opts_of]. reflexivity. }
      destruct (if a_factorize (main_opts_of c) then _ else _) as [fi cnf1].
      destruct (a_multiply (main_opts_of c)) as [[x y]|]; [|eapply G; eauto].
      destruct (multiply cnf1 x y) as [[[[rb l1] l2] cnf2]|]; [|discriminate].
      destruct (existsb _ _); [discriminate|]. eapply G; eauto.
    - pose proof (pr_input c P) as I. unfold chosen_input in Eg. unfold input_name, reads_file.
      destruct I as [(A & B & C)|[(A & B & C)|(A & B & C)]].
      + rewrite B, C in *. exfalso. destruct (c_line c) as [[|ch t]|]; cbn in Eg; try congruence; discriminate.
      + destruct (c_line_file c) as [[n t]|]; [|congruence]. exists n, (InSLF t). split; auto. left. exists t. auto.
      + rewrite B. destruct (c_dimacs c) as [[n t]|]; [|congruence]. exists n, (InDimacs t). split; auto. right. exists t. auto. }
  split; [|split].
  - intros name f Hin. destruct ans as [| | | |out lines file ver]; try (destruct Hin; fail).
    destruct (R _ _ _ _ eq_refl) as (Ef & iname & i & Hr & Hn).
    exists out, lines, file, ver. split; auto. cbn [files_of] in Hin. apply in_app_iff in Hin as [Hin|Hin].
    + left. destruct (c_graph c) as [[|ch t]|]; try (destruct Hin; fail). destruct Hin as [Hin|[]]. injection Hin as <- <-. split; auto. split; auto. discriminate.
    + right. destruct file as [t|]; [|destruct Hin]. destruct Hin as [Hin|[]]. injection Hin as <- <-.
      destruct (out_solution out) as [[|kv d]|]; try discriminate. destruct (c_solution_file c); [|discriminate]. injection Ef as ->.
      split; auto. destruct (stem_total iname) as (stem & Hst). exists (kv :: d), iname, i, stem. split; auto. split; [discriminate|]. split; auto.
      split; auto. split; auto. unfold solution_file_name. rewrite Hn, (splitext_stem _ _ Hst).
      assert (Em : mode_text (c_mode c) = mode_name (c_mode c)) by (destruct (c_mode c); auto). rewrite Em. split; auto. apply sol_not_input; auto.
  - intros out lines file ver sol -> Es Hne Hs. destruct (R _ _ _ _ eq_refl) as (Ef & _). rewrite Es, Hs in Ef.
    destruct sol as [|kv d]; [congruence|]. subst file. cbn [files_of]. eexists. apply in_app_iff. right. left. reflexivity.
  - intros out lines file ver name -> Eg Hne. cbn [files_of]. rewrite Eg. destruct name; [congruence|]. left. reflexivity.
Qed.

(* C58: every input name has one stem, and the names of two solution files agree exactly when the stems of
   the inputs and the modes agree: runs on a.cnf and a.txt in the same mode write the same file, runs in
   different modes or on different stems never do *)
Lemma p_C58_solution_names :
  (forall name, exists stem, stem_of name stem /\ forall stem', stem_of name stem' -> stem' = stem) /\
  (forall s1 s2 m1 m2, s1 ++ txt "_" ++ mode_name m1 ++ txt ".sol" = s2 ++ txt "_" ++ mode_name m2 ++ txt ".sol" <->
     s1 = s2 /\ m1 = m2) /\
  (forall stem x y, ~ In "."%char stem -> ~ In "/"%char stem -> stem <> [] ->
     ~ In "."%char x -> ~ In "/"%char x -> ~ In "."%char y -> ~ In "/"%char y ->
     stem_of (stem ++ "."%char :: x) stem /\ stem_of (stem ++ "."%char :: y) stem).
Proof.
  split; [|split].
  - intros name. destruct (stem_total name) as (stem & H). exists stem. split; auto. intros stem' H'.
    rewrite <- (splitext_stem _ _ H), <- (splitext_stem _ _ H'). auto.
  - intros s1 s2 m1 m2. split; [apply sol_names_inj|intros [-> ->]; auto].
  - assert (G : forall stem x, ~ In "."%char stem -> ~ In "/"%char stem -> stem <> [] ->
     ~ In "."%char x -> ~ In "/"%char x -> stem_of (stem ++ "."%char :: x) stem).
    { intros stem x A B C D E. destruct stem as [|ch base]; [congruence|].
      apply (stem_ext [] [] ch base x); auto. intros ->. apply A. left; auto. }
    auto.
Qed.

(* C58: what the user gets to see.  The report, and with it the verdict, appears exactly with -v or -vv; -qn
   shows only the number of unique nodes; without any of these options a run that ends with a report shows
   nothing at all.  A failure is always shown *)
Lemma p_C58_shown : forall e fuel lf c db ans written shown,
  command e fuel lf c db = Ok (Ran ans written shown) ->
  (forall out lines, In (MReport out lines) shown <->
     (c_v c = true \/ c_vv c = true) /\ exists file ver, ans = Report out lines file ver) /\
  (forall n, In (MUniques n) shown <->
     c_qn c = true /\ exists out lines file ver, ans = Report out lines file ver /\ n = out_uniques out) /\
  (c_v c = false -> c_vv c = false -> c_qn c = false ->
     forall out lines file ver, ans = Report out lines file ver -> shown = []) /\
  (forall x, In (MError x) shown <-> ans = MMain.Failed x).
Proof.
  intros e fuel lf c db ans written shown H.
  assert (P : proper c).
  { apply proper_iff. unfold command in H. destruct (groups_ok c); cbn [negb] in H; [|discriminate].
    destruct (checks c); [discriminate|]. auto. }
  rewrite proper_command in H by auto. apply bind_ok in H as (ans' & E & H). injection H as -> <- <-.
  destruct (pr_verbosity c P) as (V1 & V2 & V3 & V4 & V5 & V6).
  assert (G : forall out lines file ver, ans = Report out lines file ver ->
    shown_of c ans = (if c_qn c then [MUniques (out_uniques out)] else []) ++
      (if info_seen c
       then MReport out lines ::
            (match file with Some _ => [MWritten (solution_file_name (input_name c) (c_mode c))] | None => [] end) ++
            (match ver with Some b => [MVerified b] | None => [] end)
       else [])).
  { intros out lines file ver ->. cbn [shown_of]. f_equal. unfold info_seen. destruct (c_v c), (c_vv c), (c_q c), (c_qn c); cbn; auto; tauto. }
  assert (NR : (forall out lines file ver, ans <> Report out lines file ver) ->
    (forall o l, ~ In (MReport o l) (shown_of c ans)) /\ (forall n, ~ In (MUniques n) (shown_of c ans)) /\
    (forall x, In (MError x) (shown_of c ans) <-> ans = MMain.Failed x)).
  { intros N. destruct ans as [|ex| | |out lines file ver]; cbn [shown_of].
    - split; [intros o l []|split; [intros n []|intros x; split; [intros []|discriminate]]].
    - split; [intros o l [K|[]]; discriminate|split; [intros n [K|[]]; discriminate|]].
      intros x; split; [intros [K|[]]; congruence|intros K; left; congruence].
    - split; [intros o l [K|[]]; discriminate|split; [intros n [K|[]]; discriminate|]].
      intros x; split; [intros [K|[]]; discriminate|discriminate].
    - destruct (c_multiply c) as [[x0 y0]|].
      + split; [intros o l [K|[]]; discriminate|split; [intros n [K|[]]; discriminate|]].
        intros x; split; [intros [K|[]]; discriminate|discriminate].
      + split; [intros o l []|split; [intros n []|intros x; split; [intros []|discriminate]]].
    - exfalso. eapply N; reflexivity. }
  destruct ans as [|ex| | |out lines file ver] eqn:Ea;
    try (destruct NR as (N1 & N2 & N3); [discriminate|]; split; [|split; [|split]]; auto; try discriminate;
         [intros o l; split; [intros K; destruct (N1 _ _ K)|intros (_ & f & v & K); discriminate]|
          intros n; split; [intros K; destruct (N2 _ K)|intros (_ & o & l & f & v & K & _); discriminate]]; fail).
  rewrite (G _ _ _ _ eq_refl). clear NR G. unfold info_seen.
  split; [|split; [|split]].
  - intros o l. rewrite in_app_iff. split.
    + intros [K|K]; [destruct (c_qn c); [destruct K as [K|[]]|destruct K]; discriminate|].
      destruct (c_v c || c_vv c) eqn:Eo; [|destruct K]. apply orb_true_iff in Eo. split; auto.
      destruct K as [K|K]; [injection K as <- <-; eauto|]. apply in_app_iff in K as [K|K];
        [destruct file; [destruct K as [K|[]]|destruct K]|destruct ver; [destruct K as [K|[]]|destruct K]]; discriminate.
    + intros [V (f & v & K)]. injection K as <- <- <- <-. right. apply orb_true_iff in V. rewrite V. left; auto.
  - intros n. rewrite in_app_iff. split.
    + intros [K|K]; [destruct (c_qn c); [destruct K as [K|[]]|destruct K]; injection K as <-; split; auto; eauto 8|].
      exfalso. destruct (c_v c || c_vv c) eqn:Eo; [|destruct K].
      destruct K as [K|K]; [discriminate|]. apply in_app_iff in K as [K|K];
        [destruct file; [destruct K as [K|[]]|destruct K]|destruct ver; [destruct K as [K|[]]|destruct K]]; discriminate.
    + intros [V (o & l & f & v & K & ->)]. injection K as <- <- <- <-. left. rewrite V. left; auto.
  - intros -> -> -> o l f v _. reflexivity.
  - intros x. rewrite in_app_iff. split; [|discriminate]. intros [K|K].
    + destruct (c_qn c); [destruct K as [K|[]]|destruct K]; discriminate.
    + destruct (c_v c || c_vv c) eqn:Eo; [|destruct K].
      destruct K as [K|K]; [discriminate|]. apply in_app_iff in K as [K|K];
        [destruct file; [destruct K as [K|[]]|destruct K]|destruct ver; [destruct K as [K|[]]|destruct K]]; discriminate.
Qed.

(* C58: without -gdb the global table is neither read into the answer nor changed, whatever -t says (the help
   text says that -t enables the global table) *)
Lemma p_C58_table_only_with_gdb : forall e fuel lf c db out lines file ver written shown,
  c_gdb c = false -> command e fuel lf c db = Ok (Ran (Report out lines file ver) written shown) ->
  out_db out = db.
Proof.
  intros e fuel lf c db out lines file ver written shown Hg H.
  assert (P : proper c).
  { apply proper_iff. unfold command in H. destruct (groups_ok c); cbn [negb] in H; [|discriminate].
    destruct (checks c); [discriminate|]. auto. }
  rewrite proper_command in H by auto. apply bind_ok in H as (ans' & E & H). injection H as -> _ _.
  unfold main_with in E. destruct (get_cnf_set (chosen_input c)) as [cnf| |]; cbn [bind catch] in E; try discriminate.
  unfold preprocess_with in E.
  assert (G : forall cnf fi mi, catch (run_with (e_hash e) (solver e fuel lf c) (main_opts_of c) cnf fi mi db) = Ok (Report out lines file ver) ->
    out_db out = db).
  { clear -Hg. intros cnf fi mi K. unfold run_with in K. destruct (_ && _); [discriminate|].
    destruct (get_hash _ _ _) as [[h s]| |]; cbn [bind catch] in K; try discriminate.
    destruct (solver _ _ _ _ _ _) as [out'| |] eqn:Es; cbn [bind catch] in K; try discriminate.
    destruct (fact_lines _ _) as [l1| |]; cbn [bind catch] in K; try discriminate.
    destruct (mult_lines _ _) as [l2| |]; cbn [bind catch] in K; try discriminate.
    injection K as -> _ _ _. unfold solver in Es. rewrite Hg in Es. eapply mp_db; [|exact Es]. exact Hg. }
  destruct (if a_factorize (main_opts_of c) then _ else _) as [fi cnf1].
  destruct (a_multiply (main_opts_of c)) as [[x y]|]; [|eapply G; eauto].
  destruct (multiply cnf1 x y) as [[[[rb l1] l2] cnf2]|]; [|discriminate].
  destruct (existsb _ _); [discriminate|]. eapply G; eauto.
Qed.

(* C58: -t 0 is short for twice the number of processors *)
Lemma p_C58_default_threads : forall e fuel lf c db, 1 <= e_cpus e ->
  command e fuel lf (with_threads c 0) db = command e fuel lf (with_threads c (2 * e_cpus e)) db.
Proof.
  intros e fuel lf c db H. unfold command.
  assert (G : groups_ok (with_threads c 0) = groups_ok (with_threads c (2 * e_cpus e))) by reflexivity.
  assert (K : checks (with_threads c 0) = checks (with_threads c (2 * e_cpus e))).
  { unfold checks. cbn [c_threads c_multiply c_gnm c_gdb with_threads]. destruct (Z.ltb_spec 0 0), (Z.ltb_spec (2 * e_cpus e) 0); try lia. auto. }
  assert (S : solver e fuel lf (with_threads c 0) = solver e fuel lf (with_threads c (2 * e_cpus e))).
  { unfold solver. assert (M : max_threads (e_cpus e) (c_threads (with_threads c 0)) = max_threads (e_cpus e) (c_threads (with_threads c (2 * e_cpus e)))).
    { cbn [c_threads with_threads]. unfold max_threads. rewrite Z.eqb_refl. destruct (Z.eqb_spec (2 * e_cpus e) 0), (Z.ltb_spec 1 (2 * e_cpus e)); lia. }
    rewrite M. reflexivity. }
  rewrite G, K, S. reflexivity.
Qed.

(*EX
Example C58_example : proper (on_file true 3) /\ ~ proper (on_file true (-1)) /\
  (forall e db fuel lf, command e fuel lf (on_file true (-1)) db = Ok (Exit 3)) /\
  stem_of (txt "in/s.txt") (txt "in/s") /\ stem_of (txt ".cnf") (txt ".cnf").
Proof.
  split; [apply proper_iff; split; reflexivity|]. split; [intros H; pose proof (pr_threads _ H) as K; cbn in K; lia|].
  split; [reflexivity|]. split.
  - apply (stem_ext (txt "in/") [] "s"%char [] (txt "txt")).
    + right. exists (txt "in"). reflexivity.
    + constructor.
    + discriminate.
    + intros [H|[]]; discriminate.
    + intros H; cbn in H; repeat (destruct H as [H|H]; [discriminate|]); destruct H.
    + intros H; cbn in H; repeat (destruct H as [H|H]; [discriminate|]); destruct H.
  - apply (stem_plain [] (txt ".") (txt "cnf")).
    + left. reflexivity.
    + repeat constructor.
    + intros H; cbn in H; repeat (destruct H as [H|H]; [discriminate|]); destruct H.
    + intros H; cbn in H; repeat (destruct H as [H|H]; [discriminate|]); destruct H.
Qed.
(* without any option on verbosity nothing is shown; the solution file is written all the same *)
Example C58_silent : exists out file ver written,
  command plain_env 300 300 (mkCli false false false false None (Some (txt "in/s.txt", sample_text)) None None true false 3
    false true false false false false false false None MODE_FLO) [] = Ok (Ran (Report out [] file ver) written []) /\
  map fst written = [txt "in/s_flo.sol"] /\ out_sat out = true /\ ver = Some true.
Proof. do 4 eexists. split; [vm_compute; reflexivity|]. split; [reflexivity|]. split; reflexivity. Qed.
EX*)

(* C59: the whole program, from an accepted command line with any number of processes, on a file holding a
   formula with at least one clause that is not a tautology: it ends with a report; 'SATISFIABLE' is always
   right and comes with a correct solution, which is what is written and verified; the verdict is exact
   unless two formulas met in the search have the same hash *)
Lemma p_C59_program_verdict : forall e c db name i F,
  proper c -> reads_file c name i -> represents i F -> (exists cl, In cl F /\ ~ complementary cl) ->
  reliable e c db -> c_factorize c = false -> c_multiply c = None ->
  exists root out file ver written shown,
    get_cnf_set i = Ok root /\
    command_ends e c db (Ran (Report out [] file ver) written shown) /\
    (out_sat out = true -> satisfiable F /\
       exists sol, out_solution out = Some sol /\ NoDup (dkeys sol) /\
         (forall asg, extends asg sol -> cnf_true asg F) /\
         (forall v, In v (dkeys sol) -> In v (fvars F)) /\
         file = (if c_solution_file c then Some (format_solution sol) else None) /\
         exists b, ver = (if c_verify c then Some b else None) /\ (~ In 0 (fvars F) -> b = true)) /\
    (out_sat out = false -> out_solution out = None /\ file = None /\ ver = None) /\
    (collision_free (e_hash e) (opts_of c) root -> (out_sat out = true <-> satisfiable F)).
Proof.
  intros e c db name i F P HR HF HT HE Hf Hm.
  destruct (reads_chosen c name i (pr_input c P) HR) as [Ei _].
  destruct (g_verdict (e_hash e) (opts_of c) (main_opts_of c) (fun fuel lf => solver e fuel lf c) db
    (fun fuel lf s h => solver_hash e fuel lf c s db h) (fun root RO => solver_good e c db root (pr_gnm c P) HE RO) i F HF HT Hf Hm)
    as (root & out & file & ver & A & B & C).
  rewrite <- Ei in B. exists root, out, file, ver. eexists _, _. split; auto. split; [apply command_ends_report; auto|]. exact C.
Qed.

(* C59, the inputs without a verdict, whatever the other options: a formula all of whose clauses are
   tautologies makes the program fail, a file without clauses ends it silently, a formula given with -l is
   never solved, and a file with a field that is not an integer is silently dropped *)
Lemma p_C59_no_verdict : forall e fuel lf c db,
  proper c -> c_multiply c = None ->
  (forall name i F, reads_file c name i -> represents i F -> F <> [] -> (forall cl, In cl F -> complementary cl) ->
     command e fuel lf c db = Ok (Ran (MMain.Failed ValueError) [] [MError ValueError])) /\
  (forall name i, reads_file c name i -> represents i [] -> command e fuel lf c db = Ok (Ran NoAnswer [] [])) /\
  (c_line c <> None -> exists x, command e fuel lf c db = Ok (Ran (MMain.Failed x) [] [MError x])) /\
  (forall name pre f post rest, c_line_file c = Some (name, (pre ++ f ++ post) ++ rest) ->
     malformed f -> ~ In "&"%char f -> ~ In "|"%char f ->
     (pre = [] \/ exists p, pre = p ++ ["&"%char] \/ pre = p ++ ["|"%char]) ->
     (post = [] \/ exists p, post = "&"%char :: p \/ post = "|"%char :: p) ->
     one_line (pre ++ f ++ post) -> (rest = [] \/ exists u, rest = nl :: u) ->
     command e fuel lf c db = Ok (Ran NoAnswer [] [])).
Proof.
  intros e fuel lf c db P Hm. rewrite !proper_command by auto.
  assert (Em : a_multiply (main_opts_of c) = None) by exact Hm.
  split; [|split; [|split]].
  - intros name i F HR HF HN HT. destruct (reads_chosen c name i (pr_input c P) HR) as [-> _].
    destruct (represents_read i F HF) as (s & A & B & C & D & E & _ & G & I & J).
    assert (Hc : clauses s = []).
    { destruct (clauses s) as [|k cs]; auto. exfalso.
      destruct (reads_in _ _ _ C (initial_index k) (raw k)) as (d & D1 & D2 & _); [left; auto|]. auto. }
    specialize (E HN). rewrite Hc in E. unfold main_with. rewrite A. cbn [bind]. unfold preprocess_with. rewrite Em.
    assert (Ef : factorize s = None) by (unfold factorize, sabry_head; rewrite Hc; auto).
    assert (K : run_with (e_hash e) (solver e fuel lf c) (main_opts_of c) s None None db = Err ValueError).
    { unfold run_with. rewrite Hc, E. cbn [andb].
      assert (exists h s', get_hash (e_hash e) false s = Ok (h, s') /\ exists h', s' = set_hash s h') as (h & s' & Eh & h' & ->).
      { unfold get_hash, to_text. rewrite E. destruct (computed_hash s) as [h|] eqn:Eh; cbn [bind].
        - exists h, s. split; auto. exists (Some h). rewrite <- Eh. destruct s; reflexivity.
        - eexists _, _. split; [reflexivity|]. eexists. reflexivity. }
      rewrite Eh. cbn [bind]. rewrite solver_hash.
      unfold solver. destruct (c_gdb c); [unfold solve_set_sh|unfold solve_set_mp]; unfold to_pretty, prepare_root; rewrite E;
        cbn [bind]; rewrite to_lo_empty by auto; reflexivity. }
    rewrite Ef. destruct (a_factorize (main_opts_of c)); rewrite K; reflexivity.
  - intros name i HR HF. destruct (reads_chosen c name i (pr_input c P) HR) as [-> _].
    destruct (represents_read i [] HF) as (s & A & _ & _ & _ & _ & E & _).
    unfold main_with. rewrite A, E by auto. cbn [bind]. unfold preprocess_with. rewrite Em.
    destruct (a_factorize (main_opts_of c)); reflexivity.
  - intros HL. pose proof (pr_input c P) as [(_ & I2 & I3)|[(I1 & _)|(I1 & _)]]; try congruence.
    unfold chosen_input. rewrite I2, I3. destruct (c_line c) as [[|ch t]|]; [| |congruence]; eexists; reflexivity.
  - intros name pre f post rest HL H0 H1 H2 Hpre Hpost Hl Hr.
    destruct (reads_chosen c name (InSLF ((pre ++ f ++ post) ++ rest)) (pr_input c P)) as [-> _]; [left; eauto|].
    unfold main_with. cbn [get_cnf_set]. rewrite first_line by auto. rewrite malformed_read by auto. cbn [bind]. unfold preprocess_with.
    destruct (a_factorize (main_opts_of c)); cbn; rewrite Hm; reflexivity.
Qed.

(*EX
From Verif Require Import Properties5.
Example C59_example : let c := mkCli false false false false None (Some (txt "f", txt "1|2&-1" ++ [])) None None true false 3
    false true false true false false false false None MODE_FLO in
  proper c /\ reads_file c (txt "f") (InSLF (txt "1|2&-1" ++ [])) /\ represents (InSLF (txt "1|2&-1" ++ [])) [[1; 2]; [-1]] /\
  (exists cl, In cl [[1; 2]; [-1]] /\ ~ complementary cl) /\ reliable plain_env c [].
Proof.
  cbv zeta. split; [apply proper_iff; split; reflexivity|]. split; [left; eexists; split; reflexivity|].
  split; [exact (proj1 C47_example)|]. split; [exact (proj1 (proj2 C47_example))|].
  split; [reflexivity|]. split; [intros k; exists 0%nat; reflexivity|]. split; [apply round_robin_fair|]. split; [auto|discriminate].
Qed.
Example C59_no_verdict_example : represents (InSLF (txt "1|-1" ++ [])) [[1; -1]] /\ complementary [1; -1] /\
  represents (InDimacs (file_of [chars "p cnf 0 0"; []])) [].
Proof. exact (proj2 (proj2 (proj2 C47_example))). Qed.
EX*)

(* C60: with -fact, any number of processes and any command line: on a formula whose models all encode factors
   of the number read off the unit clauses, correct factors, or 'prime' when no solution is found *)
Lemma p_C60_factoring_command : forall e c db name i root x y z rest info s',
  proper c -> reads_file c name i -> reliable e c db ->
  get_cnf_set i = Ok root -> root_ok root -> raws root = [x; y; z] :: rest ->
  (forall cl l, In cl (raws root) -> In l cl -> l <> 0) ->
  c_factorize c = true -> c_multiply c = None ->
  let f1 := y - 1 in let f2 := Z.abs z - y in
  let units := unit_literals (raws root) in
  let number := bits_value (map (Z.ltb 0) units) in
  0 < f1 -> 0 < f2 -> 0 < number -> f1 + f2 <= Z.of_nat (List.length (first_occurrences (map Z.abs units))) ->
  (forall asg, cnf_true asg (raws root) ->
     value_of asg (next_vars 0 f1) * value_of asg (next_vars f1 f2) = number) ->
  factorize root = Some (info, s') -> raws s' <> [] -> ~ In [] (raws s') ->
  exists out lines file ver written shown,
    command_ends e c db (Ran (Report out lines file ver) written shown) /\
    (out_sat out = true -> exists sol, out_solution out = Some sol /\ NoDup (dkeys sol) /\
       forall asg, extends asg sol -> cnf_true asg (raws root) /\
         exists p q, lines = [LFactors number p q] /\ number = p * q /\
           p = value_of asg (next_vars 0 f1) /\ q = value_of asg (next_vars f1 f2)) /\
    (out_sat out = false -> lines = [LPrime number]) /\
    (collision_free (e_hash e) (opts_of c) s' -> (out_sat out = true <-> satisfiable (raws root))).
Proof.
  intros e c db name i root x y z rest info s' P HR HE Hg RO E Hz Hf Hm f1 f2 units number A1 A2 A3 A4 A5 A6 A7 A8.
  destruct (reads_chosen c name i (pr_input c P) HR) as [Ei _].
  destruct (g_factoring (e_hash e) (opts_of c) (main_opts_of c) (fun fuel lf => solver e fuel lf c) db
    (fun fuel lf s h => solver_hash e fuel lf c s db h) (fun root RO => solver_good e c db root (pr_gnm c P) HE RO)
    i root x y z rest info s' Hg RO E Hz Hf Hm A1 A2 A3 A4 A5 A6 A7 A8) as (out & lines & file & ver & B & C).
  rewrite <- Ei in B. exists out, lines, file, ver. eexists _, _. split; [apply command_ends_report; auto|]. exact C.
Qed.
(* C60: with -mult: the right product, or 'can't be multiplied' when no solution is found *)
Lemma p_C60_multiplication_command : forall e c db name i root x y z rest p q rb l1 l2 s',
  proper c -> reads_file c name i -> reliable e c db ->
  get_cnf_set i = Ok root -> root_ok root -> raws root = [x; y; z] :: rest ->
  (forall cl l, In cl (raws root) -> In l cl -> l <> 0) ->
  c_factorize c = false -> c_multiply c = Some (p, q) ->
  let f1 := y - 1 in let f2 := Z.abs z - y in
  (forall asg, cnf_true asg (non_units (raws root)) ->
     value_of asg (next_vars 0 f1) * value_of asg (next_vars f1 f2) =
     value_of asg (map Z.abs (unit_literals (raws root)))) ->
  multiply root p q = Some (rb, l1, l2, s') -> raws s' <> [] -> ~ In [] (raws s') ->
  exists out lines file ver written shown,
    command_ends e c db (Ran (Report out lines file ver) written shown) /\
    (out_sat out = true -> lines = [LProduct p q (p * q)]) /\
    (out_sat out = false -> lines = [LNoProduct p q]) /\
    (collision_free (e_hash e) (opts_of c) s' -> (out_sat out = true <->
       exists asg, cnf_true asg (non_units (raws root)) /\
         value_of asg (next_vars 0 f1) = Z.max p q /\ value_of asg (next_vars f1 f2) = Z.min p q)).
Proof.
  intros e c db name i root x y z rest p q rb l1 l2 s' P HR HE Hg RO E Hz Hf Hm f1 f2 A1 A2 A3 A4.
  destruct (pr_multiply c P p q Hm) as [Hp Hq].
  destruct (reads_chosen c name i (pr_input c P) HR) as [Ei _].
  destruct (g_multiplication (e_hash e) (opts_of c) (main_opts_of c) (fun fuel lf => solver e fuel lf c) db
    (fun fuel lf s h => solver_hash e fuel lf c s db h) (fun root RO => solver_good e c db root (pr_gnm c P) HE RO)
    i root x y z rest p q rb l1 l2 s' Hg RO E Hz Hf Hm Hp Hq A1 A2 A3 A4) as (out & lines & file & ver & B & C).
  rewrite <- Ei in B. exists out, lines, file, ver. eexists _, _. split; [apply command_ends_report; auto|]. exact C.
Qed.

(* C61: the generator and the solver together, with any number of processes: run on a generated file the
   program answers whether n is composite, and every completion of the solution gives two proper factors *)
Lemma p_C61_generated_verdict : forall am mm n t e c db name,
  4 <= n -> gen_main am mm n = Some t ->
  proper c -> c_dimacs c = Some (name, t) -> reliable e c db ->
  c_factorize c = false -> c_multiply c = None ->
  exists root out file ver written shown,
    get_cnf_set (InDimacs t) = Ok root /\
    command_ends e c db (Ran (Report out [] file ver) written shown) /\
    (out_sat out = true -> composite n /\ exists sol, out_solution out = Some sol /\
       NoDup (dkeys sol) /\ forall asg, extends asg sol ->
         let p := value_of asg (next_vars 0 (first_bits n)) in
         let q := value_of asg (next_vars (first_bits n) (second_bits n)) in
         1 < p /\ 1 < q /\ n = p * q) /\
    (collision_free (e_hash e) (opts_of c) root -> (out_sat out = true <-> composite n)).
Proof.
  intros am mm n t e c db name Hn Ht PR HD HE Hf Hm.
  destruct (p_C53_generated_file am mm n) as [_ G]. destruct (G Hn) as (g & F & t' & hd & bd & E1 & E2 & E3 & _ & _ & _ & _ & R).
  rewrite Ht in E3. apply (f_equal (fun o => match o with Some x => x | None => t end)) in E3. cbv beta iota in E3. subst t'.
  destruct (p_C52_factoring_formula am mm n Hn) as (g' & F' & D1 & D2 & _ & _ & _ & Dv & Dm & _ & _ & Ds & _).
  rewrite E1 in D1. apply (f_equal (fun o => match o with Some x => x | None => g end)) in D1. cbv beta iota in D1. subst g'.
  rewrite E2 in D2. apply literal_inj in D2.
  subst F'.
  assert (HT : exists cl, In cl F /\ ~ complementary cl).
  { set (z := fun _ : Z => false). destruct (forallb (existsb (lit_true z)) F) eqn:EB.
    - exfalso. assert (X : cnf_true z F).
      { intros cl Hc. rewrite forallb_forall in EB. apply EB, existsb_exists in Hc as (l & Hl & Hlt). exists l; auto. }
      apply Dm in X as (A & _). revert A. unfold value_of. generalize (next_vars 0 (first_bits n)). intros l.
      assert (bits_value (map z l) = 0); [|lia]. induction l; cbn [map bits_value]; auto. unfold z at 1. lia.
    - assert (X : existsb (fun cl => negb (existsb (lit_true z) cl)) F = true).
      { clear -EB. induction F as [|cl F IH]; [discriminate|]. cbn [forallb existsb] in *. destruct (existsb (lit_true z) cl); auto. }
      apply existsb_exists in X as (cl & Hc & X). exists cl. split; auto. intros K. apply (PReader.complementary_true z) in K as (l & Hl & K).
      apply negb_true_iff in X. rewrite <- not_true_iff_false in X. apply X. apply existsb_exists. eauto. }
  destruct (p_C59_program_verdict e c db name (InDimacs t) F PR (or_intror (ex_intro _ t (conj HD eq_refl))) R HT HE Hf Hm) as (root & out & file & ver & written & shown & A & B & C & _ & D).
  exists root, out, file, ver, written, shown. split; auto. split; auto. split.
  - intros Hs. destruct (C Hs) as (S1 & sol & S2 & S0 & S3 & _). split; [apply Ds; auto|]. exists sol. split; auto. split; auto. intros asg Ha p q.
    destruct (Dm asg (S3 asg Ha)) as (P1 & P2 & P3). split; auto.
  - intros CF. rewrite (D CF). auto.
Qed.
(* C61: with -fact: two proper factors, or 'prime' *)
Lemma p_C61_generated_factors : forall am mm n t e c db name,
  4 <= n -> array_sized mm n -> gen_main am mm n = Some t ->
  proper c -> c_dimacs c = Some (name, t) -> reliable e c db ->
  c_factorize c = true -> c_multiply c = None ->
  exists root info s' out lines file ver written shown,
    get_cnf_set (InDimacs t) = Ok root /\ factorize root = Some (info, s') /\
    command_ends e c db (Ran (Report out lines file ver) written shown) /\
    (out_sat out = true -> exists p q, lines = [LFactors n p q] /\ 1 < p /\ 1 < q /\ n = p * q) /\
    (out_sat out = false -> lines = [LPrime n]) /\
    (collision_free (e_hash e) (opts_of c) s' -> (out_sat out = true <-> ~ Znumtheory.prime n)).
Proof.
  intros am mm n t e c db name Hn Hr Ht PR HD HE Hf Hm.
  destruct (gen_root am mm n t Hn Hr Ht) as (cs' & v1 & ds & root & rest & GR & arr & Hg & RO & ER & Hz & B & U & NU & SUB).
  destruct (PGen4.size_facts n Hn) as (S1 & S2 & _).
  set (f1 := first_bits n) in *. set (f2 := second_bits n) in *.
  destruct (p_C41_factorizer root 1 (1 + f1) (- (1 + f1 + f2)) rest ER ltac:(lia) Hz) as (info & s' & Hfac & _).
  destruct (factorize_generated am mm n t root info s' Hn Hr Ht Hg Hfac) as [NE NI].
  assert (MI : forall asg, cnf_true asg (raws root) ->
     1 < value_of asg (next_vars 0 f1) /\ 1 < value_of asg (next_vars f1 f2) /\
     value_of asg (next_vars 0 f1) * value_of asg (next_vars f1 f2) = n).
  { intros asg H. apply B in H. apply (model_iff am mm n cs' v1 ds Hn GR) in H as [_ H]. rewrite first_value, second_value in H.
    pose proof (PGen2.nval_range asg (PGen4.vars_from 1 (PGen4.n1 n))) as R1. rewrite PGen4.vars_from_length, first_value, n1_Z in R1 by auto.
    pose proof (PGen2.nval_range asg (PGen4.vars_from (1 + first_bits n) (PGen4.n2 n))) as R2. rewrite PGen4.vars_from_length, second_value, n2_Z in R2 by auto.
    destruct (fit_factors n _ _ Hn R1 R2 H). auto. }
  pose proof (F_number am mm n cs' v1 ds Hn GR arr) as FN. change (bits_value (map (Z.ltb 0) (unit_literals (formula n cs' ds))) = n) in FN.
  rewrite <- U in FN.
  pose proof (p_C60_factoring_command e c db name (InDimacs t) root 1 (1 + f1) (- (1 + f1 + f2)) rest info s' PR (or_intror (ex_intro _ t (conj HD eq_refl))) HE Hg RO ER Hz Hf Hm) as Q.
  cbv zeta in Q. rewrite FN in Q. replace (1 + f1 - 1) with f1 in Q by lia. replace (Z.abs (- (1 + f1 + f2)) - (1 + f1)) with f2 in Q by lia.
  destruct Q as (out & lines & file & ver & written & shown & Q1 & Q2 & Q3 & Q4); auto; try lia.
  { pose proof (F_many am mm n cs' v1 ds Hn GR arr (first_occurrences (map Z.abs (unit_literals (raws root))))) as X.
    apply X. intros v. rewrite U. rewrite PRename.first_occurrences_dedup, PLib.dedup_In. reflexivity. }
  { intros asg Ha. apply MI; auto. }
  exists root, info, s', out, lines, file, ver, written, shown. split; auto. split; auto. split; auto. split; [|split; auto].
  - intros Hs. destruct (Q2 Hs) as (sol & Es & Nd & K).
    destruct (K _ (PArith.override_extends sol (fun _ => false) Nd)) as (Hm' & p & q & L1 & L2 & -> & ->).
    destruct (MI _ Hm') as (P1 & P2 & _). eexists _, _. split; [exact L1|]. auto.
  - intros CF. rewrite (Q4 CF). rewrite <- composite_not_prime by lia.
    destruct (p_C52_factoring_formula am mm n Hn) as (g & F & E1 & E2 & _ & _ & _ & _ & _ & _ & _ & E3 & _).
    rewrite <- E3. assert (EF : F = formula n cs' ds).
    { rewrite (gr_gen _ _ _ _ _ _ GR) in E1. injection E1 as <-. cbn [g_cnf] in E2. symmetry. apply literal_inj. rewrite <- E2. symmetry. apply (gen_literals am mm n cs' v1 ds GR). }
    subst F. split; intros (x & Hx); exists x; apply B; auto.
Qed.
(* C61: with -mult p q: the product when they fit, a refusal otherwise *)
Lemma p_C61_generated_products : forall am mm n t e c db name p q,
  4 <= n -> array_sized mm n -> gen_main am mm n = Some t ->
  proper c -> c_dimacs c = Some (name, t) -> reliable e c db ->
  c_factorize c = false -> c_multiply c = Some (p, q) ->
  (Z.max p q < 2 ^ first_bits n /\ Z.min p q < 2 ^ second_bits n ->
   exists root rb l1 l2 s' out lines file ver written shown,
     get_cnf_set (InDimacs t) = Ok root /\ multiply root p q = Some (rb, l1, l2, s') /\
     command_ends e c db (Ran (Report out lines file ver) written shown) /\
     (out_sat out = true -> lines = [LProduct p q (p * q)]) /\
     (out_sat out = false -> lines = [LNoProduct p q]) /\
     (collision_free (e_hash e) (opts_of c) s' -> out_sat out = true)) /\
  (~ (Z.max p q < 2 ^ first_bits n /\ Z.min p q < 2 ^ second_bits n) ->
   forall fuel lf, command e fuel lf c db = Ok (Ran Refused [] [MRefused])).
Proof.
  intros am mm n t e c db name p q Hn Hr Ht PR HD HE Hf Hm.
  destruct (pr_multiply c PR p q Hm) as [Hp Hq].
  destruct (reads_chosen c name (InDimacs t) (pr_input c PR) (or_intror (ex_intro _ t (conj HD eq_refl)))) as [Ei _].
  destruct (gen_root am mm n t Hn Hr Ht) as (cs' & v1 & ds & root & rest & GR & arr & Hg & RO & ER & Hz & B & U & NU & SUB).
  destruct (PGen4.size_facts n Hn) as (S1 & S2 & _).
  assert (L1 : 1 + first_bits n - 1 = first_bits n) by lia.
  assert (L2 : Z.abs (- (1 + first_bits n + second_bits n)) - (1 + first_bits n) = second_bits n) by lia.
  destruct (p_C43_multiplier root _ _ _ rest p q ER Hz Hp Hq) as [M0 _]. cbv zeta in M0. rewrite L1, L2 in M0. split.
  - intros Fit. destruct (multiply root p q) as [[[[rb l1] l2] s']|] eqn:Hmul; [|exfalso; apply M0; auto].
    destruct (multiply_generated am mm n t root p q rb l1 l2 s' Hn Hr Ht Hg Hp Hq Hmul) as [NE NI].
    pose proof (p_C60_multiplication_command e c db name (InDimacs t) root _ _ _ rest p q rb l1 l2 s' PR (or_intror (ex_intro _ t (conj HD eq_refl))) HE Hg RO ER Hz Hf Hm) as Q.
    cbv zeta in Q. rewrite L1, L2 in Q. destruct Q as (out & lines & file & ver & written & shown & Q1 & Q2 & Q3 & Q4); auto.
    { intros asg Ha. apply NU in Ha. rewrite U. apply (asserted_product am mm n cs' v1 ds Hn GR arr asg Ha). }
    exists root, rb, l1, l2, s', out, lines, file, ver, written, shown. repeat (split; [assumption|]). intros CF. apply (Q4 CF).
    destruct (product_reached am mm n cs' v1 ds Hn GR arr (Z.max p q) (Z.min p q)) as (f & F1 & F2 & F3); [lia|lia|].
    exists f. split; auto. apply NU; auto.
  - intros NF fuel lf. rewrite proper_command by auto. rewrite Ei. unfold main_with. rewrite Hg. cbn [bind]. unfold preprocess_with.
    cbn [a_factorize a_multiply main_opts_of]. rewrite Hf, Hm. rewrite (proj2 M0 NF). reflexivity.
Qed.

(*EX
From Verif Require Import Properties12.
(* on the file generated for 6, with three processes on a shared table *)
Definition on_generated (n : Z) (fact : bool) (mult : option (Z * Z)) : cli :=
  mkCli false true false false None None (Some (txt "six.txt", text_of n)) None false false 3 false true false true false false false
        fact mult MODE_FLO.
Example C61_example : proper (on_generated 6 true None) /\ reliable plain_env (on_generated 6 true None) [] /\
  gen_main NBit CarrySave 6 = Some (text_of 6) /\
  (exists out ver shown, command plain_env 400 400 (on_generated 6 true None) [] = Ok (Ran (Report out [LFactors 6 2 3] None ver) [] shown)) /\
  (exists out shown, command plain_env 400 400 (on_generated 7 true None) [] = Ok (Ran (Report out [LPrime 7] None None) [] shown)) /\
  (exists out ver shown, command plain_env 400 400 (on_generated 6 false (Some (2, 3))) [] = Ok (Ran (Report out [LProduct 2 3 6] None ver) [] shown)) /\
  command plain_env 400 400 (on_generated 6 false (Some (2, 9))) [] = Ok (Ran Refused [] [MRefused]).
Proof.
  split. { apply proper_iff. split; reflexivity. }
  split. { split; [reflexivity|]. split; [intros k; exists 0%nat; reflexivity|]. split; [apply round_robin_fair|]. split; [auto|discriminate]. }
  split; [vm_compute; reflexivity|]. split; [do 3 eexists; vm_compute; reflexivity|]. split; [do 2 eexists; vm_compute; reflexivity|].
  split; [do 3 eexists; vm_compute; reflexivity|]. vm_compute. reflexivity.
Qed.
EX*)

(* C62: with worker processes, what the user sees is only what the main process did before it handed out its
   waiting sets: the file written for -g has a box for each set expanded so far and each set handed out, and
   arrows only from the former; with -ns the number shown by -qn counts only these.  The nodes found by the
   workers are in neither (without -ns the numbers are right, see C34 and C48) *)
Lemma p_C62_workers_not_shown : forall e fuel lf c db name i root p waiting out lines file ver written shown,
  proper c -> reads_file c name i -> get_cnf_set i = Ok root -> root_ok root ->
  c_factorize c = false -> c_multiply c = None ->
  (c_gdb c = true -> db = [] /\ forall h, e_insert_fails e h = false) -> (forall k, e_worker_fails e k = false) ->
  let max := max_threads (e_cpus e) (c_threads c) in (0 < max)%nat ->
  hands_out (e_hash e) (e_insert_fails e) max (opts_of c) root db p waiting ->
  command e fuel lf c db = Ok (Ran (Report out lines file ver) written shown) ->
  exists expanded, NoDup (expanded ++ map sid waiting) /\ expanded <> [] /\
    (forall g d, In (g, GraphFile d) written -> dot_nodes d = expanded ++ map sid waiting /\
       (forall a b, In (a, b) (dot_edges d) -> In a expanded) /\
       (forall a v, In (a, v) (dot_leaf_edges d) -> In a expanded)) /\
    (c_no_stats c = true -> forall n, In (MUniques n) shown -> n = Z.of_nat (List.length expanded + max)).
Proof.
  intros e fuel lf c db name i root p waiting out lines file ver written shown P HR Hg RO Hf Hm Hdb Hw max Hmax HO H.
  destruct (p_C58_files_written _ _ _ _ _ _ _ _ H) as (W & _ & _).
  destruct (p_C58_shown _ _ _ _ _ _ _ _ H) as (_ & V & _).
  rewrite proper_command in H by auto. apply bind_ok in H as (ans' & E & H). injection H as -> Ewr Esh.
  destruct (reads_chosen c name i (pr_input c P) HR) as [Ei _]. rewrite Ei in E.
  unfold main_with in E. rewrite Hg in E. cbn [bind] in E. unfold preprocess_with in E. cbn [a_factorize a_multiply main_opts_of] in E.
  rewrite Hf, Hm in E. unfold run_with in E. destruct (_ && _); [discriminate|].
  assert (FD : fresh_db (opts_of c) (e_insert_fails e) db) by (split; [exact Hdb|exact (pr_gnm c P)]).
  assert (S : solver e fuel lf c root db = Ok out).
  { destruct (get_hash (e_hash e) false root) as [[h s]| |] eqn:Eh; cbn [bind catch] in E; try discriminate.
    assert (Es : exists h', s = set_hash root h').
    { unfold get_hash in Eh. destruct (computed_hash root) as [h0|] eqn:E0.
      - injection Eh as _ <-. exists (Some h0). rewrite <- E0. destruct root; reflexivity.
      - apply bind_ok in Eh as (t & _ & Eh). injection Eh as _ <-. eexists. reflexivity. }
    destruct Es as (h' & ->). rewrite solver_hash in E.
    destruct (solver e fuel lf c root db) as [out'| |]; cbn [bind catch] in E; try discriminate.
    destruct (fact_lines _ _) as [l1| |]; cbn [bind catch] in E; try discriminate.
    destruct (mult_lines _ _) as [l2| |]; cbn [bind catch] in E; try discriminate.
    injection E as -> _ _ _. reflexivity. }
  assert (R : PSplit.reports (opts_of c) p out).
  { unfold solver in S. destruct (c_gdb c) eqn:Eg.
    - eapply PSplit.frozen_sh; [exact RO|exact FD|exact Hmax|exact HO|exact Hw|exact S].
    - eapply PSplit.frozen_mp; [exact RO|exact FD|exact Hmax|exact HO|exact Hw|exact S]. }
  destruct (PSplit.reports_facts (e_hash e) (e_insert_fails e) (opts_of c) root db RO FD max Hmax p waiting HO out R) as (expanded & A & B & C & D).
  exists expanded. split; auto. split; auto. split.
  - intros g d Hin. destruct (W _ _ Hin) as (out' & l' & f' & v' & Ea & [(K1 & K2 & K3)|(_ & sol & n' & i' & st & _ & _ & K & _)]); [|discriminate].
    injection Ea as <- <- <- <-. injection K3 as ->. apply C. cbn [o_graph opts_of]. rewrite K1. destruct g; [congruence|reflexivity].
  - intros Hn n Hin. destruct (proj1 (V n) Hin) as (_ & out' & l' & f' & v' & Ea & ->). injection Ea as <- _ _ _. apply D. exact Hn.
Qed.

(* C62: the loss is real, with and without -gdb: 17 nodes are recorded, 5 are drawn and shown *)
Lemma p_C62_seventeen_nodes_five_shown : forall gdb, exists out file ver written shown d,
  proper (on_file gdb 3) /\ reliable plain_env (on_file gdb 3) [] /\
  command plain_env 300 300 (on_file gdb 3) [] = Ok (Ran (Report out [] file ver) written shown) /\
  List.length (out_children out) = 17%nat /\ In (MUniques 5) shown /\
  In (txt "g", GraphFile d) written /\ List.length (dot_nodes d) = 5%nat.
Proof.
  intros gdb. assert (P : proper (on_file gdb 3)).
  { apply proper_iff. destruct gdb; split; reflexivity. }
  assert (R : reliable plain_env (on_file gdb 3) []).
  { split; [reflexivity|]. split; [intros k; exists 0%nat; reflexivity|]. split; [apply round_robin_fair|]. split; [auto|discriminate]. }
  destruct gdb; do 6 eexists; (split; [exact P|]); (split; [exact R|]); (split; [vm_compute; reflexivity|]);
    (split; [reflexivity|]); (split; [left; reflexivity|]); (split; [left; reflexivity|]); reflexivity.
Qed.
