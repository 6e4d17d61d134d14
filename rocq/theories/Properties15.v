(* Properties15.v -- generated by tools/genprops.py from PP15.v: property theorems, their
   assumptions, and examples showing that the hypotheses are met.  Proofs are in PP15.v. *)
From Coq Require Import String Ascii ZArith List Bool Lia Permutation Sorted.
From Verif Require Import Spec PyBase MSet MText MQueue MDb MSolver MMain MProc MShare MCli MSession MGen SpecInput SpecRun SpecProc
  SpecShare SpecGen SpecCli SpecSession PLib PDb PSolver PReader PMain PP1 PP2 PP5 PP7 PP10 PProg PProg2 PCli PSession PP14.
Import ListNotations.
From Verif Require Import PP15.
Open Scope Z_scope.

(* C63: delete_gdb.py empties the table of the mode it is asked for, unless that mode is 'normal', and
   touches no other; whatever its arguments, the table of mode 'normal' stays; and if it says nothing was
   deleted, nothing was *)
Theorem C63_delete : forall args d,
  (forall m, deletes m (Deletes args) -> rows_of (fst (delete_gdb args d)) m = [] /\ snd (delete_gdb args d) = true) /\
  (forall m, ~ deletes m (Deletes args) -> rows_of (fst (delete_gdb args d)) m = rows_of d m) /\
  rows_of (fst (delete_gdb args d)) MODE_NORMAL = rows_of d MODE_NORMAL /\
  (snd (delete_gdb args d) = true <-> exists m, deletes m (Deletes args)) /\
  (snd (delete_gdb args d) = false -> fst (delete_gdb args d) = d).
Proof. exact p_C63_delete. Qed.
Print Assumptions C63_delete.

(* C63: the tables of the modes are kept apart: an event changes the table of a mode only if it deletes it or
   is a run in that mode with -gdb *)
Theorem C63_tables_apart : forall d ev d' m,
  happens d ev d' -> ~ uses m ev -> ~ deletes m ev -> rows_of d' m = rows_of d m.
Proof. exact p_C63_tables_apart. Qed.
Print Assumptions C63_tables_apart.

(* C63: a run that ends with a report has changed the table of its mode only by statements that insert rows
   under new hashes, write positive counts, or add to redundant_times *)
Theorem C63_statements : forall e c db out lines file ver written shown,
  command_ends e c db (Ran (Report out lines file ver) written shown) ->
  exists ops, Forall statement ops /\ out_db out = tab_run ops db /\ (c_gdb c = false -> ops = []).
Proof. exact p_C63_statements. Qed.
Print Assumptions C63_statements.

(* C63: through any sequence of runs, complete or cut off, with any options and outcomes, and of deletions of
   other tables, no row of a table is lost or changes its content, and a solved set stays solved *)
Theorem C63_rows_kept : forall evs0 d evs d' m h w,
  session [] evs0 d -> session d evs d' -> (forall ev, In ev evs -> ~ deletes m ev) ->
  In (h, w) (rows_of d m) ->
  NoDup (dkeys (rows_of d' m)) /\
  exists w', In (h, w') (rows_of d' m) /\ row_content w' = row_content w /\ (0 < r_unique w -> 0 < r_unique w').
Proof. exact p_C63_rows_kept. Qed.
Print Assumptions C63_rows_kept.

(* C63: the verdict does not depend on the past: after any sequence of runs and deletions, a run without
   -gdb, or one with -gdb whose table was not used since it was last deleted, reports the truth (see C59) *)
Theorem C63_verdict_whatever_happened : forall evs d e c name i F,
  session [] evs d -> (c_gdb c = true -> unused (c_mode c) evs) ->
  proper c -> reads_file c name i -> represents i F -> (exists cl, In cl F /\ ~ complementary cl) ->
  reliable e c [] -> c_factorize c = false -> c_multiply c = None ->
  exists root out file ver written shown,
    get_cnf_set i = Ok root /\
    command_ends e c (rows_of d (c_mode c)) (Ran (Report out [] file ver) written shown) /\
    (out_sat out = true -> satisfiable F /\
       exists sol, out_solution out = Some sol /\ NoDup (dkeys sol) /\
         (forall asg, extends asg sol -> cnf_true asg F) /\
         (forall v, In v (dkeys sol) -> In v (fvars F))) /\
    (out_sat out = false -> out_solution out = None) /\
    (collision_free (e_hash e) (opts_of c) root -> (out_sat out = true <-> satisfiable F)).
Proof. exact p_C63_verdict_whatever_happened. Qed.
Print Assumptions C63_verdict_whatever_happened.

(* C64: once a problem was solved with -gdb, every later run of it in the same mode with -gdb reports 'Not
   satisfiable', without a solution, and with -fact calls the number prime: whatever was run, cut off or
   deleted in between, as long as it is not this mode's table, and whatever the other options of the later
   run.  In mode 'normal' this lasts for ever, as its table cannot be deleted.  (The first run finds an empty
   table, or the later one has -gnm; with -rdb the input is taken as it is.) *)
Theorem C64_denied_ever_after : forall evs0 d0 e1 c1 out1 lines1 file1 ver1 written1 shown1 d1 evs d2 e2 c2,
  session [] evs0 d0 ->
  happens d0 (Runs e1 c1 (Ran (Report out1 lines1 file1 ver1) written1 shown1)) d1 ->
  session d1 evs d2 -> (c_mode c1 = MODE_NORMAL \/ forall ev, In ev evs -> ~ deletes (c_mode c1) ev) ->
  c_gdb c1 = true -> c_no_stats c1 = false -> (forall h, e_insert_fails e1 h = false) ->
  (c_gnm c2 = true \/ rows_of d0 (c_mode c1) = []) ->
  (c_rdb c1 = true -> c_factorize c1 = false /\ c_multiply c1 = None /\
     exists F, represents (chosen_input c1) F /\ exists cl, In cl F /\ ~ complementary cl) ->
  proper c2 -> c_gdb c2 = true -> same_problem c1 c2 -> e_hash e2 = e_hash e1 ->
  exists out2 written2 shown2,
    command_ends e2 c2 (rows_of d2 (c_mode c2)) (Ran (Report out2 (map denied lines1) None None) written2 shown2) /\
    out_sat out2 = false /\ out_solution out2 = None /\ out_db out2 = rows_of d2 (c_mode c2).
Proof. exact p_C64_denied_ever_after. Qed.
Print Assumptions C64_denied_ever_after.

(* C64: so on the file generated for a composite number, -fact -gdb prints its factors the first time, and
   'prime' every other time *)
Theorem C64_composite_called_prime : forall am mm n t e c name evs0 d0,
  4 <= n -> ~ Znumtheory.prime n -> array_sized mm n -> gen_main am mm n = Some t ->
  proper c -> c_dimacs c = Some (name, t) -> reliable e c [] -> c_factorize c = true -> c_multiply c = None ->
  c_gdb c = true -> c_rdb c = false -> c_no_stats c = false ->
  (forall root info s', get_cnf_set (InDimacs t) = Ok root -> factorize root = Some (info, s') ->
     collision_free (e_hash e) (opts_of c) s') ->
  session [] evs0 d0 -> rows_of d0 (c_mode c) = [] ->
  exists p q out file ver written shown d1,
    1 < p /\ 1 < q /\ n = p * q /\
    happens d0 (Runs e c (Ran (Report out [LFactors n p q] file ver) written shown)) d1 /\
    forall evs d2, session d1 evs d2 -> (forall ev, In ev evs -> ~ deletes (c_mode c) ev) ->
      exists out2 written2 shown2,
        command_ends e c (rows_of d2 (c_mode c)) (Ran (Report out2 [LPrime n] None None) written2 shown2).
Proof. exact p_C64_composite_called_prime. Qed.
Print Assumptions C64_composite_called_prime.

(* a day's work: a run in mode lo is killed after its first statement, the file generated for 6 is factored with
   -gdb in mode flo, then again, and the table of mode flo is deleted *)
From Verif Require Import Properties12 Properties14.
Definition six : cli := on_generated 6 true None.
Definition cut_run : event := CutOff (on_file true 3) [TInsert false (txt "h") (txt "1") (txt "T") (txt "F") 1 1].
Definition deletion : event := Deletes [txt "globalsetstable_flo"].
Example C63_C64_example : exists d0, session [] [cut_run] d0 /\ rows_of d0 MODE_FLO = [] /\ List.length (rows_of d0 MODE_LO) = 1%nat /\
  proper six /\ reliable plain_env six [] /\ same_problem six six /\
  exists p q out file ver w s d1,
    happens d0 (Runs plain_env six (Ran (Report out [LFactors 6 p q] file ver) w s)) d1 /\ 1 < p /\ 1 < q /\ 6 = p * q /\
    (exists out2 w2 s2, command_ends plain_env six (rows_of d1 MODE_FLO) (Ran (Report out2 [LPrime 6] None None) w2 s2)) /\
    deletes MODE_FLO deletion /\
    (exists d2, happens d1 deletion d2 /\ rows_of d2 MODE_FLO = [] /\ rows_of d2 MODE_LO = rows_of d0 MODE_LO) /\
    unused MODE_FLO [Runs plain_env six (Ran (Report out [LFactors 6 p q] file ver) w s); cut_run; deletion; cut_run].
Proof.
  destruct C61_example as (P & R & Gm & _). fold six in P, R.
  assert (H0 : happens [] cut_run (with_table MODE_LO (tab_run [TInsert false (txt "h") (txt "1") (txt "T") (txt "F") 1 1] []) [])).
  { apply (h_cut [] (on_file true 3) [TInsert false (txt "h") (txt "1") (txt "T") (txt "F") 1 1]). constructor; [exact I|constructor]. }
  set (d0 := with_table _ _ _) in H0. exists d0.
  assert (S0 : session [] [cut_run] d0) by (apply (s_next [] [] [] cut_run d0); [constructor|exact H0]).
  split; auto. split; [reflexivity|]. split; [reflexivity|]. split; auto. split; auto. split; [repeat split|].
  destruct (C64_composite_called_prime NBit CarrySave 6 (text_of 6) plain_env six (txt "six.txt") [cut_run] d0)
    as (p & q & out & file & ver & w & s & d1 & Hp & Hq & Hpq & H1 & H2); try reflexivity; auto; try lia.
  - intros [_ K]. specialize (K 2 ltac:(lia)). apply Znumtheory.Zgcd_1_rel_prime in K. vm_compute in K. discriminate.
  - discriminate.
  - intros. apply never_collides.
  - exists p, q, out, file, ver, w, s, d1. split; auto. split; auto. split; auto. split; auto.
    split; [apply (H2 [] d1); [constructor|intros ev []]|].
    assert (D : deletes MODE_FLO deletion) by (split; [reflexivity|discriminate]). split; auto.
    split.
    + eexists. split; [apply h_delete|]. destruct (C63_delete [txt "globalsetstable_flo"] d1) as (K1 & K2 & _).
      split; [apply K1; exact D|]. rewrite K2 by (intros [K _]; discriminate).
      apply (C63_tables_apart _ _ _ MODE_LO H1); cbn; [intros [_ K]; discriminate|auto].
    + exists [Runs plain_env six (Ran (Report out [LFactors 6 p q] file ver) w s); cut_run; deletion], [cut_run].
      split; auto. split; [right; exists [Runs plain_env six (Ran (Report out [LFactors 6 p q] file ver) w s); cut_run], deletion; auto|].
      intros ev [<-|[]] [_ K]. discriminate.
Qed.
