(* Properties14.v -- generated by tools/genprops.py from PP14.v: property theorems, their
   assumptions, and examples showing that the hypotheses are met.  Proofs are in PP14.v. *)
From Coq Require Import String Ascii ZArith List Bool Lia Permutation Sorted.
From Verif Require Import Spec PyBase MSet MText MQueue MDb MSolver MMain MProc MShare MCli MGen SpecInput SpecRun SpecProc
  SpecShare SpecGen SpecCli PLib PSolver PReader PMain PGen5 PGen6 PGen9 PGen10 PGen11 PGen12 PGen13 PP1 PP2 PP5 PP6 PP9 PP10 PP12 PProg PProg2 PCli PSplit.
Import ListNotations.
From Verif Require Import PP14.
Open Scope Z_scope.

(* C58: which command lines are accepted: exactly one input, at most one of -v -vv -q -qn, a number of threads
   that is not negative, -gnm only together with -gdb, two factors greater than 1 for -mult.  An accepted command line
   never ends with a usage error, any other one always does at once, without reading the input: with status 3
   when only the number of threads, or the number of threads and other values are wrong, else with status 2 *)
Theorem C58_accepted_commands : forall e c db,
  (proper c -> forall fuel lf status, command e fuel lf c db <> Ok (Exit status)) /\
  (~ proper c -> exists status, (forall fuel lf, command e fuel lf c db = Ok (Exit status)) /\
     (status = 3 /\ one_input c /\ one_verbosity c /\ c_threads c < 0 \/
      status = 2 /\ ~ (one_input c /\ one_verbosity c /\ c_threads c < 0))).
Proof. exact p_C58_accepted_commands. Qed.
Print Assumptions C58_accepted_commands.

(* C58: the files written.  The graph goes to the file named by -g; the solution, with -s and if one was
   found, to the input's name without extension followed by the mode, which is never the input file itself;
   nothing else is written *)
Theorem C58_files_written : forall e fuel lf c db ans written shown,
  command e fuel lf c db = Ok (Ran ans written shown) ->
  (forall name f, In (name, f) written ->
     exists out lines file ver, ans = Report out lines file ver /\
       ((c_graph c = Some name /\ name <> [] /\ f = GraphFile (out_dot out)) \/
        (c_solution_file c = true /\ exists sol input_name i stem,
           out_solution out = Some sol /\ sol <> [] /\ f = SolutionFile (format_solution sol) /\
           reads_file c input_name i /\ stem_of input_name stem /\
           name = stem ++ txt "_" ++ mode_name (c_mode c) ++ txt ".sol" /\ name <> input_name))) /\
  (forall out lines file ver sol, ans = Report out lines file ver -> out_solution out = Some sol -> sol <> [] ->
     c_solution_file c = true -> exists name, In (name, SolutionFile (format_solution sol)) written) /\
  (forall out lines file ver name, ans = Report out lines file ver -> c_graph c = Some name -> name <> [] ->
     In (name, GraphFile (out_dot out)) written).
Proof. exact p_C58_files_written. Qed.
Print Assumptions C58_files_written.

(* C58: every input name has one stem, and the names of two solution files agree exactly when the stems of
   the inputs and the modes agree: runs on a.cnf and a.txt in the same mode write the same file, runs in
   different modes or on different stems never do *)
Theorem C58_solution_names :
  (forall name, exists stem, stem_of name stem /\ forall stem', stem_of name stem' -> stem' = stem) /\
  (forall s1 s2 m1 m2, s1 ++ txt "_" ++ mode_name m1 ++ txt ".sol" = s2 ++ txt "_" ++ mode_name m2 ++ txt ".sol" <->
     s1 = s2 /\ m1 = m2) /\
  (forall stem x y, ~ In "."%char stem -> ~ In "/"%char stem -> stem <> [] ->
     ~ In "."%char x -> ~ In "/"%char x -> ~ In "."%char y -> ~ In "/"%char y ->
     stem_of (stem ++ "."%char :: x) stem /\ stem_of (stem ++ "."%char :: y) stem).
Proof. exact p_C58_solution_names. Qed.
Print Assumptions C58_solution_names.

(* C58: what the user gets to see.  The report, and with it the verdict, appears exactly with -v or -vv; -qn
   shows only the number of unique nodes; without any of these options a run that ends with a report shows
   nothing at all.  A failure is always shown *)
Theorem C58_shown : forall e fuel lf c db ans written shown,
  command e fuel lf c db = Ok (Ran ans written shown) ->
  (forall out lines, In (MReport out lines) shown <->
     (c_v c = true \/ c_vv c = true) /\ exists file ver, ans = Report out lines file ver) /\
  (forall n, In (MUniques n) shown <->
     c_qn c = true /\ exists out lines file ver, ans = Report out lines file ver /\ n = out_uniques out) /\
  (c_v c = false -> c_vv c = false -> c_qn c = false ->
     forall out lines file ver, ans = Report out lines file ver -> shown = []) /\
  (forall x, In (MError x) shown <-> ans = MMain.Failed x).
Proof. exact p_C58_shown. Qed.
Print Assumptions C58_shown.

(* C58: without -gdb the global table is neither read into the answer nor changed, whatever -t says (the help
   text says that -t enables the global table) *)
Theorem C58_table_only_with_gdb : forall e fuel lf c db out lines file ver written shown,
  c_gdb c = false -> command e fuel lf c db = Ok (Ran (Report out lines file ver) written shown) ->
  out_db out = db.
Proof. exact p_C58_table_only_with_gdb. Qed.
Print Assumptions C58_table_only_with_gdb.

(* C58: -t 0 is short for twice the number of processors *)
Theorem C58_default_threads : forall e fuel lf c db, 1 <= e_cpus e ->
  command e fuel lf (with_threads c 0) db = command e fuel lf (with_threads c (2 * e_cpus e)) db.
Proof. exact p_C58_default_threads. Qed.
Print Assumptions C58_default_threads.

Example C58_example : proper (on_file true 3) /\ ~ proper (on_file true (-1)) /\
  (forall e db fuel lf, command e fuel lf (on_file true (-1)) db = Ok (Exit 3)) /\
  stem_of (txt "in/s.txt") (txt "in/s") /\ stem_of (txt ".cnf") (txt ".cnf").
Proof.
  split; [apply proper_iff; split; reflexivity|]. split; [intros H; pose proof (pr_threads _ H) as K; cbn in K; lia|].
  split; [reflexivity|]. split.
  - apply (stem_ext (txt "in/") [] "s"%char [] (txt "txt")).
    + right. exists (txt "in"). reflexivity.
    + constructor.
    + discriminate.
    + intros [H|[]]; discriminate.
    + intros H; cbn in H; repeat (destruct H as [H|H]; [discriminate|]); destruct H.
    + intros H; cbn in H; repeat (destruct H as [H|H]; [discriminate|]); destruct H.
  - apply (stem_plain [] (txt ".") (txt "cnf")).
    + left. reflexivity.
    + repeat constructor.
    + intros H; cbn in H; repeat (destruct H as [H|H]; [discriminate|]); destruct H.
    + intros H; cbn in H; repeat (destruct H as [H|H]; [discriminate|]); destruct H.
Qed.
(* without any option on verbosity nothing is shown; the solution file is written all the same *)
Example C58_silent : exists out file ver written,
  command plain_env 300 300 (mkCli false false false false None (Some (txt "in/s.txt", sample_text)) None None true false 3
    false true false false false false false false None MODE_FLO) [] = Ok (Ran (Report out [] file ver) written []) /\
  map fst written = [txt "in/s_flo.sol"] /\ out_sat out = true /\ ver = Some true.
Proof. do 4 eexists. split; [vm_compute; reflexivity|]. split; [reflexivity|]. split; reflexivity. Qed.

(* C59: the whole program, from an accepted command line with any number of processes, on a file holding a
   formula with at least one clause that is not a tautology: it ends with a report; 'SATISFIABLE' is always
   right and comes with a correct solution, which is what is written and verified; the verdict is exact
   unless two formulas met in the search have the same hash *)
Theorem C59_program_verdict : forall e c db name i F,
  proper c -> reads_file c name i -> represents i F -> (exists cl, In cl F /\ ~ complementary cl) ->
  reliable e c db -> c_factorize c = false -> c_multiply c = None ->
  exists root out file ver written shown,
    get_cnf_set i = Ok root /\
    command_ends e c db (Ran (Report out [] file ver) written shown) /\
    (out_sat out = true -> satisfiable F /\
       exists sol, out_solution out = Some sol /\ NoDup (dkeys sol) /\
         (forall asg, extends asg sol -> cnf_true asg F) /\
         (forall v, In v (dkeys sol) -> In v (fvars F)) /\
         file = (if c_solution_file c then Some (format_solution sol) else None) /\
         exists b, ver = (if c_verify c then Some b else None) /\ (~ In 0 (fvars F) -> b = true)) /\
    (out_sat out = false -> out_solution out = None /\ file = None /\ ver = None) /\
    (collision_free (e_hash e) (opts_of c) root -> (out_sat out = true <-> satisfiable F)).
Proof. exact p_C59_program_verdict. Qed.
Print Assumptions C59_program_verdict.

(* C59, the inputs without a verdict, whatever the other options: a formula all of whose clauses are
   tautologies makes the program fail, a file without clauses ends it silently, a formula given with -l is
   never solved, and a file with a field that is not an integer is silently dropped *)
Theorem C59_no_verdict : forall e fuel lf c db,
  proper c -> c_multiply c = None ->
  (forall name i F, reads_file c name i -> represents i F -> F <> [] -> (forall cl, In cl F -> complementary cl) ->
     command e fuel lf c db = Ok (Ran (MMain.Failed ValueError) [] [MError ValueError])) /\
  (forall name i, reads_file c name i -> represents i [] -> command e fuel lf c db = Ok (Ran NoAnswer [] [])) /\
  (c_line c <> None -> exists x, command e fuel lf c db = Ok (Ran (MMain.Failed x) [] [MError x])) /\
  (forall name pre f post rest, c_line_file c = Some (name, (pre ++ f ++ post) ++ rest) ->
     malformed f -> ~ In "&"%char f -> ~ In "|"%char f ->
     (pre = [] \/ exists p, pre = p ++ ["&"%char] \/ pre = p ++ ["|"%char]) ->
     (post = [] \/ exists p, post = "&"%char :: p \/ post = "|"%char :: p) ->
     one_line (pre ++ f ++ post) -> (rest = [] \/ exists u, rest = nl :: u) ->
     command e fuel lf c db = Ok (Ran NoAnswer [] [])).
Proof. exact p_C59_no_verdict. Qed.
Print Assumptions C59_no_verdict.

From Verif Require Import Properties5.
Example C59_example : let c := mkCli false false false false None (Some (txt "f", txt "1|2&-1" ++ [])) None None true false 3
    false true false true false false false false None MODE_FLO in
  proper c /\ reads_file c (txt "f") (InSLF (txt "1|2&-1" ++ [])) /\ represents (InSLF (txt "1|2&-1" ++ [])) [[1; 2]; [-1]] /\
  (exists cl, In cl [[1; 2]; [-1]] /\ ~ complementary cl) /\ reliable plain_env c [].
Proof.
  cbv zeta. split; [apply proper_iff; split; reflexivity|]. split; [left; eexists; split; reflexivity|].
  split; [exact (proj1 C47_example)|]. split; [exact (proj1 (proj2 C47_example))|].
  split; [reflexivity|]. split; [intros k; exists 0%nat; reflexivity|]. split; [apply round_robin_fair|]. split; [auto|discriminate].
Qed.
Example C59_no_verdict_example : represents (InSLF (txt "1|-1" ++ [])) [[1; -1]] /\ complementary [1; -1] /\
  represents (InDimacs (file_of [chars "p cnf 0 0"; []])) [].
Proof. exact (proj2 (proj2 (proj2 C47_example))). Qed.

(* C60: with -fact, any number of processes and any command line: on a formula whose models all encode factors
   of the number read off the unit clauses, correct factors, or 'prime' when no solution is found *)
Theorem C60_factoring_command : forall e c db name i root x y z rest info s',
  proper c -> reads_file c name i -> reliable e c db ->
  get_cnf_set i = Ok root -> root_ok root -> raws root = [x; y; z] :: rest ->
  (forall cl l, In cl (raws root) -> In l cl -> l <> 0) ->
  c_factorize c = true -> c_multiply c = None ->
  let f1 := y - 1 in let f2 := Z.abs z - y in
  let units := unit_literals (raws root) in
  let number := bits_value (map (Z.ltb 0) units) in
  0 < f1 -> 0 < f2 -> 0 < number -> f1 + f2 <= Z.of_nat (List.length (first_occurrences (map Z.abs units))) ->
  (forall asg, cnf_true asg (raws root) ->
     value_of asg (next_vars 0 f1) * value_of asg (next_vars f1 f2) = number) ->
  factorize root = Some (info, s') -> raws s' <> [] -> ~ In [] (raws s') ->
  exists out lines file ver written shown,
    command_ends e c db (Ran (Report out lines file ver) written shown) /\
    (out_sat out = true -> exists sol, out_solution out = Some sol /\ NoDup (dkeys sol) /\
       forall asg, extends asg sol -> cnf_true asg (raws root) /\
         exists p q, lines = [LFactors number p q] /\ number = p * q /\
           p = value_of asg (next_vars 0 f1) /\ q = value_of asg (next_vars f1 f2)) /\
    (out_sat out = false -> lines = [LPrime number]) /\
    (collision_free (e_hash e) (opts_of c) s' -> (out_sat out = true <-> satisfiable (raws root))).
Proof. exact p_C60_factoring_command. Qed.
Print Assumptions C60_factoring_command.

(* C60: with -mult: the right product, or 'can't be multiplied' when no solution is found *)
Theorem C60_multiplication_command : forall e c db name i root x y z rest p q rb l1 l2 s',
  proper c -> reads_file c name i -> reliable e c db ->
  get_cnf_set i = Ok root -> root_ok root -> raws root = [x; y; z] :: rest ->
  (forall cl l, In cl (raws root) -> In l cl -> l <> 0) ->
  c_factorize c = false -> c_multiply c = Some (p, q) ->
  let f1 := y - 1 in let f2 := Z.abs z - y in
  (forall asg, cnf_true asg (non_units (raws root)) ->
     value_of asg (next_vars 0 f1) * value_of asg (next_vars f1 f2) =
     value_of asg (map Z.abs (unit_literals (raws root)))) ->
  multiply root p q = Some (rb, l1, l2, s') -> raws s' <> [] -> ~ In [] (raws s') ->
  exists out lines file ver written shown,
    command_ends e c db (Ran (Report out lines file ver) written shown) /\
    (out_sat out = true -> lines = [LProduct p q (p * q)]) /\
    (out_sat out = false -> lines = [LNoProduct p q]) /\
    (collision_free (e_hash e) (opts_of c) s' -> (out_sat out = true <->
       exists asg, cnf_true asg (non_units (raws root)) /\
         value_of asg (next_vars 0 f1) = Z.max p q /\ value_of asg (next_vars f1 f2) = Z.min p q)).
Proof. exact p_C60_multiplication_command. Qed.
Print Assumptions C60_multiplication_command.

(* C61: the generator and the solver together, with any number of processes: run on a generated file the
   program answers whether n is composite, and every completion of the solution gives two proper factors *)
Theorem C61_generated_verdict : forall am mm n t e c db name,
  4 <= n -> gen_main am mm n = Some t ->
  proper c -> c_dimacs c = Some (name, t) -> reliable e c db ->
  c_factorize c = false -> c_multiply c = None ->
  exists root out file ver written shown,
    get_cnf_set (InDimacs t) = Ok root /\
    command_ends e c db (Ran (Report out [] file ver) written shown) /\
    (out_sat out = true -> composite n /\ exists sol, out_solution out = Some sol /\
       NoDup (dkeys sol) /\ forall asg, extends asg sol ->
         let p := value_of asg (next_vars 0 (first_bits n)) in
         let q := value_of asg (next_vars (first_bits n) (second_bits n)) in
         1 < p /\ 1 < q /\ n = p * q) /\
    (collision_free (e_hash e) (opts_of c) root -> (out_sat out = true <-> composite n)).
Proof. exact p_C61_generated_verdict. Qed.
Print Assumptions C61_generated_verdict.

(* C61: with -fact: two proper factors, or 'prime' *)
Theorem C61_generated_factors : forall am mm n t e c db name,
  4 <= n -> array_sized mm n -> gen_main am mm n = Some t ->
  proper c -> c_dimacs c = Some (name, t) -> reliable e c db ->
  c_factorize c = true -> c_multiply c = None ->
  exists root info s' out lines file ver written shown,
    get_cnf_set (InDimacs t) = Ok root /\ factorize root = Some (info, s') /\
    command_ends e c db (Ran (Report out lines file ver) written shown) /\
    (out_sat out = true -> exists p q, lines = [LFactors n p q] /\ 1 < p /\ 1 < q /\ n = p * q) /\
    (out_sat out = false -> lines = [LPrime n]) /\
    (collision_free (e_hash e) (opts_of c) s' -> (out_sat out = true <-> ~ Znumtheory.prime n)).
Proof. exact p_C61_generated_factors. Qed.
Print Assumptions C61_generated_factors.

(* C61: with -mult p q: the product when they fit, a refusal otherwise *)
Theorem C61_generated_products : forall am mm n t e c db name p q,
  4 <= n -> array_sized mm n -> gen_main am mm n = Some t ->
  proper c -> c_dimacs c = Some (name, t) -> reliable e c db ->
  c_factorize c = false -> c_multiply c = Some (p, q) ->
  (Z.max p q < 2 ^ first_bits n /\ Z.min p q < 2 ^ second_bits n ->
   exists root rb l1 l2 s' out lines file ver written shown,
     get_cnf_set (InDimacs t) = Ok root /\ multiply root p q = Some (rb, l1, l2, s') /\
     command_ends e c db (Ran (Report out lines file ver) written shown) /\
     (out_sat out = true -> lines = [LProduct p q (p * q)]) /\
     (out_sat out = false -> lines = [LNoProduct p q]) /\
     (collision_free (e_hash e) (opts_of c) s' -> out_sat out = true)) /\
  (~ (Z.max p q < 2 ^ first_bits n /\ Z.min p q < 2 ^ second_bits n) ->
   forall fuel lf, command e fuel lf c db = Ok (Ran Refused [] [MRefused])).
Proof. exact p_C61_generated_products. Qed.
Print Assumptions C61_generated_products.

From Verif Require Import Properties12.
(* on the file generated for 6, with three processes on a shared table *)
Definition on_generated (n : Z) (fact : bool) (mult : option (Z * Z)) : cli :=
  mkCli false true false false None None (Some (txt "six.txt", text_of n)) None false false 3 false true false true false false false
        fact mult MODE_FLO.
Example C61_example : proper (on_generated 6 true None) /\ reliable plain_env (on_generated 6 true None) [] /\
  gen_main NBit CarrySave 6 = Some (text_of 6) /\
  (exists out ver shown, command plain_env 400 400 (on_generated 6 true None) [] = Ok (Ran (Report out [LFactors 6 2 3] None ver) [] shown)) /\
  (exists out shown, command plain_env 400 400 (on_generated 7 true None) [] = Ok (Ran (Report out [LPrime 7] None None) [] shown)) /\
  (exists out ver shown, command plain_env 400 400 (on_generated 6 false (Some (2, 3))) [] = Ok (Ran (Report out [LProduct 2 3 6] None ver) [] shown)) /\
  command plain_env 400 400 (on_generated 6 false (Some (2, 9))) [] = Ok (Ran Refused [] [MRefused]).
Proof.
  split. { apply proper_iff. split; reflexivity. }
  split. { split; [reflexivity|]. split; [intros k; exists 0%nat; reflexivity|]. split; [apply round_robin_fair|]. split; [auto|discriminate]. }
  split; [vm_compute; reflexivity|]. split; [do 3 eexists; vm_compute; reflexivity|]. split; [do 2 eexists; vm_compute; reflexivity|].
  split; [do 3 eexists; vm_compute; reflexivity|]. vm_compute. reflexivity.
Qed.

(* C62: with worker processes, what the user sees is only what the main process did before it handed out its
   waiting sets: the file written for -g has a box for each set expanded so far and each set handed out, and
   arrows only from the former; with -ns the number shown by -qn counts only these.  The nodes found by the
   workers are in neither (without -ns the numbers are right, see C34 and C48) *)
Theorem C62_workers_not_shown : forall e fuel lf c db name i root p waiting out lines file ver written shown,
  proper c -> reads_file c name i -> get_cnf_set i = Ok root -> root_ok root ->
  c_factorize c = false -> c_multiply c = None ->
  (c_gdb c = true -> db = [] /\ forall h, e_insert_fails e h = false) -> (forall k, e_worker_fails e k = false) ->
  let max := max_threads (e_cpus e) (c_threads c) in (0 < max)%nat ->
  hands_out (e_hash e) (e_insert_fails e) max (opts_of c) root db p waiting ->
  command e fuel lf c db = Ok (Ran (Report out lines file ver) written shown) ->
  exists expanded, NoDup (expanded ++ map sid waiting) /\ expanded <> [] /\
    (forall g d, In (g, GraphFile d) written -> dot_nodes d = expanded ++ map sid waiting /\
       (forall a b, In (a, b) (dot_edges d) -> In a expanded) /\
       (forall a v, In (a, v) (dot_leaf_edges d) -> In a expanded)) /\
    (c_no_stats c = true -> forall n, In (MUniques n) shown -> n = Z.of_nat (List.length expanded + max)).
Proof. exact p_C62_workers_not_shown. Qed.
Print Assumptions C62_workers_not_shown.

(* C62: the loss is real, with and without -gdb: 17 nodes are recorded, 5 are drawn and shown *)
Theorem C62_seventeen_nodes_five_shown : forall gdb, exists out file ver written shown d,
  proper (on_file gdb 3) /\ reliable plain_env (on_file gdb 3) [] /\
  command plain_env 300 300 (on_file gdb 3) [] = Ok (Ran (Report out [] file ver) written shown) /\
  List.length (out_children out) = 17%nat /\ In (MUniques 5) shown /\
  In (txt "g", GraphFile d) written /\ List.length (dot_nodes d) = 5%nat.
Proof. exact p_C62_seventeen_nodes_five_shown. Qed.
Print Assumptions C62_seventeen_nodes_five_shown.
