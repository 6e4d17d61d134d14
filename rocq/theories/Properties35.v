(* Properties35.v -- generated by tools/genprops.py from PP35.v: property theorems, their
   assumptions, and examples showing that the hypotheses are met.  Proofs are in PP35.v. *)
From Coq Require Import String Ascii ZArith List Bool Lia Znumtheory.
From Verif Require Import Spec PyBase MSet MText MQueue MDb MSolver MMain MProc MShare MCli MArgs SpecInput SpecRun SpecProc SpecShare SpecCli SpecArgs MGen SpecGen MReport SpecReport PLib PText PCli PArgs PP14 PP34 PReport PReport2.
Import ListNotations.
From Verif Require Import PP35.
Open Scope Z_scope.

(* C96: the report consists of these lines in this order: time, identity of the problem, mode, verdict, the solution if there is one,
   the number of nodes, three counts unless -ns is given, the conclusions of -fact and -mult, and the memory in use *)
Theorem C96_layout : forall r c out lines, 0 <= r_memory r ->
  exists time id nodes mem conclusions,
    report r c out lines = join [newline]
      ([txt "Input set processed in " ++ time ++ txt " seconds"; txt "Problem ID: " ++ id; txt "Solution mode: " ++ mode_shown (c_mode c);
        if out_sat out then txt "The input set is SATISFIABLE!" else txt "The input set is Not satisfiable."] ++
       (if out_sat out then [txt "The solution is " ++ match out_solution out with Some sol => shown_solution sol | None => txt "None" end] else []) ++
       [txt "Number of unique nodes: " ++ nodes] ++
       (if c_no_stats c then [] else [txt "Number of redundant subtrees: " ++ str_Z (out_redundants out); txt "Number of redundant hits: " ++ str_Z (out_hits out);
                                      txt "Number of nodes found in gdb: " ++ str_Z (out_found out)]) ++
       conclusions ++ [txt "Current memory usage: " ++ mem]) /\
    three_decimals (r_time r) time /\ in_hex (r_id r) id /\ grouped (Z.of_nat (List.length (out_children out))) nodes /\
    SpecReport.size (r_memory r) mem /\ List.length conclusions = List.length lines.
Proof. exact p_C96_layout. Qed.
Print Assumptions C96_layout.

(* C96: the verdict is the one of the two lines that is shown *)
Theorem C96_verdict : forall r c out lines,
  (shows_line (report r c out lines) (txt "The input set is SATISFIABLE!") <-> out_sat out = true) /\
  (shows_line (report r c out lines) (txt "The input set is Not satisfiable.") <-> out_sat out = false).
Proof. exact p_C96_verdict. Qed.
Print Assumptions C96_verdict.

(* C96: the solution shown is the solution found, with the value of every variable *)
Theorem C96_solution : forall r c out lines sol,
  shows_line (report r c out lines) (txt "The solution is " ++ shown_solution sol) <-> out_sat out = true /\ out_solution out = Some sol.
Proof. exact p_C96_solution. Qed.
Print Assumptions C96_solution.

(* C96: the counts shown are the counts of the outcome; the last three are left out with -ns *)
Theorem C96_counts : forall r c out lines,
  (exists t, shows_line (report r c out lines) (txt "Number of unique nodes: " ++ t)) /\
  (forall t n, shows_line (report r c out lines) (txt "Number of unique nodes: " ++ t) -> (grouped n t <-> n = Z.of_nat (List.length (out_children out)))) /\
  (forall n, shows_line (report r c out lines) (txt "Number of redundant subtrees: " ++ str_Z n) <-> c_no_stats c = false /\ n = out_redundants out) /\
  (forall n, shows_line (report r c out lines) (txt "Number of redundant hits: " ++ str_Z n) <-> c_no_stats c = false /\ n = out_hits out) /\
  (forall n, shows_line (report r c out lines) (txt "Number of nodes found in gdb: " ++ str_Z n) <-> c_no_stats c = false /\ n = out_found out).
Proof. exact p_C96_counts. Qed.
Print Assumptions C96_counts.

(* C96: each conclusion of -fact and -mult is shown in its words exactly when it was drawn *)
Theorem C96_conclusions : forall r c out lines n x y,
  let t := report r c out lines in
  (shows_line t (txt "Factorization solution is " ++ str_Z n ++ txt " = " ++ str_Z x ++ txt " x " ++ str_Z y) <-> In (LFactors n x y) lines) /\
  (shows_line t (txt "The input number " ++ str_Z n ++ txt " is prime. No factors found!") <-> In (LPrime n) lines) /\
  (shows_line t (txt "Something is wrong. Probably a bug! Input = " ++ str_Z n ++ txt ", factors found are " ++ str_Z x ++ txt " and " ++ str_Z y) <-> In (LFactorsWrong n x y) lines) /\
  (shows_line t (txt "Multiplication solution is " ++ str_Z x ++ txt " x " ++ str_Z y ++ txt " = " ++ str_Z n) <-> In (LProduct x y n) lines) /\
  (shows_line t (txt "The input numbers " ++ str_Z x ++ txt " and " ++ str_Z y ++ txt " can't be multiplied on the input CNF.") <-> In (LNoProduct x y) lines) /\
  (shows_line t (txt "Something is wrong. Probably a bug! Inputs " ++ str_Z x ++ txt " and " ++ str_Z y ++ txt " don't multiply to " ++ str_Z n ++ txt "!") <-> In (LProductWrong x y n) lines).
Proof. exact p_C96_conclusions. Qed.
Print Assumptions C96_conclusions.

(* C96: the memory is shown in the largest unit it fills, off by at most half a tenth of that unit *)
Theorem C96_memory : forall r c out lines, 0 <= r_memory r ->
  (exists t, shows_line (report r c out lines) (txt "Current memory usage: " ++ t)) /\
  (forall t, shows_line (report r c out lines) (txt "Current memory usage: " ++ t) -> SpecReport.size (r_memory r) t).
Proof. exact p_C96_memory. Qed.
Print Assumptions C96_memory.

(* C96: two reports with the same text say the same *)
Theorem C96_one_reading : forall r c out lines r' c' out' lines', report r c out lines = report r' c' out' lines' ->
  r_time r = r_time r' /\ r_id r = r_id r' /\ c_mode c = c_mode c' /\ out_sat out = out_sat out' /\
  (out_sat out = true -> out_solution out = out_solution out') /\ List.length (out_children out) = List.length (out_children out') /\
  c_no_stats c = c_no_stats c' /\
  (c_no_stats c = false -> out_redundants out = out_redundants out' /\ out_hits out = out_hits out' /\ out_found out = out_found out') /\
  lines = lines'.
Proof. exact p_C96_one_reading. Qed.
Print Assumptions C96_one_reading.

(* C96: from the words to the text: -v (or -vv) on a readable file, without -fact and -mult *)
Theorem C96_read_verdict : forall s e ws ss db w name i F,
  line_reads ws ss -> acceptable s ss ->
  (exists content, opens s w name content /\ (last_use Od [w] ss /\ i = InDimacs content \/ last_use Olf [w] ss /\ i = InSLF content)) ->
  (forall t n, last_use Ot [t] ss -> py_int t = Some n -> 0 <= n) -> (uses Ognm ss -> uses Ogdb ss) -> ~ uses Ofact ss -> ~ uses Omult ss ->
  uses Ov ss \/ uses Ovv ss -> represents i F -> (exists cl, In cl F /\ ~ complementary cl) ->
  exists c, parse_args s ws = Parsed c /\
    (reliable e c db -> exists root out file ver files shown,
       get_cnf_set i = Ok root /\ program_ends s e ws db (Ran (Report out [] file ver) files shown) /\ In (MReport out []) shown /\
       forall r, let t := report r c out [] in
         (shows_line t (txt "The input set is SATISFIABLE!") /\ satisfiable F /\
            (exists sol, shows_line t (txt "The solution is " ++ shown_solution sol) /\ forall asg, extends asg sol -> cnf_true asg F) \/
          shows_line t (txt "The input set is Not satisfiable.") /\ (collision_free (e_hash e) (opts_of c) root -> ~ satisfiable F))).
Proof. exact p_C96_read_verdict. Qed.
Print Assumptions C96_read_verdict.

(* C96: -fact -v on a generated file: the number is shown as the product of two factors above 1, or as a prime, which it is unless hashes collide *)
Theorem C96_read_factors : forall am mm n content s e ws ss db w name,
  4 <= n -> array_sized mm n -> gen_main am mm n = Some content ->
  line_reads ws ss -> acceptable s ss -> opens s w name content -> last_use Od [w] ss ->
  (forall t k, last_use Ot [t] ss -> py_int t = Some k -> 0 <= k) -> (uses Ognm ss -> uses Ogdb ss) -> uses Ofact ss -> ~ uses Omult ss -> uses Ov ss \/ uses Ovv ss ->
  exists c, parse_args s ws = Parsed c /\
    (reliable e c db -> exists root info s' out lines file ver files shown,
       get_cnf_set (InDimacs content) = Ok root /\ factorize root = Some (info, s') /\
       program_ends s e ws db (Ran (Report out lines file ver) files shown) /\ In (MReport out lines) shown /\
       forall r, let t := report r c out lines in
         ((exists p q, 1 < p /\ 1 < q /\ n = p * q /\ shows_line t (txt "Factorization solution is " ++ str_Z n ++ txt " = " ++ str_Z p ++ txt " x " ++ str_Z q)) \/
          shows_line t (txt "The input number " ++ str_Z n ++ txt " is prime. No factors found!")) /\
         (collision_free (e_hash e) (opts_of c) s' ->
            (shows_line t (txt "The input number " ++ str_Z n ++ txt " is prime. No factors found!") <-> prime n))).
Proof. exact p_C96_read_factors. Qed.
Print Assumptions C96_read_factors.

(* C96: -mult x y -v on a generated file: with factors that fit the product shown is right *)
Theorem C96_read_product : forall am mm n content s e ws ss db w name a b x y,
  4 <= n -> array_sized mm n -> gen_main am mm n = Some content ->
  line_reads ws ss -> acceptable s ss -> opens s w name content -> last_use Od [w] ss ->
  (forall t k, last_use Ot [t] ss -> py_int t = Some k -> 0 <= k) -> (uses Ognm ss -> uses Ogdb ss) -> ~ uses Ofact ss ->
  last_use Omult [a; b] ss -> py_int a = Some x -> py_int b = Some y -> 1 < x -> 1 < y ->
  Z.max x y < 2 ^ first_bits n -> Z.min x y < 2 ^ second_bits n -> uses Ov ss \/ uses Ovv ss ->
  exists c, parse_args s ws = Parsed c /\
    (reliable e c db -> exists root rb l1 l2 s' out lines file ver files shown,
       get_cnf_set (InDimacs content) = Ok root /\ multiply root x y = Some (rb, l1, l2, s') /\
       program_ends s e ws db (Ran (Report out lines file ver) files shown) /\ In (MReport out lines) shown /\
       forall r, let t := report r c out lines in
         (forall p q z, shows_line t (txt "Multiplication solution is " ++ str_Z p ++ txt " x " ++ str_Z q ++ txt " = " ++ str_Z z) -> p = x /\ q = y /\ z = x * y) /\
         (collision_free (e_hash e) (opts_of c) s' ->
            shows_line t (txt "Multiplication solution is " ++ str_Z x ++ txt " x " ++ str_Z y ++ txt " = " ++ str_Z (x * y)))).
Proof. exact p_C96_read_product. Qed.
Print Assumptions C96_read_product.

From Verif Require Import PP10 Properties5 Properties14 Properties34.
Definition small : circumstances := mkCircumstances 61050 [ascii_of_nat 1; ascii_of_nat 171] 123456789.
(* a run: -lf f -v *)
Definition v_line : list text := [txt "-lf"; txt "f"; txt "-v"].
Definition v_settings : list (opt * list text) := [(Olf, [txt "f"]); (Ov, [])].
Example ex_C96_words : line_reads v_line v_settings /\ acceptable f_file v_settings /\ last_use Olf [txt "f"] v_settings /\ uses Ov v_settings /\
  ~ uses Ofact v_settings /\ ~ uses Omult v_settings /\
  exists c out, parse_args f_file v_line = Parsed c /\ reliable plain_env c [] /\
    program f_file plain_env 400 400 v_line [] = Ok (Ran (Report out [] None None) [] [MReport out []]) /\
    report small c out [] = join [newline] (map txt ["Input set processed in 61.050 seconds"; "Problem ID: 01ab"; "Solution mode: FLO"; "The input set is SATISFIABLE!";
      "The solution is {1: False, 2: True}"; "Number of unique nodes: 2"; "Number of redundant subtrees: 0"; "Number of redundant hits: 0"; "Number of nodes found in gdb: 0";
      "Current memory usage: 117.7MiB"]%string).
Proof.
  assert (K : exists items, classes v_line = Some items /\ settings_of items = Some v_settings) by (eexists; split; vm_compute; reflexivity).
  destruct K as (items & A & B). pose proof (settings_reads _ _ _ A B) as R.
  assert (P : exists c, parse_args f_file v_line = Parsed c /\ c_threads c = 1 /\ c_gnm c = false /\ c_gdb c = false /\ c_mode c = MODE_FLO /\ c_no_stats c = false) by (eexists; split; [vm_compute; reflexivity|repeat split]).
  destruct P as (c & P & T & G & GD & M & NS). split; [exact R|]. split; [apply C95_accepted_words in P as (ss & R' & AC & _); rewrite (reads_fun _ _ _ R R'); exact AC|].
  split; [exists [], [(Ov, [])]; split; [reflexivity|]; intros (vs & K); repeat (destruct K as [K|K]; [discriminate K|]); destruct K|].
  split; [exists []; right; left; reflexivity|].
  split; [intros (vs & K); repeat (destruct K as [K|K]; [discriminate K|]); destruct K|].
  split; [intros (vs & K); repeat (destruct K as [K|K]; [discriminate K|]); destruct K|].
  exists c. eexists. split; [exact P|]. split.
  - split; [reflexivity|]. split; [intros k; exists 0%nat; reflexivity|]. split; [rewrite T; intros t; split; [intros k L; exfalso; change (max_threads (e_cpus plain_env) 1) with 0%nat in L; lia|exact (proj2 (round_robin_fair 3 t))]|]. rewrite GD, G. split; [discriminate|discriminate].
  - split; [vm_compute; reflexivity|]. unfold report, stats. rewrite M, NS. vm_compute. reflexivity.
Qed.
(* conclusions and thousands *)
Example ex_C96_figures : grouped 1234567 (txt "1,234,567") /\ SpecReport.size 123456789 (txt "117.7MiB") /\ three_decimals (-20) (txt "-0.020") /\
  shows_line (txt "a" ++ newline :: txt "The input set is SATISFIABLE!") (txt "The input set is SATISFIABLE!") /\
  shown_solution [(1, true); (-2, false)] = txt "{1: True, -2: False}".
Proof.
  split; [exists (txt "1"), [txt "234"; txt "567"]; split; [reflexivity|split; [cbn; lia|split; [repeat constructor|reflexivity]]]|].
  split; [exists 2%nat, (txt "MiB"), 117, 7; repeat (split; [first [reflexivity|lia|right; vm_compute; congruence|vm_compute; congruence]|]); vm_compute; discriminate|].
  split; [exists 0, (txt "020"), 20; repeat (split; [first [reflexivity|lia]|]); reflexivity|].
  split; [|reflexivity]. split; [vm_compute; intuition discriminate|]. exists (txt "a" ++ [newline]), []. split; [reflexivity|]. split; [right; exists (txt "a"); reflexivity|auto].
Qed.
(* -fact -v on a generated file (C61) *)
Definition gen_file : surroundings := mkSurroundings (fun w => if text_eqb w (txt "g.cnf") then gen_main NBit Wallace 35 else None) (txt "").
Definition gen_line : list text := [txt "-d"; txt "g.cnf"; txt "-v"; txt "-fact"].
Definition gen_settings : list (opt * list text) := [(Od, [txt "g.cnf"]); (Ov, []); (Ofact, [])].
Example ex_C96_factors : exists content c, gen_main NBit Wallace 35 = Some content /\ array_sized Wallace 35 /\ line_reads gen_line gen_settings /\ acceptable gen_file gen_settings /\
  opens gen_file (txt "g.cnf") (txt "g.cnf") content /\ parse_args gen_file gen_line = Parsed c /\ reliable plain_env c [] /\ uses Ofact gen_settings /\ ~ uses Omult gen_settings.
Proof.
  assert (K : exists items, classes gen_line = Some items /\ settings_of items = Some gen_settings) by (eexists; split; vm_compute; reflexivity).
  destruct K as (items & A & B). pose proof (settings_reads _ _ _ A B) as R.
  assert (C : exists content, gen_main NBit Wallace 35 = Some content) by (eexists; vm_compute; reflexivity). destruct C as (content & C).
  assert (P : exists c, parse_args gen_file gen_line = Parsed c /\ c_threads c = 1 /\ c_gnm c = false /\ c_gdb c = false) by (eexists; split; [vm_compute; reflexivity|repeat split]).
  destruct P as (c & P & T & G & GD). exists content, c. split; [exact C|]. split; [unfold array_sized; vm_compute; try congruence; auto|]. split; [exact R|].
  split; [apply C95_accepted_words in P as (ss & R' & AC & _); rewrite (reads_fun _ _ _ R R'); exact AC|].
  split; [left; split; [discriminate|split; [reflexivity|exact C]]|]. split; [exact P|]. split.
  - split; [reflexivity|]. split; [intros k; exists 0%nat; reflexivity|]. split; [rewrite T; intros t; split; [intros k L; exfalso; change (max_threads (e_cpus plain_env) 1) with 0%nat in L; lia|exact (proj2 (round_robin_fair 3 t))]|]. rewrite GD, G. split; [discriminate|discriminate].
  - split; [exists []; right; right; left; reflexivity|]. intros (vs & K); repeat (destruct K as [K|K]; [discriminate K|]); destruct K.
Qed.
(* -mult 7 5 -v on the same file *)
Definition mul_line : list text := [txt "-d"; txt "g.cnf"; txt "-v"; txt "-mult"; txt "7"; txt "5"].
Definition mul_settings : list (opt * list text) := [(Od, [txt "g.cnf"]); (Ov, []); (Omult, [txt "7"; txt "5"])].
Example ex_C96_product : exists c, line_reads mul_line mul_settings /\ acceptable gen_file mul_settings /\ parse_args gen_file mul_line = Parsed c /\ reliable plain_env c [] /\
  last_use Omult [txt "7"; txt "5"] mul_settings /\ Z.max 7 5 < 2 ^ first_bits 35 /\ Z.min 7 5 < 2 ^ second_bits 35 /\ ~ uses Ofact mul_settings.
Proof.
  assert (K : exists items, classes mul_line = Some items /\ settings_of items = Some mul_settings) by (eexists; split; vm_compute; reflexivity).
  destruct K as (items & A & B). pose proof (settings_reads _ _ _ A B) as R.
  assert (P : exists c, parse_args gen_file mul_line = Parsed c /\ c_threads c = 1 /\ c_gnm c = false /\ c_gdb c = false) by (eexists; split; [vm_compute; reflexivity|repeat split]).
  destruct P as (c & P & T & G & GD). exists c. split; [exact R|].
  split; [apply C95_accepted_words in P as (ss & R' & AC & _); rewrite (reads_fun _ _ _ R R'); exact AC|]. split; [exact P|]. split.
  - split; [reflexivity|]. split; [intros k; exists 0%nat; reflexivity|]. split; [rewrite T; intros t; split; [intros k L; exfalso; change (max_threads (e_cpus plain_env) 1) with 0%nat in L; lia|exact (proj2 (round_robin_fair 3 t))]|]. rewrite GD, G. split; [discriminate|discriminate].
  - split; [exists [(Od, [txt "g.cnf"]); (Ov, [])], []; split; [reflexivity|]; intros (vs & []) |]. split; [reflexivity|]. split; [reflexivity|].
    intros (vs & K); repeat (destruct K as [K|K]; [discriminate K|]); destruct K.
Qed.
