(* Properties33.v -- generated by tools/genprops.py from PP33.v: property theorems, their
   assumptions, and examples showing that the hypotheses are met.  Proofs are in PP33.v. *)
From Coq Require Import String Ascii ZArith List Bool Lia.
From Verif Require Import Spec SpecInput PyBase MText MSet MSolver MMain MCnf MGen MSabry SpecRun SpecGen SpecSabry PLib PText PFam1 PFam4 PP12 PSabry.
Import ListNotations.
From Verif Require Import PP33.
Open Scope Z_scope.

(* C94: called with a number greater than 1 and known names, sabry_cnf_gen prints the file of C53 and ends without error; with
   any other names it ends without error only for 2 and 3, where the array and the tree need no adder; with another
   number of arguments it prints nothing and ends with an error *)
Theorem C94_call : forall other kept,
  (forall n a m, 1 < n -> exists t, gen_main a m n = Some t /\
     sabry other kept [str_Z n; adder_name a; multiplier_name m] = (t, true)) /\
  (forall n ad mu, snd (sabry other kept [str_Z n; ad; mu]) = true <->
     1 < n /\ exists m, mu = multiplier_name m /\ ((exists a, ad = adder_name a) \/ (n <= 3 /\ m <> CarrySave))) /\
  (forall args, List.length args <> 3%nat -> sabry other kept args = ([], false)).
Proof. exact p_C94_call. Qed.
Print Assumptions C94_call.

(* C94: what a call that fails has printed are comments, which the program reads as a formula without clauses: no verdict *)
Theorem C94_failed_call : forall other kept args t,
  sabry other kept args = (t, false) -> (forall w, In w args -> ~ In newline w) ->
  only_comments t /\ get_cnf_set (InDimacs t) = Ok empty_set /\
  forall hash insert_fails fuel lf o a db, a_multiply a = None ->
    main_run hash insert_fails fuel lf o a (InDimacs t) db = Ok NoAnswer.
Proof. exact p_C94_failed_call. Qed.
Print Assumptions C94_failed_call.

(* C94: called with two numbers the script writes one file for each number from the first to the second, in this order, and
   nothing else: for a number greater than 1 the generated file (n-bit adder, Wallace tree), otherwise comments only *)
Theorem C94_range : forall hs shell kept a b, shell_sized a -> shell_sized b -> b < 2 ^ 63 - 1 ->
  exists N ws, (forall rounds, (N <= rounds)%nat -> multiple_set_gen hs shell kept rounds [str_Z a; str_Z b] = Some ws) /\
    map fst ws = map (fun i => benchmark_file (str_Z i)) (range a (b + 1)) /\
    (forall i, a <= i <= b -> 1 < i -> exists t, gen_main NBit Wallace i = Some t /\ content ws (benchmark_file (str_Z i)) = Some t) /\
    (forall i, a <= i <= b -> i <= 1 -> exists t, content ws (benchmark_file (str_Z i)) = Some t /\ only_comments t) /\
    (forall name, (forall i, a <= i <= b -> name <> benchmark_file (str_Z i)) -> content ws name = None).
Proof. exact p_C94_range. Qed.
Print Assumptions C94_range.

(* C94: up to the largest number of the shell the loop never ends; when the first number is larger than the second, or one of the
   first two words is missing or empty, nothing is written *)
Theorem C94_edges : forall hs shell kept rounds,
  (forall a, shell_sized a -> multiple_set_gen hs shell kept rounds [str_Z a; str_Z (2 ^ 63 - 1)] = None) /\
  (forall a b, shell_sized a -> shell_sized b -> b < a -> multiple_set_gen hs shell kept rounds [str_Z a; str_Z b] = Some []) /\
  multiple_set_gen hs shell kept rounds [] = Some [] /\
  (forall w, multiple_set_gen hs shell kept rounds [w] = Some []) /\
  (forall w more, multiple_set_gen hs shell kept rounds ([] :: w :: more) = Some [] /\ multiple_set_gen hs shell kept rounds (w :: [] :: more) = Some []).
Proof. exact p_C94_edges. Qed.
Print Assumptions C94_edges.

(* C94: called with three or more numbers it writes one file for each of them *)
Theorem C94_list : forall hs shell kept rounds numbers, (3 <= List.length numbers)%nat ->
  exists ws, multiple_set_gen hs shell kept rounds (map str_Z numbers) = Some ws /\
    map fst ws = map (fun i => benchmark_file (str_Z i)) numbers /\
    (forall i, In i numbers -> 1 < i -> exists t, gen_main NBit Wallace i = Some t /\ content ws (benchmark_file (str_Z i)) = Some t) /\
    (forall i, In i numbers -> i <= 1 -> exists t, content ws (benchmark_file (str_Z i)) = Some t /\ only_comments t) /\
    (forall name, (forall i, In i numbers -> name <> benchmark_file (str_Z i)) -> content ws name = None).
Proof. exact p_C94_list. Qed.
Print Assumptions C94_list.

(* C94: so after the script has written the files for a range, the program run on the file of a number of the range decides
   whether the number is composite *)
Theorem C94_decides : forall hs shell kept a b i, shell_sized a -> shell_sized b -> b < 2 ^ 63 - 1 -> a <= i <= b -> 4 <= i ->
  exists N ws t, (forall rounds, (N <= rounds)%nat -> multiple_set_gen hs shell kept rounds [str_Z a; str_Z b] = Some ws) /\
    content ws (benchmark_file (str_Z i)) = Some t /\
    forall hash insert_fails o opts db, fresh_db o insert_fails db -> a_factorize opts = false -> a_multiply opts = None ->
      exists root out file ver, get_cnf_set (InDimacs t) = Ok root /\
        program_answers hash insert_fails o opts (InDimacs t) db (Report out [] file ver) /\
        (out_sat out = true -> composite i) /\
        (collision_free hash o root -> (out_sat out = true <-> composite i)).
Proof. exact p_C94_decides. Qed.
Print Assumptions C94_decides.

(* C94: and with -fact it prints two proper factors of the number, or that it is prime *)
Theorem C94_factors : forall hs shell kept a b i, shell_sized a -> shell_sized b -> b < 2 ^ 63 - 1 -> a <= i <= b -> 4 <= i ->
  exists N ws t, (forall rounds, (N <= rounds)%nat -> multiple_set_gen hs shell kept rounds [str_Z a; str_Z b] = Some ws) /\
    content ws (benchmark_file (str_Z i)) = Some t /\
    forall hash insert_fails o opts db, fresh_db o insert_fails db -> a_factorize opts = true -> a_multiply opts = None ->
      exists out lines file ver,
        program_answers hash insert_fails o opts (InDimacs t) db (Report out lines file ver) /\
        ((exists p q, lines = [LFactors i p q] /\ 1 < p /\ 1 < q /\ i = p * q) \/ lines = [LPrime i]) /\
        (forall root info s, get_cnf_set (InDimacs t) = Ok root -> factorize root = Some (info, s) -> collision_free hash o s ->
           (lines = [LPrime i] <-> Znumtheory.prime i)).
Proof. exact p_C94_factors. Qed.
Print Assumptions C94_factors.

(* the range 2..5, the list 2 4 6, an unknown adder, a number that is none *)
Definition no_number (_ : text) : option Z := None.
Example C94_range_holds : shell_sized 2 /\ shell_sized 5 /\ 5 < 2 ^ 63 - 1 /\
  option_map (map fst) (multiple_set_gen no_number no_number true 10 [txt "2"; txt "5"]) =
    Some (map (fun i => benchmark_file (txt i)) ["2"; "3"; "4"; "5"]%string) /\
  option_map (map fst) (multiple_set_gen no_number no_number true 10 [txt "2"; txt "4"; txt "6"]) =
    Some (map (fun i => benchmark_file (txt i)) ["2"; "4"; "6"]%string) /\
  str_Z 2 = txt "2" /\ str_Z 5 = txt "5".
Proof. split; [split; vm_compute; [discriminate|reflexivity]|]. split; [split; vm_compute; [discriminate|reflexivity]|]. split; [reflexivity|]. repeat split; vm_compute; reflexivity. Qed.
Example C94_names_example :
  snd (sabry no_number true [txt "2"; txt "slow"; txt "wallace"]) = true /\
  snd (sabry no_number true [txt "4"; txt "slow"; txt "wallace"]) = false /\
  snd (sabry no_number true [txt "2"; txt "slow"; txt "carry-save"]) = false /\
  snd (sabry no_number true [txt "4"; txt "fast"; txt "recursive"]) = true.
Proof. repeat split; vm_compute; reflexivity. Qed.
Example C94_failed_example : sabry no_number true [txt "one"; txt "n-bit"; txt "wallace"] =
  (join [newline] [txt "c Problem generated from wallace[n-bit] multiplication circuit"; txt "c by Paul Purdom and Amr Sabry"; txt "c"; txt "c Circuit for product = "], false).
Proof. vm_compute. reflexivity. Qed.
