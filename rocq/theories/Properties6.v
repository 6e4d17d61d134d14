(* Properties6.v -- generated by tools/genprops.py from PP6.v: property theorems, their
   assumptions, and examples showing that the hypotheses are met.  Proofs are in PP6.v. *)
From Coq Require Import String Ascii ZArith List Bool Lia Permutation Sorted.
From Verif Require Import Spec PyBase MSet MText MQueue MDb MSolver MMain SpecInput SpecRun PLib PClause
  PRename PLo PNorm PEval PText PQueue PNode PStep PRun PStats PSolver PSolve PSearch PGraph PReader PMain
  PArith PP1 PP2 PP4 PP5.
Import ListNotations.
From Verif Require Import PP6.
Open Scope Z_scope.

(* C41: on a set whose first clause has three literals [x; y; z] the factoring preprocessor reads off the
   number (signs of the unit clauses, least significant first), the variables of the unit clauses and the
   lengths of the two factors; the set it leaves is the restriction of the input by the values it fixes:
   those of the unit clauses and, for an odd number, true for variables 1 and y; exactly the models of
   input and forced values are kept *)
Theorem C41_factorizer : forall s x y z rest,
  raws s = [x; y; z] :: rest -> 0 < y -> (forall c l, In c (raws s) -> In l c -> l <> 0) ->
  let units := unit_literals (raws s) in
  let number := bits_value (map (Z.ltb 0) units) in
  let forced := if Z.odd number then [[1]; [y]] else [] in
  exists info s', factorize s = Some (info, s') /\
    f_number info = number /\ f_num_bits info = first_occurrences (map Z.abs units) /\
    f1_len info = y - 1 /\ f2_len info = Z.abs z - y /\
    let d := evaluated_vars s' in
    NoDup (dkeys d) /\ (forall v, In v (dkeys d) <-> In v (map Z.abs (units ++ concat forced))) /\
    raws s' = restrict_all d (raws s) /\
    (forall asg, extends asg d -> (cnf_true asg (raws s) <-> cnf_true asg (raws s'))) /\
    (forall asg, cnf_true asg (raws s ++ forced) -> extends asg d) /\
    (satisfiable (raws s') <-> satisfiable (raws s ++ forced)).
Proof. exact p_C41_factorizer. Qed.
Print Assumptions C41_factorizer.

(* C41: otherwise the set is left alone *)
Theorem C41_other_sets_skipped : forall s,
  (forall x y z rest, raws s <> [x; y; z] :: rest) <-> factorize s = None.
Proof. exact p_C41_other_sets_skipped. Qed.
Print Assumptions C41_other_sets_skipped.

(* C42: decoding is right for a solution (sorted by variable, all variables positive) that assigns all of
   1..f1+f2, with at least f1+f2 distinct unit-clause variables *)
Theorem C42_decoding : forall info sol asg,
  0 < f1_len info -> 0 < f2_len info ->
  f1_len info + f2_len info <= Z.of_nat (List.length (f_num_bits info)) ->
  StronglySorted Z.lt (dkeys sol) -> (forall v, In v (dkeys sol) -> 1 <= v) ->
  (forall v, 1 <= v <= f1_len info + f2_len info -> In v (dkeys sol)) -> extends asg sol ->
  decode_factors info sol =
    Ok (value_of asg (next_vars 0 (f1_len info)), value_of asg (next_vars (f1_len info) (f2_len info))).
Proof. exact p_C42_decoding. Qed.
Print Assumptions C42_decoding.

(* C42: with -fact, on a formula whose models all encode factors of the number read off the unit clauses,
   the program prints correct factors, encoded by every completion of the solution, or 'prime' (when it
   finds no solution); never the 'something is wrong' line and no exception, provided the preprocessing
   leaves at least one clause and empties none *)
Theorem C42_factoring_run : forall hash insert_fails o a i db root x y z rest info s',
  get_cnf_set i = Ok root -> root_ok root -> raws root = [x; y; z] :: rest ->
  (forall c l, In c (raws root) -> In l c -> l <> 0) ->
  fresh_db o insert_fails db -> a_factorize a = true -> a_multiply a = None ->
  let f1 := y - 1 in let f2 := Z.abs z - y in
  let units := unit_literals (raws root) in
  let number := bits_value (map (Z.ltb 0) units) in
  0 < f1 -> 0 < f2 -> 0 < number -> f1 + f2 <= Z.of_nat (List.length (first_occurrences (map Z.abs units))) ->
  (forall asg, cnf_true asg (raws root) ->
     value_of asg (next_vars 0 f1) * value_of asg (next_vars f1 f2) = number) ->
  factorize root = Some (info, s') -> raws s' <> [] -> ~ In [] (raws s') ->
  exists out lines file ver,
    program_answers hash insert_fails o a i db (Report out lines file ver) /\
    (out_sat out = true -> exists sol, out_solution out = Some sol /\ NoDup (dkeys sol) /\
       forall asg, extends asg sol -> cnf_true asg (raws root) /\
         exists p q, lines = [LFactors number p q] /\ number = p * q /\
           p = value_of asg (next_vars 0 f1) /\ q = value_of asg (next_vars f1 f2)) /\
    (out_sat out = false -> lines = [LPrime number]) /\
    (collision_free hash o s' -> (out_sat out = true <-> satisfiable (raws root))).
Proof. exact p_C42_factoring_run. Qed.
Print Assumptions C42_factoring_run.

(* C42: a factor that gets no bit -- its length is 0, or no more than the length of the first many variables have values, or
   there are no more unit clauses than that -- makes the program fail with ValueError after the search: no factors are printed *)
Theorem C42_no_bits : forall info sol, sol <> [] -> 0 <= f1_len info -> 0 <= f2_len info ->
  f1_len info = 0 \/ f2_len info = 0 \/ Z.of_nat (List.length sol) <= f1_len info \/ Z.of_nat (List.length (f_num_bits info)) <= f1_len info ->
  fact_lines (Some info) (Some sol) = Err ValueError.
Proof. exact p_C42_no_bits. Qed.
Print Assumptions C42_no_bits.

(* C42: whatever the formula, printed factors multiply to the number read, and 'prime' is only printed when
   no solution was found *)
Theorem C42_printed_factors_multiply : forall info sol lines,
  fact_lines (Some info) sol = Ok lines ->
  (forall n p q, In (LFactors n p q) lines -> n = f_number info /\ n = p * q) /\
  (forall n, In (LPrime n) lines -> n = f_number info /\ (sol = None \/ sol = Some [])).
Proof. exact p_C42_printed_factors_multiply. Qed.
Print Assumptions C42_printed_factors_multiply.

(* C43: the multiplication preprocessor, for factors greater than 1 (the command line rejects others): it
   refuses exactly when the larger factor does not fit f1 bits or the smaller f2 bits; otherwise it fixes
   variables 1..f1 to the larger and f1+1..f1+f2 to the smaller factor, removes exactly the unit clauses,
   remembers their variables, and restricts the other clauses *)
Theorem C43_multiplier : forall s x y z rest a b,
  raws s = [x; y; z] :: rest -> (forall c l, In c (raws s) -> In l c -> l <> 0) -> 1 < a -> 1 < b ->
  let f1 := y - 1 in let f2 := Z.abs z - y in
  (multiply s a b = None <-> ~ (Z.max a b < 2 ^ f1 /\ Z.min a b < 2 ^ f2)) /\
  (forall result_bits l1 l2 s', multiply s a b = Some (result_bits, l1, l2, s') ->
     result_bits = map Z.abs (unit_literals (raws s)) /\ l1 = f1 /\ l2 = f2 /\
     let d := evaluated_vars s' in
     dkeys d = next_vars 0 (f1 + f2) /\
     raws s' = restrict_all d (non_units (raws s)) /\
     (forall asg, extends asg d <->
        value_of asg (next_vars 0 f1) = Z.max a b /\ value_of asg (next_vars f1 f2) = Z.min a b) /\
     (forall asg, extends asg d -> (cnf_true asg (non_units (raws s)) <-> cnf_true asg (raws s')))).
Proof. exact p_C43_multiplier. Qed.
Print Assumptions C43_multiplier.

(* C43: with -mult, on a formula whose non-unit clauses compute the product of the numbers in variables
   1..f1 and f1+1..f1+f2 into the variables of the unit clauses, the program prints the right product, or
   'can't be multiplied' when it finds no solution; never a wrong product and no exception, provided the
   preprocessing leaves at least one clause and empties none *)
Theorem C43_multiplication_run : forall hash insert_fails o a i db root x y z rest p q rb l1 l2 s',
  get_cnf_set i = Ok root -> root_ok root -> raws root = [x; y; z] :: rest ->
  (forall c l, In c (raws root) -> In l c -> l <> 0) ->
  fresh_db o insert_fails db -> a_factorize a = false -> a_multiply a = Some (p, q) -> 1 < p -> 1 < q ->
  let f1 := y - 1 in let f2 := Z.abs z - y in
  (forall asg, cnf_true asg (non_units (raws root)) ->
     value_of asg (next_vars 0 f1) * value_of asg (next_vars f1 f2) =
     value_of asg (map Z.abs (unit_literals (raws root)))) ->
  multiply root p q = Some (rb, l1, l2, s') -> raws s' <> [] -> ~ In [] (raws s') ->
  exists out lines file ver,
    program_answers hash insert_fails o a i db (Report out lines file ver) /\
    (out_sat out = true -> lines = [LProduct p q (p * q)]) /\
    (out_sat out = false -> lines = [LNoProduct p q]) /\
    (collision_free hash o s' -> (out_sat out = true <->
       exists asg, cnf_true asg (non_units (raws root)) /\
         value_of asg (next_vars 0 f1) = Z.max p q /\ value_of asg (next_vars f1 f2) = Z.min p q)).
Proof. exact p_C43_multiplication_run. Qed.
Print Assumptions C43_multiplication_run.

(* C43: the other ways -mult can end: factors that do not fit are refused; if a clause is emptied the
   program says that the factors cannot be multiplied, rightly; if no clause is left it says nothing *)
Theorem C43_other_endings : forall hash insert_fails fuel lf o a i db root x y z rest p q,
  get_cnf_set i = Ok root -> root_ok root -> raws root = [x; y; z] :: rest ->
  (forall c l, In c (raws root) -> In l c -> l <> 0) ->
  a_factorize a = false -> a_multiply a = Some (p, q) -> 1 < p -> 1 < q ->
  let f1 := y - 1 in let f2 := Z.abs z - y in
  (~ (Z.max p q < 2 ^ f1 /\ Z.min p q < 2 ^ f2) ->
     main_run hash insert_fails fuel lf o a i db = Ok Refused) /\
  (forall rb l1 l2 s', multiply root p q = Some (rb, l1, l2, s') ->
     (In [] (raws s') -> main_run hash insert_fails fuel lf o a i db = Ok FactorsExcluded /\
        forall asg, cnf_true asg (non_units (raws root)) ->
          ~ (value_of asg (next_vars 0 f1) = Z.max p q /\ value_of asg (next_vars f1 f2) = Z.min p q)) /\
     (raws s' = [] -> main_run hash insert_fails fuel lf o a i db = Ok NoAnswer)).
Proof. exact p_C43_other_endings. Qed.
Print Assumptions C43_other_endings.

(* C42, the solution must assign all factor variables: here it leaves variable 1 open (any value is
   correct), the decoder reads the bits one position too low and reports a bug *)
Theorem C42_shifted_bits_refuted : exists i root s' info out sol,
  get_cnf_set i = Ok root /\ root_ok root /\ factorize root = Some (info, s') /\ root_ok s' /\
  program_answers (fun t => t) no_fail default_opts (mkMain true None false false) i []
    (Report out [LFactorsWrong 2 1 0] None None) /\
  out_solution out = Some sol /\ (forall asg, extends asg sol -> cnf_true asg (raws root)).
Proof. exact p_C42_shifted_bits_refuted. Qed.
Print Assumptions C42_shifted_bits_refuted.

(* C42, an emptied clause (here -1 | -4 by the forced lowest bit and the unit clause 4) makes the program
   fail instead of reporting that there is no factorisation *)
Theorem C42_emptied_clause_refuted : exists i root,
  get_cnf_set i = Ok root /\ root_ok root /\ ~ satisfiable (raws root ++ [[1]]) /\
  forall hash insert_fails fuel lf o db,
    main_run hash insert_fails fuel lf o (mkMain true None false false) i db = Ok (Failed ValueError).
Proof. exact p_C42_emptied_clause_refuted. Qed.
Print Assumptions C42_emptied_clause_refuted.

(* a two-bit multiplier: variables 1,2 and 3,4 are the factors, 5..8 the product, 9 and 10 auxiliary *)
Definition circuit : string := "1|3|-5&-5|1&-5|3&5|-1|-3&-8|5&-8|2&-8|4&8|-5|-2|-4&-7|2&-7|4&-7|-5&7|-2|-4|5&-9|2&-9|3&9|-2|-3&-10|1&-10|4&10|-1|-4&-6|9|10&-6|-9|-10&6|-9|10&6|9|-10".
(* the product is 6 *)
Definition six : input := InSLF (txt (circuit ++ "&-5&6&7&-8")).
Definition six_root : cset := Eval vm_compute in set_of_text (txt (circuit ++ "&-5&6&7&-8")).
Lemma circuit_computes asg : cnf_true asg (non_units (raws six_root)) ->
  value_of asg (next_vars 0 2) * value_of asg (next_vars 2 2) = value_of asg [5; 6; 7; 8].
Proof.
  intros H. apply cnf_true_b in H. vm_compute in H.
  change (value_of asg (next_vars 0 2)) with (bits_value [asg 1; asg 2]).
  change (value_of asg (next_vars 2 2)) with (bits_value [asg 3; asg 4]).
  change (value_of asg [5; 6; 7; 8]) with (bits_value [asg 5; asg 6; asg 7; asg 8]).
  destruct (asg 1), (asg 2), (asg 3), (asg 4), (asg 5), (asg 6), (asg 7), (asg 8), (asg 9), (asg 10);
    try discriminate; reflexivity.
Qed.
Example six_read : get_cnf_set six = Ok six_root /\ root_ok six_root /\
  raws six_root = [1; 3; -5] :: tl (raws six_root) /\ unit_literals (raws six_root) = [-5; 6; 7; -8] /\
  fresh_db default_opts no_fail [].
Proof.
  split; [vm_compute; reflexivity|]. split; [concrete_root_ok|]. split; [reflexivity|]. split; [reflexivity|].
  split; discriminate.
Qed.
Example six_nonzero : forall c l, In c (raws six_root) -> In l c -> l <> 0.
Proof.
  intros c l Hc Hl E. assert (K : forallb (fun c => forallb (fun l => negb (l =? 0)) c) (raws six_root) = true) by reflexivity.
  rewrite forallb_forall in K. specialize (K c Hc). rewrite forallb_forall in K. specialize (K l Hl). subst l. discriminate.
Qed.
Example six_product : forall asg, cnf_true asg (raws six_root) ->
  value_of asg (next_vars 0 2) * value_of asg (next_vars 2 2) = 6.
Proof.
  intros asg H. rewrite circuit_computes by (intros c Hc; apply H, non_units_in; exact Hc).
  assert (K : forall l, In l [-5; 6; 7; -8] -> asg (Z.abs l) = (0 <? l)).
  { intros l Hl. apply lit_true_sign; [simpl in Hl; lia|]. apply unit_true. apply H. apply unit_literals_in.
    destruct six_read as (_ & _ & _ & -> & _). exact Hl. }
  assert (H5 : asg 5 = false) by (apply (K (-5)); simpl; auto). assert (H6 : asg 6 = true) by (apply (K 6); simpl; auto).
  assert (H7 : asg 7 = true) by (apply (K 7); simpl; auto). assert (H8 : asg 8 = false) by (apply (K (-8)); simpl; auto).
  unfold value_of. cbn [map]. rewrite H5, H6, H7, H8. reflexivity.
Qed.
Example six_preprocessed : exists info s' rb l1 l2 s2,
  factorize six_root = Some (info, s') /\ raws s' <> [] /\ ~ In [] (raws s') /\
  multiply six_root 3 2 = Some (rb, l1, l2, s2) /\ raws s2 <> [] /\ ~ In [] (raws s2) /\
  multiply six_root 5 2 = None.
Proof.
  do 6 eexists. split; [vm_compute; reflexivity|]. split; [vm_compute; discriminate|]. split; [vm_compute; intuition discriminate|].
  split; [vm_compute; reflexivity|]. split; [vm_compute; discriminate|]. split; [vm_compute; intuition discriminate|].
  vm_compute. reflexivity.
Qed.
Example six_factored : exists out, program_answers (fun t => t) no_fail default_opts (mkMain true None false false) six []
  (Report out [LFactors 6 3 2] None None).
Proof.
  eexists. exists 60%nat. intros fuel lf H1 H2. apply (main_report_mono _ _ _ _ _ _ 60 fuel 60 lf); [vm_compute; reflexivity|auto|auto].
Qed.
Example six_multiplied : exists out,
  program_answers (fun t => t) no_fail default_opts (mkMain false (Some (3, 2)) false true) six []
     (Report out [LProduct 3 2 6] None (Some true)).
Proof.
  eexists. exists 60%nat. intros fuel lf H1 H2. apply (main_report_mono _ _ _ _ _ _ 60 fuel 60 lf); [vm_compute; reflexivity|auto|auto].
Qed.
(* the second factor gets no bit: only the first variable has a value, or its length is 0 *)
Example C42_no_bits_applies : fact_lines (Some (mkFact 6 [1; 2; 3] 1 2)) (Some [(1, true)]) = Err ValueError /\
  fact_lines (Some (mkFact 6 [1; 2; 3] 2 0)) (Some [(1, true); (2, false); (3, true)]) = Err ValueError /\
  fact_lines (Some (mkFact 6 [1; 2; 3; 4] 2 2)) (Some [(1, false); (2, true); (3, true); (4, true)]) = Ok [LFactors 6 2 3].
Proof. repeat split; vm_compute; reflexivity. Qed.
