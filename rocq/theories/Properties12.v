(* Properties12.v -- generated by tools/genprops.py from PP12.v: property theorems, their
   assumptions, and examples showing that the hypotheses are met.  Proofs are in PP12.v. *)
From Coq Require Import String Ascii ZArith List Bool Lia Permutation Sorted.
From Verif Require Import Spec PyBase MSet MText MQueue MDb MSolver MMain SpecInput SpecRun MGen SpecGen PGen5
  PGen6 PGen9 PGen10 PGen11 PGen12 PGen13 PP5 PP6.
Import ListNotations.
From Verif Require Import PP12.
Open Scope Z_scope.

(* C52: for every number n >= 4 and every choice of adder and multiplier the generator ends with a formula F
   whose models encode exactly the factorisations of n: clauses of one or three literals over the variables
   1..g_last, the two factors in the variables announced (bit_length n - 1 and half of bit_length n, rounded
   up); every model gives two numbers greater than 1 with product n; every two numbers of these sizes with
   product n are given by a model, and by only one; so F is satisfiable exactly when n is not prime *)
Theorem C52_factoring_formula : forall a m n, 4 <= n ->
  let f1 := first_bits n in let f2 := second_bits n in
  exists g F, generate a m n = Some g /\ g_cnf g = map (map literal) F /\
    g_first g = map BitVar (next_vars 0 f1) /\ g_second g = map BitVar (next_vars f1 f2) /\
    (forall c, In c F -> List.length c = 1%nat \/ List.length c = 3%nat) /\
    (forall c l, In c F -> In l c -> 1 <= Z.abs l <= g_last g) /\
    (forall asg, cnf_true asg F ->
       let p := value_of asg (next_vars 0 f1) in let q := value_of asg (next_vars f1 f2) in
       1 < p /\ 1 < q /\ p * q = n) /\
    (forall p q, 0 <= p < 2 ^ f1 -> 0 <= q < 2 ^ f2 -> p * q = n ->
       exists asg, cnf_true asg F /\ value_of asg (next_vars 0 f1) = p /\ value_of asg (next_vars f1 f2) = q) /\
    (forall asg asg', cnf_true asg F -> cnf_true asg' F ->
       value_of asg (next_vars 0 f1) = value_of asg' (next_vars 0 f1) ->
       value_of asg (next_vars f1 f2) = value_of asg' (next_vars f1 f2) ->
       forall v, 1 <= v <= g_last g -> asg v = asg' v) /\
    (satisfiable F <-> composite n) /\ (satisfiable F <-> ~ Znumtheory.prime n).
Proof. exact p_C52_factoring_formula. Qed.
Print Assumptions C52_factoring_formula.

(* C52 does not extend to n = 2 and n = 3: the formula is satisfiable although the number is prime *)
Theorem C52_two_and_three : forall a m n, n = 2 \/ n = 3 -> exists g F,
  generate a m n = Some g /\ g_cnf g = map (map literal) F /\ satisfiable F /\ Znumtheory.prime n.
Proof. exact p_C52_two_and_three. Qed.
Print Assumptions C52_two_and_three.

(* C53: what the generator prints is a DIMACS file for that formula: comment lines, one problem line with the
   numbers of variables and clauses, one line per clause, closed by 0; the solver's reader takes it as the
   formula; numbers below 2 are refused *)
Theorem C53_generated_file : forall a m n,
  (n <= 1 <-> gen_main a m n = None) /\
  (4 <= n -> exists g F t header body,
     generate a m n = Some g /\ g_cnf g = map (map literal) F /\ gen_main a m n = Some t /\
     t = file_of (header ++ [txt "p cnf " ++ str_Z (g_last g) ++ txt " " ++ str_Z (Z.of_nat (List.length F))] ++
                  body ++ [[]]) /\
     Forall comment_line header /\ Forall2 (fun c line => spaced (c ++ [0]) line) F body /\
     Forall one_line (header ++ body) /\ represents (InDimacs t) F).
Proof. exact p_C53_generated_file. Qed.
Print Assumptions C53_generated_file.

(* C53: the comments at the head of the file say what its variables mean: the number with its binary digits,
   the literals of the output (in every model they spell the number), the variables of the first and of the
   second factor, all with the most significant bit first *)
Theorem C53_header : forall a m n t, 4 <= n -> gen_main a m n = Some t ->
  exists F outputs digits rest, represents (InDimacs t) F /\
    t = file_of ([txt "c Problem generated from " ++ circuit_name a m ++ txt " multiplication circuit";
                  txt "c by Paul Purdom and Amr Sabry"; txt "c";
                  txt "c Circuit for product = " ++ str_Z n ++ txt " " ++ listed (map truth (rev digits));
                  txt "c Variables for output [msb,...,lsb]: " ++ listed (map str_Z (rev outputs));
                  txt "c Variables for first input [msb,...,lsb]: " ++
                    listed (map str_Z (rev (next_vars 0 (first_bits n))));
                  txt "c Variables for second input [msb,...,lsb]: " ++
                    listed (map str_Z (rev (next_vars (first_bits n) (second_bits n))));
                  txt "c"; txt "c"] ++ rest) /\
    bits_value digits = n /\ Z.of_nat (List.length digits) = bit_length n /\
    (forall asg, cnf_true asg F -> bits_value (map (lit_true asg) outputs) = n).
Proof. exact p_C53_header. Qed.
Print Assumptions C53_header.

(* C53: the solver run on a generated file answers whether n is composite *)
Theorem C53_verdict : forall am mm n t hash insert_fails o a db,
  4 <= n -> gen_main am mm n = Some t ->
  fresh_db o insert_fails db -> a_factorize a = false -> a_multiply a = None ->
  exists root out file ver,
    get_cnf_set (InDimacs t) = Ok root /\
    program_answers hash insert_fails o a (InDimacs t) db (Report out [] file ver) /\
    (out_sat out = true -> composite n /\ exists sol, out_solution out = Some sol /\
       NoDup (dkeys sol) /\ forall asg, extends asg sol ->
         let p := value_of asg (next_vars 0 (first_bits n)) in
         let q := value_of asg (next_vars (first_bits n) (second_bits n)) in
         1 < p /\ 1 < q /\ n = p * q) /\
    (collision_free hash o root -> (out_sat out = true <-> composite n)).
Proof. exact p_C53_verdict. Qed.
Print Assumptions C53_verdict.

(* C54: with -fact, the solver run on a generated file prints two proper factors of n, or 'n is prime'; the
   answer is exact unless two formulas met in the search have the same hash.  The circuit has to be an
   array: any number with the carry-save and the Wallace multiplier; with the recursive multiplier numbers of
   at most 21 binary digits, or of an even number of digits up to 40 *)
Theorem C54_factoring : forall am mm n t hash insert_fails o a db,
  4 <= n -> array_sized mm n -> gen_main am mm n = Some t ->
  fresh_db o insert_fails db -> a_factorize a = true -> a_multiply a = None ->
  exists root info s' out lines file ver,
    get_cnf_set (InDimacs t) = Ok root /\ factorize root = Some (info, s') /\
    program_answers hash insert_fails o a (InDimacs t) db (Report out lines file ver) /\
    (out_sat out = true -> exists p q, lines = [LFactors n p q] /\ 1 < p /\ 1 < q /\ n = p * q) /\
    (out_sat out = false -> lines = [LPrime n]) /\
    (collision_free hash o s' -> (out_sat out = true <-> ~ Znumtheory.prime n)).
Proof. exact p_C54_factoring. Qed.
Print Assumptions C54_factoring.

(* C54 does not extend to the recursive multiplier on other numbers: for 4194309 = 3 * 1398103 (23 binary
   digits) -fact takes the clauses asserting the carries of the subtractions for digits of the number, and
   reads 16777239: whatever the program reports is not about the number of the file *)
Theorem C54_large_recursive_refuted : exists n t root info s',
  composite n /\ bit_length n = 23 /\ gen_main NBit Recursive n = Some t /\
  get_cnf_set (InDimacs t) = Ok root /\ factorize root = Some (info, s') /\ f_number info = 4 * n + 3 /\
  forall hash insert_fails fuel lf o a db out lines file ver,
    a_factorize a = true -> a_multiply a = None ->
    main_run hash insert_fails fuel lf o a (InDimacs t) db = Ok (Report out lines file ver) ->
    (forall p q, ~ In (LFactors n p q) lines) /\ ~ In (LPrime n) lines.
Proof. exact p_C54_large_recursive_refuted. Qed.
Print Assumptions C54_large_recursive_refuted.

(* C55: with -mult p q, the solver run on a generated file (whatever the number it was generated for) prints
   the product of p and q when they fit into the variables of the file (the larger the first, the smaller
   the second group), and refuses them otherwise; it never prints a wrong product, and says that they cannot
   be multiplied only when two formulas met in the search have the same hash *)
Theorem C55_multiplication : forall am mm n t hash insert_fails o a db p q,
  4 <= n -> array_sized mm n -> gen_main am mm n = Some t ->
  fresh_db o insert_fails db -> a_factorize a = false -> a_multiply a = Some (p, q) -> 1 < p -> 1 < q ->
  (Z.max p q < 2 ^ first_bits n /\ Z.min p q < 2 ^ second_bits n ->
   exists root rb l1 l2 s' out lines file ver,
     get_cnf_set (InDimacs t) = Ok root /\ multiply root p q = Some (rb, l1, l2, s') /\
     program_answers hash insert_fails o a (InDimacs t) db (Report out lines file ver) /\
     (out_sat out = true -> lines = [LProduct p q (p * q)]) /\
     (out_sat out = false -> lines = [LNoProduct p q]) /\
     (collision_free hash o s' -> out_sat out = true)) /\
  (~ (Z.max p q < 2 ^ first_bits n /\ Z.min p q < 2 ^ second_bits n) ->
   forall fuel lf, main_run hash insert_fails fuel lf o a (InDimacs t) db = Ok Refused).
Proof. exact p_C55_multiplication. Qed.
Print Assumptions C55_multiplication.

(* C56: the generator's circuits, simulated on numbers (its own test functions): adders add, the Wallace-tree
   adder adds any list of numbers, the subtracter subtracts and fails on a negative result, every
   combination of adder and multiplier multiplies positive numbers of any size *)
Theorem C56_simulation :
  (forall a x y, 0 <= x -> 0 <= y -> 0 < x + y -> test_adder a x y = Some (x + y)) /\
  (forall xs, (forall x, In x xs -> 0 <= x) -> test_w_adder xs = Some (fold_right Z.add 0 xs)) /\
  (forall x y, 0 <= y <= x -> test_sub x y = Some (x - y)) /\
  (forall x y, 0 <= x < y -> test_sub x y = None) /\
  (forall a m x y, 0 < x -> 0 < y -> test_multiplier a m x y = Some (x * y)).
Proof. exact p_C56_simulation. Qed.
Print Assumptions C56_simulation.

(* C56, limits: 0 + 0 has no value with the fast adder (it has with the n-bit adder), nor has a product with a
   factor 0 with the carry-save multiplier *)
Theorem C56_zero_fails : test_adder Fast 0 0 = None /\ test_adder NBit 0 0 = Some 0 /\
  forall a x y, x = 0 \/ y = 0 -> test_multiplier a CarrySave x y = None.
Proof. exact p_C56_zero_fails. Qed.
Print Assumptions C56_zero_fails.

(* the formula for 4, and the file that comes with the project for 5 (inputs/test_cases/Factoring5.txt, up to
   the final newline) *)
Example C52_four : option_map g_cnf (generate NBit Wallace 4) <> None /\ first_bits 4 = 2 /\ second_bits 4 = 2 /\
  composite 4 /\ first_bits 35 = 5 /\ second_bits 35 = 3 /\ composite 35.
Proof.
  split; [vm_compute; discriminate|]. split; [reflexivity|]. split; [reflexivity|]. split; [exists 2, 2; repeat split; lia|].
  split; [reflexivity|]. split; [reflexivity|]. exists 5, 7. repeat split; lia.
Qed.
Definition text_of (n : Z) : text := match gen_main NBit CarrySave n with Some t => t | None => [] end.
Example C53_example : gen_main NBit CarrySave 6 = Some (text_of 6) /\ 4 <= 6 /\ fresh_db default_opts no_fail [] /\
  exists out, program_answers (fun t => t) no_fail default_opts (mkMain false None false true) (InDimacs (text_of 6)) []
    (Report out [] None (Some true)) /\ out_sat out = true.
Proof.
  split; [vm_compute; reflexivity|]. split; [lia|]. split; [split; discriminate|].
  eexists. split.
  - exists 400%nat. intros fuel lf H1 H2. apply (PMain.main_report_mono _ _ _ _ _ _ 400 fuel 400 lf); [vm_compute; reflexivity|auto|auto].
  - reflexivity.
Qed.
Example C54_example : array_sized CarrySave 6 /\ array_sized Recursive 15 /\ array_sized Recursive 3000000 /\
  (exists out, program_answers (fun t => t) no_fail default_opts (mkMain true None false false) (InDimacs (text_of 6)) []
    (Report out [LFactors 6 3 2] None None)) /\
  (exists out, program_answers (fun t => t) no_fail default_opts (mkMain true None false false) (InDimacs (text_of 7)) []
    (Report out [LPrime 7] None None)).
Proof.
  split; [discriminate|]. split; [intros _; left; vm_compute; discriminate|]. split; [intros _; right; vm_compute; split; [reflexivity|discriminate]|]. split.
  - eexists. exists 400%nat. intros fuel lf H1 H2. apply (PMain.main_report_mono _ _ _ _ _ _ 400 fuel 400 lf); [vm_compute; reflexivity|auto|auto].
  - eexists. exists 400%nat. intros fuel lf H1 H2. apply (PMain.main_report_mono _ _ _ _ _ _ 400 fuel 400 lf); [vm_compute; reflexivity|auto|auto].
Qed.
Example C55_example : exists out, program_answers (fun t => t) no_fail default_opts (mkMain false (Some (2, 3)) false false)
  (InDimacs (text_of 6)) [] (Report out [LProduct 2 3 6] None None) /\
  Z.max 2 3 < 2 ^ first_bits 6 /\ Z.min 2 3 < 2 ^ second_bits 6 /\ ~ Z.max 5 2 < 2 ^ first_bits 6.
Proof.
  eexists. split; [|split; [reflexivity|split; [reflexivity|vm_compute; discriminate]]].
  exists 400%nat. intros fuel lf H1 H2. apply (PMain.main_report_mono _ _ _ _ _ _ 400 fuel 400 lf); [vm_compute; reflexivity|auto|auto].
Qed.
