(* Properties13.v -- generated by tools/genprops.py from PP13.v: property theorems, their
   assumptions, and examples showing that the hypotheses are met.  Proofs are in PP13.v. *)
From Coq Require Import String Ascii ZArith List Bool Lia Permutation Sorted.
From Verif Require Import Spec PyBase MSet MText MQueue MDb MSolver MMain MStack SpecInput SpecRun SpecStack PLib PSolver PNorm PText PStats PSolve PMain PP2 PP5 PStack PUnits PProg.
Import ListNotations.
From Verif Require Import PP13.
Open Scope Z_scope.

(* C57: the statistics are computed by recursion, for which Python grants a limited number of nested calls.
   One call per variable of the input is enough: with a limit not smaller than the number of variables the
   program ends exactly as it would without a limit (no two formulas met having the same hash) *)
Theorem C57_stack_suffices : forall limit hash insert_fails o root db out vars,
  root_ok root -> fresh_db o insert_fails db -> collision_free hash o root ->
  (forall v, In v (fvars (raws root)) -> In v vars) -> (List.length vars <= limit)%nat ->
  ends_with hash insert_fails o root db out ->
  exists N, forall fuel lf, (N <= fuel)%nat -> (N <= lf)%nat ->
    solve_set_limited limit hash insert_fails fuel lf o root db = Ok out.
Proof. exact p_C57_stack_suffices. Qed.
Print Assumptions C57_stack_suffices.

(* C57: a limit changes nothing but whether the program ends: whatever the input, the hash function and the content of the
   database, and however small the limit, an outcome reached with it is the outcome without it *)
Theorem C57_limit_changes_no_outcome : forall limit hash insert_fails fuel lf o root db out,
  solve_set_limited limit hash insert_fails fuel lf o root db = Ok out -> ends_with hash insert_fails o root db out.
Proof. exact p_C57_limit_changes_no_outcome. Qed.
Print Assumptions C57_limit_changes_no_outcome.

(* C57, limit too small: on the formula x1 & ... & xn with n greater than the limit the search itself
   ends and finds the satisfying assignment, but unless the statistics are switched off (-ns) the solver
   then fails; the program prints an error instead of the verdict and writes no solution *)
Theorem C57_deep_chain_refuted : forall limit n hash insert_fails o a i db,
  (limit < n)%nat -> represents i (unit_clauses n) -> fresh_db o insert_fails db ->
  a_factorize a = false -> a_multiply a = None ->
  exists root out, get_cnf_set i = Ok root /\ ends_with hash insert_fails o root db out /\
    (collision_free hash o root ->
       out_sat out = true /\
       exists N, forall fuel lf, (N <= fuel)%nat -> (N <= lf)%nat ->
         solve_set_limited limit hash insert_fails fuel lf o root db =
           (if o_no_stats o then Ok out else Err RecursionError) /\
         (o_no_stats o = false ->
          main_with hash (solve_set_limited limit hash insert_fails fuel lf o) a i db = Ok (Failed RecursionError))).
Proof. exact p_C57_deep_chain_refuted. Qed.
Print Assumptions C57_deep_chain_refuted.

Example C57_example : let i := InSLF (txt "1&2&3" ++ []) in
  represents i (unit_clauses 3) /\ fresh_db default_opts no_fail [] /\
  (exists root out, get_cnf_set i = Ok root /\ collision_free (fun t => t) default_opts root /\
     root_ok root /\ (forall v, In v (fvars (raws root)) -> In v [1; 2; 3]) /\
     ends_with (fun t => t) no_fail default_opts root [] out /\ out_uniques out = 3 /\
     solve_set_limited 3 (fun t => t) no_fail 40 40 default_opts root [] = Ok out /\
     solve_set_limited 2 (fun t => t) no_fail 40 40 default_opts root [] = Err RecursionError).
Proof.
  cbn zeta. assert (L : forall z n, numeral z n -> literal_written z n).
  { intros z n H. exists [], n, []. rewrite app_nil_r. repeat split; auto. }
  assert (R : represents (InSLF (txt "1&2&3" ++ [])) (unit_clauses 3)).
  { apply rep_line; [|repeat constructor|auto]. split; [discriminate|]. exists [txt "1"; txt "2"; txt "3"].
    split; [|reflexivity]. apply Forall2_cons; [|apply Forall2_cons; [|apply Forall2_cons; [|apply Forall2_nil]]];
    (split; [discriminate|]).
    - exists [txt "1"]. split; [|reflexivity]. repeat constructor; apply L. apply (num_plain [1]%nat); try discriminate; repeat constructor.
    - exists [txt "2"]. split; [|reflexivity]. repeat constructor; apply L. apply (num_plain [2]%nat); try discriminate; repeat constructor.
    - exists [txt "3"]. split; [|reflexivity]. repeat constructor; apply L. apply (num_plain [3]%nat); try discriminate; repeat constructor. }
  split; [exact R|]. split; [split; discriminate|].
  destruct (represents_read _ _ R) as (s & A & B & C & D & E & _ & G & I & J).
  assert (HT : exists c, In c (unit_clauses 3) /\ ~ complementary c).
  { exists [1]. split; [left; auto|]. intros (x & X0 & [<-|[]] & [Hx|[]]). discriminate. }
  assert (HF : unit_clauses 3 <> []) by discriminate.
  assert (RO : root_ok s) by (eapply read_root_ok; eauto).
  vm_compute in A. injection A as <-. eexists. eexists. split; [vm_compute; reflexivity|].
  split; [apply injective_collision_free; auto|]. split; [exact RO|]. split; [|split].
  - intros v Hv. vm_compute in Hv. simpl. tauto.
  - exists 40%nat. intros fuel lf H1 H2. apply (solve_set_mono _ _ _ _ _ 40 fuel 40 lf H1 H2). vm_compute. reflexivity.
  - repeat split; vm_compute; reflexivity.
Qed.
