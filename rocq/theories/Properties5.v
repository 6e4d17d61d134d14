(* Properties5.v -- generated by tools/genprops.py from PP5.v: property theorems, their
   assumptions, and examples showing that the hypotheses are met.  Proofs are in PP5.v. *)
From Coq Require Import String Ascii ZArith List Bool Lia Permutation Sorted.
From Verif Require Import Spec PyBase MSet MText MQueue MDb MSolver MMain SpecInput SpecRun PLib PClause
  PRename PLo PNorm PEval PText PQueue PNode PStep PRun PStats PSolver PSolve PSearch PGraph PReader PMain
  PP1 PP2 PP4.
Import ListNotations.
From Verif Require Import PP5.
Open Scope Z_scope.

(* C47: the whole program on a file holding a formula (either format, at least one clause that is not a
   tautology, no preprocessing): it ends with a report; 'SATISFIABLE' is always right and comes with a
   correct solution, the file written and the verifier's answer are about that solution; the verdict is
   exact unless two formulas met in the search have the same hash *)
Theorem C47_program_verdict : forall hash insert_fails o a i db F,
  represents i F -> (exists c, In c F /\ ~ complementary c) ->
  fresh_db o insert_fails db -> a_factorize a = false -> a_multiply a = None ->
  exists root out file ver,
    get_cnf_set i = Ok root /\
    program_answers hash insert_fails o a i db (Report out [] file ver) /\
    (out_sat out = true -> satisfiable F /\
       exists sol, out_solution out = Some sol /\ NoDup (dkeys sol) /\
         (forall asg, extends asg sol -> cnf_true asg F) /\
         (forall v, In v (dkeys sol) -> In v (fvars F)) /\
         file = (if a_solution_file a then Some (format_solution sol) else None) /\
         exists b, ver = (if a_verify a then Some b else None) /\ (~ In 0 (fvars F) -> b = true)) /\
    (out_sat out = false -> out_solution out = None /\ file = None /\ ver = None) /\
    (collision_free hash o root -> (out_sat out = true <-> satisfiable F)).
Proof. exact p_C47_program_verdict. Qed.
Print Assumptions C47_program_verdict.

(* C47, exception: a formula all of whose clauses are tautologies makes the program fail *)
Theorem C47_tautologies_fail : forall hash insert_fails fuel lf o a i db F,
  represents i F -> F <> [] -> (forall c, In c F -> complementary c) -> a_multiply a = None ->
  main_run hash insert_fails fuel lf o a i db = Ok (Failed ValueError).
Proof. exact p_C47_tautologies_fail. Qed.
Print Assumptions C47_tautologies_fail.

(* C47, exception: a file without any clause gets no verdict *)
Theorem C47_no_clauses_no_verdict : forall hash insert_fails fuel lf o a i db,
  represents i [] -> a_multiply a = None ->
  main_run hash insert_fails fuel lf o a i db = Ok NoAnswer.
Proof. exact p_C47_no_clauses_no_verdict. Qed.
Print Assumptions C47_no_clauses_no_verdict.

Example C47_example : represents (InSLF (txt "1|2&-1" ++ [])) [[1; 2]; [-1]] /\
  (exists c, In c [[1; 2]; [-1]] /\ ~ complementary c) /\ fresh_db default_opts no_fail [] /\
  represents (InSLF (txt "1|-1" ++ [])) [[1; -1]] /\ complementary [1; -1] /\
  represents (InDimacs (file_of [chars "p cnf 0 0"; []])) [].
Proof.
  assert (L : forall z n, numeral z n -> literal_written z n).
  { intros z n H. exists [], n, []. rewrite app_nil_r. repeat split; auto. }
  split; [|split; [|split; [|split; [|split]]]].
  - apply rep_line; [|repeat constructor|auto]. split; [discriminate|]. exists [txt "1|2"; txt "-1"]. split; [|reflexivity].
    repeat constructor; try discriminate.
    + exists [txt "1"; txt "2"]. split; [|reflexivity]. repeat constructor; apply L;
      [apply (num_plain [1]%nat)|apply (num_plain [2]%nat)]; try discriminate; repeat constructor.
    + exists [txt "-1"]. split; [|reflexivity]. repeat constructor; apply L.
      apply (num_minus [1]%nat); try discriminate; repeat constructor.
  - exists [-1]. split; [right; left; auto|]. intros (v & H & [H1|[]] & [H2|[]]). lia.
  - split; discriminate.
  - apply rep_line; [|repeat constructor|auto]. split; [discriminate|]. exists [txt "1|-1"]. split; [|reflexivity].
    repeat constructor; try discriminate. exists [txt "1"; txt "-1"]. split; [|reflexivity]. repeat constructor; apply L;
      [apply (num_plain [1]%nat)|apply (num_minus [1]%nat)]; try discriminate; repeat constructor.
  - exists 1. simpl. repeat split; auto. lia.
  - apply (rep_dimacs (chars "p cnf 0 0") [] [[]] [] []).
    + repeat constructor; vm_compute; intuition discriminate.
    + right. exists [], []. split; [reflexivity|constructor].
    + intros c [].
    + intros [].
    + left. simpl. lia.
    + constructor.
Qed.
