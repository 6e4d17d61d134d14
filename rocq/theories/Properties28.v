(* Properties28.v -- generated by tools/genprops.py from PP28.v: property theorems, their
   assumptions, and examples showing that the hypotheses are met.  Proofs are in PP28.v. *)
From Coq Require Import String Ascii ZArith List Bool Lia.
From Verif Require Import Spec SpecInput SpecFile SpecTool PyBase MSet MText MCnf MFile MGraph MSat SpecCnf SpecSat PText PReader PLib PCnf1 PCnf2 PCnf3 PFam1 PFam4 PFile1 PFile2 PFile6 PFile7 PSat1.
Import ListNotations.
From Verif Require Import PP28.
Open Scope Z_scope.

(* C89: with a correct solver that has the interface of minisat, is_satisfiable answers True exactly for the satisfiable
   formulas, and the witness then satisfies every clause; the witness is None for unsatisfiable formulas, and for
   formulas without clauses of which the solver assigns no variable *)
Theorem C89_right : forall m header c cmd w ws sameas, made c -> called m cmd w ws sameas minisat_style -> right_minisat (mc_file m (w :: ws)) ->
  exists b wit, is_satisfiable m header c (Some cmd) sameas = Ok (b, wit) /\ (b = true <-> has_model (cnf_clauses c)) /\
    match wit with
    | Some d => b = true /\ d <> [] /\ good_witness c d
    | None => b = false \/ cnf_clauses c = []
    end.
Proof. exact p_C89_right. Qed.
Print Assumptions C89_right.

(* C89: the result file decides, the solver is not checked: UNSAT gives False, other words than SAT and UNSAT and an empty
   file RuntimeError, after SAT a word that is no number ValueError and a number out of range IndexError; when the
   command cannot be run UnboundLocalError *)
Theorem C89_result_file : forall m header c cmd w ws sameas, called m cmd w ws sameas minisat_style ->
  let run := mc_file m (w :: ws) (dimacs true header None c) in
  (forall content, run = Some content -> first_word (chars "UNSAT") content -> is_satisfiable m header c (Some cmd) sameas = Ok (false, None)) /\
  (forall content v, run = Some content -> first_word v content -> v <> chars "SAT" -> v <> chars "UNSAT" ->
     is_satisfiable m header c (Some cmd) sameas = Err RuntimeError) /\
  (forall content, run = Some content -> Forall white content -> is_satisfiable m header c (Some cmd) sameas = Err RuntimeError) /\
  (forall vs line f, run = Some (chars "SAT" ++ [nl] ++ line) -> several_words vs line -> In f vs -> malformed f ->
     is_satisfiable m header c (Some cmd) sameas = Err ValueError) /\
  (forall lits, run = Some (sat_file lits) -> (forall l, In l lits -> l <> 0) -> (exists l, In l lits /\ Z.of_nat (List.length (cnf_variables c)) < Z.abs l) ->
     is_satisfiable m header c (Some cmd) sameas = Err IndexError) /\
  (run = None -> is_satisfiable m header c (Some cmd) sameas = Err UnboundLocalError).
Proof. exact p_C89_result_file. Qed.
Print Assumptions C89_result_file.

(* C89: every solver called with the DIMACS conventions ends in RuntimeError, whatever it answers (under Python 3 its output
   is bytes, compared with text); so does a command that does not start *)
Theorem C89_dimacs_style : forall m header c cmd w ws sameas,
  (called m cmd w ws sameas dimacs_style -> is_satisfiable m header c (Some cmd) sameas = Err RuntimeError) /\
  (several_words (w :: ws) cmd -> mc_starts m w = false -> (forall s, sameas = Some s -> In s solvers_in_order) ->
     is_satisfiable m header c (Some cmd) sameas = Err RuntimeError).
Proof. exact p_C89_dimacs_style. Qed.
Print Assumptions C89_dimacs_style.

(* C89: without a command, or with one that has no words, the known solvers are tried in their order and the first that
   starts is used, whether or not it works; RuntimeError when none starts *)
Theorem C89_default : forall m header c cmd sameas, (cmd = None \/ exists t, cmd = Some t /\ Forall white t) -> (forall s, sameas = Some s -> In s solvers_in_order) ->
  ((forall s, In s solvers_in_order -> mc_starts m s = false) -> is_satisfiable m header c cmd sameas = Err RuntimeError) /\
  (forall before s after, solvers_in_order = before ++ s :: after -> (forall x, In x before -> mc_starts m x = false) -> mc_starts m s = true ->
     is_satisfiable m header c cmd sameas = is_satisfiable m header c (Some s) None /\
     (s <> chars "minisat" -> is_satisfiable m header c cmd sameas = Err RuntimeError)).
Proof. exact p_C89_default. Qed.
Print Assumptions C89_default.

(* C89: a name for sameas that is not supported is a ValueError, a command that is not supported without sameas RuntimeError;
   have_satsolver tells whether one of the listed solvers starts *)
Theorem C89_refused :
  (forall m header c cmd s, ~ In s solvers_in_order -> is_satisfiable m header c cmd (Some s) = Err ValueError) /\
  (forall m header c cmd w ws, several_words (w :: ws) cmd -> ~ In w solvers_in_order -> is_satisfiable m header c (Some cmd) None = Err RuntimeError) /\
  (forall m l, have_satsolver m (Some l) = true <-> exists s, In s l /\ mc_starts m s = true) /\
  (forall m, have_satsolver m None = have_satsolver m (Some solvers_in_order)) /\
  supported_satsolvers = solvers_in_order.
Proof. exact p_C89_refused. Qed.
Print Assumptions C89_refused.

(* a machine on which only minisat is installed, and works *)
Definition box : machine := mkMachine (text_eqb (txt "minisat")) (fun _ => exhaustive) (fun _ _ => None) (fun _ _ => None).
Definition not_both : cnf := mkCnf [txt "x"; txt "y"] [[1; 2]; [-1; -2]; [-1]].
Lemma not_both_made : made not_both.
Proof.
  assert (E : cnf_of [[(true, txt "x"); (true, txt "y")]; [(false, txt "x"); (false, txt "y")]; [(false, txt "x")]] = Ok not_both) by (vm_compute; reflexivity).
  cbn [cnf_of] in E. unfold cnf_of in E. cbn [add_all] in E. apply bind_ok in E as (c1 & E1 & E). apply bind_ok in E as (c2 & E2 & E). apply bind_ok in E as (c3 & E3 & E). injection E as <-.
  apply (made_clause c2 false false true false [(false, txt "x")]); auto. apply (made_clause c1 false false true false [(false, txt "x"); (false, txt "y")]); auto.
  apply (made_clause empty_cnf false false true false [(true, txt "x"); (true, txt "y")]); auto. constructor.
Qed.
Example C89_called : called box (txt "minisat -no-pre") (txt "minisat") [txt "-no-pre"] None minisat_style.
Proof.
  split; [|split; [reflexivity|left; split; [reflexivity|left; reflexivity]]]. apply (words_cons [] (txt "minisat") [txt "-no-pre"] " "%char (txt "-no-pre")); [constructor| |left; reflexivity|].
  - split; [discriminate|]. intros c H. cbn in H. repeat (destruct H as [<-|H]; [vm_compute; lia|]). destruct H.
  - apply (words_last [] (txt "-no-pre")); [constructor|]. split; [discriminate|]. intros c H. cbn in H. repeat (destruct H as [<-|H]; [vm_compute; lia|]). destruct H.
Qed.
Example C89_solver : right_minisat (mc_file box [txt "minisat"; txt "-no-pre"]).
Proof. exact exhaustive_right. Qed.
Example C89_answer : is_satisfiable box (txt "A header" ++ [nl]) not_both (Some (txt "minisat -no-pre")) None =
  Ok (true, Some [(Some (txt "x"), false); (Some (txt "y"), true)]).
Proof. vm_compute. reflexivity. Qed.
(* the same machine with lingeling also installed: its correct answer is not understood, and hides minisat *)
Definition bigger_box : machine := mkMachine (fun s => text_eqb s (txt "minisat") || text_eqb s (txt "lingeling")) (fun _ => exhaustive)
  (fun _ _ => Some (txt "s SATISFIABLE" ++ [nl] ++ txt "v -1 2 0" ++ [nl])) (fun _ _ => None).
Example C89_lingeling : is_satisfiable bigger_box [] not_both (Some (txt "lingeling")) None = Err RuntimeError /\
  is_satisfiable box [] not_both None None = Ok (true, Some [(Some (txt "x"), false); (Some (txt "y"), true)]) /\
  is_satisfiable bigger_box [] not_both None None = Err RuntimeError.
Proof. split; [|split]; vm_compute; reflexivity. Qed.
