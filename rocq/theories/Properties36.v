(* Properties36.v -- generated by tools/genprops.py from PP36.v: property theorems, their
   assumptions, and examples showing that the hypotheses are met.  Proofs are in PP36.v. *)
From Coq Require Import String Ascii ZArith List Bool Lia Permutation.
From Verif Require Import Spec PyBase MSet MText MQueue MDb MSolver MMain MProc MShare MCli MReport MDot SpecRun SpecThief SpecReport SpecLabel
  PLib PClause PRename PLo PNorm PEval PText PQueue PNode PStep PRun PSolver PSolve PThief PReader PReport PLabel PSplit PSplit2 SpecProc SpecCli PCli PP1 PP6 PP14.
Import ListNotations.
From Verif Require Import PP36.
Open Scope Z_scope.

(* C97: with -g every recorded node has one box, in the order of discovery, and a label: the first box shows the input and
   its normal form; each other one what led to it.  The name of a box is the hash of the clauses that its label shows; the
   label is about the input; and the literal that it names as the highest occurring one is one of the most frequent *)
Theorem C97_labels : forall hash insert_fails o root db out,
  root_ok root -> fresh_db o insert_fails db -> ends_with hash insert_fails o root db out -> o_graph o = true ->
  exists first normal rest,
    dot_labels root (out_dot out) =
      Ok ((first, shown_formula (numbered_clauses (clauses root)) ++ line_end ++ shown_formula (sh_formula normal)) ::
          map (fun b => (fst b, label_text (snd b))) rest) /\
    first :: map fst rest = dkeys (out_children out) /\ first = hash (formula_text (lits_of normal)) /\ about (raws root) normal /\
    sh_path normal = evaluated_vars root /\
    forall id sh, In (id, sh) rest -> id = hash (formula_text (lits_of sh)) /\ about (raws root) sh /\
      most_frequent (concat (lits_of sh)) (sh_most sh).
Proof. exact p_C97_labels. Qed.
Print Assumptions C97_labels.

(* C97: clause by clause, when no variable is called 0: what a label shows are the input clauses not satisfied on the way,
   without the literals that have a value; the number behind a clause is that of the input clause, unless -rdb is on *)
Theorem C97_clauses : forall hash insert_fails o root db out id text,
  root_ok root -> ~ In 0 (fvars (raws root)) -> fresh_db o insert_fails db -> ends_with hash insert_fails o root db out -> o_graph o = true ->
  forall labels, dot_labels root (out_dot out) = Ok labels -> In (id, text) (tl labels) ->
  exists sh, text = label_text sh /\ clauses_left (negb (o_rdb o)) (clauses root) sh.
Proof. exact p_C97_clauses. Qed.
Print Assumptions C97_clauses.

(* C97: the way to a box: each box but the first has an arrow from another box such that the values in its label are those in
   the label of that box and one for the input variable behind the leading variable of the clauses shown there *)
Theorem C97_path : forall hash insert_fails o root db out,
  root_ok root -> fresh_db o insert_fails db -> ends_with hash insert_fails o root db out -> o_graph o = true ->
  exists first normal rest,
    dot_labels root (out_dot out) =
      Ok ((first, shown_formula (numbered_clauses (clauses root)) ++ line_end ++ shown_formula (sh_formula normal)) ::
          map (fun b => (fst b, label_text (snd b))) rest) /\
    sh_path normal = evaluated_vars root /\
    forall id sh, In (id, sh) rest -> exists id' sh' b, In (id', sh') ((first, normal) :: rest) /\ In (id', id) (dot_edges (out_dot out)) /\
      Permutation (sh_path sh) ((origin sh' (leading (hd [] (lits_of sh'))), b) :: sh_path sh').
Proof. exact p_C97_path. Qed.
Print Assumptions C97_path.

(* C97: the arrows to the leaves: one from a box to True says that every assignment with the values in the label of the box and one
   of the two values of the input variable behind the leading variable makes the input true; one to False, that none does *)
Theorem C97_leaf_arrows : forall hash insert_fails o root db out,
  root_ok root -> fresh_db o insert_fails db -> ends_with hash insert_fails o root db out -> o_graph o = true ->
  exists first normal rest,
    dot_labels root (out_dot out) =
      Ok ((first, shown_formula (numbered_clauses (clauses root)) ++ line_end ++ shown_formula (sh_formula normal)) ::
          map (fun b => (fst b, label_text (snd b))) rest) /\
    sh_path normal = evaluated_vars root /\
    forall id v, In (id, v) (dot_leaf_edges (out_dot out)) -> exists sh b, In (id, sh) ((first, normal) :: rest) /\
      forall a, extends a ((origin sh (leading (hd [] (lits_of sh))), b) :: sh_path sh) ->
        (v = true -> cnf_true a (raws root)) /\ (v = false -> ~ cnf_true a (raws root)).
Proof. exact p_C97_leaf_arrows. Qed.
Print Assumptions C97_leaf_arrows.

(* C97: nothing is lost in a label: two that are written alike say the same *)
Theorem C97_labels_unambiguous : forall sh sh', label_text sh = label_text sh' -> sh = sh'.
Proof. exact p_C97_labels_unambiguous. Qed.
Print Assumptions C97_labels_unambiguous.

(* C97: so a label tells models of the input: an assignment that makes the clauses shown true, carried over to the input variables
   and completed by the values of the label, makes the input true *)
Theorem C97_models_carry_over : forall F sh a, about F sh -> cnf_true a (lits_of sh) ->
  exists a', extends a' (sh_path sh) /\ (forall v, In v (fvars (lits_of sh)) -> a' (origin sh v) = a v) /\ cnf_true a' F.
Proof. exact p_C97_models_carry_over. Qed.
Print Assumptions C97_models_carry_over.

(* C97: and so for every command: the file that -g writes, with or without worker processes (of which none breaks down), shows
   labelled boxes: all that the theorems above say of the labels of a single process holds of those of the file *)
Theorem C97_command : forall e fuel lf c db name i root out lines file ver written shown g d,
  SpecCli.proper c -> reads_file c name i -> get_cnf_set i = Ok root -> root_ok root ->
  c_factorize c = false -> c_multiply c = None ->
  (c_gdb c = true -> db = [] /\ forall h, e_insert_fails e h = false) -> (forall k, e_worker_fails e k = false) ->
  command e fuel lf c db = Ok (Ran (Report out lines file ver) written shown) -> In (g, GraphFile d) written ->
  exists first normal rest,
    dot_labels root d =
      Ok ((first, shown_formula (numbered_clauses (clauses root)) ++ line_end ++ shown_formula (sh_formula normal)) ::
          map (fun b => (fst b, label_text (snd b))) rest) /\
    first :: map fst rest = dot_nodes d /\ NoDup (dot_nodes d) /\
    first = e_hash e (formula_text (lits_of normal)) /\ about (raws root) normal /\ sh_path normal = evaluated_vars root /\
    (forall id sh, In (id, sh) rest ->
      id = e_hash e (formula_text (lits_of sh)) /\ about (raws root) sh /\ most_frequent (concat (lits_of sh)) (sh_most sh) /\
      (~ In 0 (fvars (raws root)) -> clauses_left (negb (c_rdb c)) (clauses root) sh) /\
      exists id' sh' b, In (id', sh') ((first, normal) :: rest) /\ In (id', id) (dot_edges d) /\
        Permutation (sh_path sh) ((origin sh' (leading (hd [] (lits_of sh'))), b) :: sh_path sh')) /\
    (forall id v, In (id, v) (dot_leaf_edges d) -> exists sh b, In (id, sh) ((first, normal) :: rest) /\
       forall a, extends a ((origin sh (leading (hd [] (lits_of sh))), b) :: sh_path sh) ->
         (v = true -> cnf_true a (raws root)) /\ (v = false -> ~ cnf_true a (raws root))).
Proof. exact p_C97_command. Qed.
Print Assumptions C97_command.

Definition drawing_opts : opts := mkOpts MODE_LOU false false false false false false false true.
Example C97_example : exists out labels,
  root_ok sample /\ ~ In 0 (fvars (raws sample)) /\ ends_with (fun t => t) no_fail drawing_opts sample [] out /\
  dot_labels sample (out_dot out) = Ok labels /\ (5 < List.length labels)%nat /\ (0 < List.length (dot_leaf_edges (out_dot out)))%nat /\
  option_map snd (nth_error labels 3) = Some (txt "(1 | 2 | 3)[4]\nfnm = [4, 5, 6]\nov = {4: 1, 5: 8, 6: 4}\nsol = {3: True, 5: True}, highest occuring var = 1").
Proof.
  do 2 eexists. split; [exact sample_ok|]. split; [vm_compute; intuition discriminate|]. split.
  { exists 40%nat. intros fuel lf H1 H2. apply (solve_set_mono _ _ _ _ _ 40 fuel 40 lf H1 H2). vm_compute. reflexivity. }
  split; [vm_compute; reflexivity|]. split; [cbn [List.length]; lia|].
  split; [vm_compute; repeat constructor|]. vm_compute. reflexivity.
Qed.
(* three workers, 5 of 17 nodes in the file (see C62), each with a label *)
Example C97_command_example : forall gdb, exists out lines file ver written shown d root labels,
  SpecCli.proper (on_file gdb 3) /\ reads_file (on_file gdb 3) (txt "in/s.txt") (InSLF sample_text) /\
  get_cnf_set (InSLF sample_text) = Ok root /\ root_ok root /\ ~ In 0 (fvars (raws root)) /\
  (forall k, e_worker_fails plain_env k = false) /\
  command plain_env 300 300 (on_file gdb 3) [] = Ok (Ran (Report out lines file ver) written shown) /\
  In (txt "g", GraphFile d) written /\ dot_labels root d = Ok labels /\ List.length labels = 5%nat.
Proof.
  intros gdb. assert (P : SpecCli.proper (on_file gdb 3)) by (apply proper_iff; destruct gdb; split; reflexivity).
  destruct gdb; do 9 eexists; (split; [exact P|]); (split; [left; eexists; split; reflexivity|]);
    (split; [vm_compute; reflexivity|]); (split; [concrete_root_ok|]); 
    (split; [vm_compute; intuition discriminate|]); (split; [reflexivity|]); (split; [vm_compute; reflexivity|]); 
    (split; [left; reflexivity|]); (split; [vm_compute; reflexivity|]); reflexivity.
Qed.
