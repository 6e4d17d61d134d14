(* Properties4.v -- generated by tools/genprops.py from PP4.v: property theorems, their
   assumptions, and examples showing that the hypotheses are met.  Proofs are in PP4.v. *)
From Coq Require Import String Ascii ZArith List Bool Lia Permutation Sorted.
From Verif Require Import Spec PyBase MSet MText MQueue MDb MSolver MMain SpecInput SpecRun PLib PClause
  PRename PLo PNorm PEval PText PQueue PNode PStep PRun PStats PSolver PSolve PSearch PGraph PReader PP1 PP2.
Import ListNotations.
From Verif Require Import PP4.
Open Scope Z_scope.

(* C16: reading the text of a formula (first line of the file) gives an equivalent set; with clauses of
   at most three different literals, clause for clause: tautologies dropped, literals not repeated *)
Theorem C16_single_line : forall F t rest, formula_written F t -> (rest = [] \/ exists u, rest = nl :: u) ->
  exists s, get_cnf_set (InSLF (t ++ rest)) = Ok s /\
    (forall a, cnf_true a (raws s) <-> cnf_true a F) /\
    (Forall narrow F -> reads 1 F (map (fun c => (initial_index c, raw c)) (clauses s))) /\
    (forall c, In c (clauses s) -> cvalue c = None) /\
    svalue s = (match clauses s with [] => Some true | _ => None end) /\
    evaluated_vars s = [] /\ final_names_map s = [].
Proof. exact p_C16_single_line. Qed.
Print Assumptions C16_single_line.

(* C16: a text with a field that is not an integer is reported nowhere: no verdict at all *)
Theorem C16_malformed_no_verdict : forall hash insert_fails fuel lf o a db pre f post rest,
  malformed f -> ~ In "&"%char f -> ~ In "|"%char f ->
  (pre = [] \/ exists p, pre = p ++ ["&"%char] \/ pre = p ++ ["|"%char]) ->
  (post = [] \/ exists p, post = "&"%char :: p \/ post = "|"%char :: p) ->
  one_line (pre ++ f ++ post) -> (rest = [] \/ exists u, rest = nl :: u) ->
  main_run hash insert_fails fuel lf o a (InSLF ((pre ++ f ++ post) ++ rest)) db =
  Ok (match a_multiply a with None => NoAnswer | Some _ => Refused end).
Proof. exact p_C16_malformed_no_verdict. Qed.
Print Assumptions C16_malformed_no_verdict.

Example C16_example : formula_written [[6; 3; -5]; [2; -2; 1]; [3; 1; 3]] (chars "(6|3| -05)&2|-2|+1&( 3|1|3)") /\
  Forall narrow [[6; 3; -5]; [2; -2; 1]; [3; 1; 3]] /\
  reads 1 [[6; 3; -5]; [2; -2; 1]; [3; 1; 3]] [(1, [3; -5; 6]); (3, [1; 3])].
Proof.
  assert (L : forall z pre n post, numeral z n -> Forall filler pre -> Forall filler post ->
            literal_written z (pre ++ n ++ post)) by (intros z p n q H1 H2 H3; exists p, n, q; auto).
  assert (P : forall d, (d < 10)%nat -> numeral (Z.of_nat d) [digit d]).
  { intros d H. change [digit d] with (map digit [d]).
    replace (Z.of_nat d) with (decimal 0 [d]) by reflexivity. constructor; [discriminate|auto]. }
  assert (Q : forall t, forallb (fun c => existsb (Ascii.eqb c) (chars " ()")) t = true -> Forall filler t).
  { intros t H. apply Forall_forall. intros c Hc. rewrite forallb_forall in H. specialize (H c Hc).
    apply existsb_exists in H as (x & Hx & E). apply Ascii.eqb_eq in E. subst x.
    simpl in Hx. unfold filler, is_blank. intuition auto. }
  split; [|split].
  - split; [discriminate|]. exists [chars "(6|3| -05)"; chars "2|-2|+1"; chars "( 3|1|3)"]. split; [|reflexivity].
    constructor; [|constructor; [|constructor; [|constructor]]]; (split; [discriminate|]).
    + exists [chars "(6"; chars "3"; chars " -05)"]. split; [|reflexivity].
      constructor; [|constructor; [|constructor; [|constructor]]].
      * apply (L 6 (chars "(") [digit 6] []); [apply (P 6%nat); lia| |]; apply Q; reflexivity.
      * apply (L 3 [] [digit 3] []); [apply (P 3%nat); lia| |]; apply Q; reflexivity.
      * apply (L (-5) (chars " ") (chars "-05") (chars ")")); [|apply Q; reflexivity|apply Q; reflexivity].
        apply (num_minus [0; 5]%nat); [discriminate|repeat constructor].
    + exists [chars "2"; chars "-2"; chars "+1"]. split; [|reflexivity].
      constructor; [|constructor; [|constructor; [|constructor]]].
      * apply (L 2 [] [digit 2] []); [apply (P 2%nat); lia| |]; apply Q; reflexivity.
      * apply (L (-2) [] (chars "-2") []); [|apply Q; reflexivity|apply Q; reflexivity].
        apply (num_minus [2]%nat); [discriminate|repeat constructor].
      * apply (L 1 [] (chars "+1") []); [|apply Q; reflexivity|apply Q; reflexivity].
        apply (num_plus [1]%nat); [discriminate|repeat constructor].
    + exists [chars "( 3"; chars "1"; chars "3)"]. split; [|reflexivity].
      constructor; [|constructor; [|constructor; [|constructor]]].
      * apply (L 3 (chars "( ") [digit 3] []); [apply (P 3%nat); lia| |]; apply Q; reflexivity.
      * apply (L 1 [] [digit 1] []); [apply (P 1%nat); lia| |]; apply Q; reflexivity.
      * apply (L 3 [] [digit 3] (chars ")")); [apply (P 3%nat); lia| |]; apply Q; reflexivity.
  - repeat constructor.
  - apply reads_clause.
    { intros (v & Hv & H1 & H2). simpl in *. lia. }
    { intros l. simpl. tauto. } { repeat constructor; simpl; lia. } { repeat constructor; simpl; lia. }
    apply reads_taut. { exists 2. simpl. repeat split; auto. lia. }
    apply (reads_clause (1 + 1 + 1)).
    { intros (v & Hv & H1 & H2). simpl in *. lia. }
    { intros l. simpl. tauto. } { repeat constructor; simpl; lia. } { repeat constructor; simpl; lia. }
    constructor.
Qed.
Example C16_malformed_example : malformed (chars "x") /\ malformed [] /\ malformed (chars "(1.5)").
Proof.
  split; [|split].
  - right. exists "x"%char. split; [left; auto|]. split; [|split].
    + intros (d & Hd & E). do 10 (destruct d as [|d]; [discriminate E|]). lia.
    + simpl. intuition discriminate.
    + simpl. intuition discriminate.
  - left. intros c [].
  - right. exists "."%char. split; [simpl; auto|]. split; [|split].
    + intros (d & Hd & E). do 10 (destruct d as [|d]; [discriminate E|]). lia.
    + simpl. intuition discriminate.
    + simpl. intuition discriminate.
Qed.

(* C17: a formula given on the command line never gets a verdict *)
Theorem C17_command_line_fails : forall hash insert_fails fuel lf o a db t, t <> [] ->
  main_run hash insert_fails fuel lf o a (InSL t) db = Ok (Failed UnboundLocalError).
Proof. exact p_C17_command_line_fails. Qed.
Print Assumptions C17_command_line_fails.

(* C18: a well-formed DIMACS file reads back as the formula, whatever the layout of its integers on the
   lines; the last clause need not be terminated (and may then have any width) *)
Theorem C18_dimacs_read : forall h ls rest F last G,
  Forall one_line (h :: ls ++ rest) -> ignored_rest rest ->
  (forall c, In c F -> c <> [] /\ ~ In 0 c /\ (List.length c <= 3)%nat) -> ~ In 0 last ->
  dimacs_body (terminated F ++ last) ls ->
  G = F ++ (match last with [] => [] | _ => [last] end) ->
  exists s, get_cnf_set (InDimacs (file_of (h :: ls ++ rest))) = Ok s /\
    (forall a, cnf_true a (raws s) <-> cnf_true a G) /\
    (narrow last -> reads 1 G (map (fun c => (initial_index c, raw c)) (clauses s))) /\
    (forall c, In c (clauses s) -> cvalue c = None) /\
    (G <> [] -> svalue s = (match clauses s with [] => Some true | _ => None end)) /\
    evaluated_vars s = [] /\ final_names_map s = [].
Proof. exact p_C18_dimacs_read. Qed.
Print Assumptions C18_dimacs_read.

(* C18, exception: an explicit empty clause (a 0 with no literal before it) is ignored, so a formula made
   unsatisfiable by an empty clause is read as if it were not there *)
Theorem C18_empty_clause_ignored : forall h ls rest F,
  Forall one_line (h :: ls ++ rest) -> ignored_rest rest ->
  (forall c, In c F -> ~ In 0 c /\ (List.length c <= 3)%nat) ->
  dimacs_body (terminated F) ls ->
  exists s, get_cnf_set (InDimacs (file_of (h :: ls ++ rest))) = Ok s /\
    reads 1 (filter nonempty F) (map (fun c => (initial_index c, raw c)) (clauses s)).
Proof. exact p_C18_empty_clause_ignored. Qed.
Print Assumptions C18_empty_clause_ignored.

Example C18_example :
  let F := [[1; -2; 3]; [2; 3]] in let ls := [chars "c hello"; chars "p cnf 3  2"; chars "  1 -2"; chars "3 0 2 "; chars "3"] in
  dimacs_body (terminated [[1; -2; 3]] ++ [2; 3]) ls /\ Forall one_line (chars "p cnf" :: ls ++ [[]; chars "garbage"]) /\
  ignored_rest [[]; chars "garbage"].
Proof.
  assert (P : forall d, (d < 10)%nat -> numeral (Z.of_nat d) [digit d]).
  { intros d H. change [digit d] with (map digit [d]).
    replace (Z.of_nat d) with (decimal 0 [d]) by reflexivity. constructor; [discriminate|auto]. }
  cbn zeta. split; [|split].
  - apply body_comment. { exists [], (chars " hello"). split; [reflexivity|constructor]. }
    apply body_problem.
    { exists [], [], (chars " "), (chars "cnf"), (chars " "), (chars "3"), (chars "  "), (chars "2"), [].
      split; [reflexivity|]. unfold word, gap, blanks.
      repeat split; try discriminate; repeat constructor;
        intros c Hc; simpl in Hc; repeat (destruct Hc as [<-|Hc]; [vm_compute; lia|]); destruct Hc. }
    apply (body_ints [1; -2] [3; 0; 2; 3]); [discriminate| |].
    { apply (spaced_cons (chars "  ") 1 (chars "1") [-2] (chars "-2")); [repeat constructor|apply (P 1%nat); lia|].
      apply (spaced_last [] (-2) (chars "-2")); [constructor|]. apply (num_minus [2]%nat); [discriminate|repeat constructor]. }
    apply (body_ints [3; 0; 2] [3]); [discriminate| |].
    { apply (spaced_cons [] 3 (chars "3") [0; 2] (chars "0 2 ")); [constructor|apply (P 3%nat); lia|].
      apply (spaced_cons [] 0 (chars "0") [2] (chars "2 ")); [constructor|apply (P 0%nat); lia|].
      apply (spaced_cons [] 2 (chars "2") [] []); [constructor|apply (P 2%nat); lia|]. apply spaced_nil. constructor. }
    apply (body_ints [3] []); [discriminate| |constructor].
    apply (spaced_last [] 3 (chars "3")); [constructor|apply (P 3%nat); lia].
  - repeat constructor; vm_compute; intuition discriminate.
  - right. exists [], [chars "garbage"]. split; [reflexivity|constructor].
Qed.

(* C19: the first line is never looked at *)
Theorem C19_first_line_ignored : forall h h' body, one_line h -> one_line h' ->
  get_cnf_set (InDimacs (h ++ nl :: body)) = get_cnf_set (InDimacs (h' ++ nl :: body)).
Proof. exact p_C19_first_line_ignored. Qed.
Print Assumptions C19_first_line_ignored.

(* C19: nothing after the first blank line is looked at *)
Theorem C19_after_blank_ignored : forall h ls b rest, Forall one_line (h :: ls ++ b :: rest) -> blanks b ->
  get_cnf_set (InDimacs (file_of (h :: ls ++ b :: rest))) = get_cnf_set (InDimacs (file_of (h :: ls))).
Proof. exact p_C19_after_blank_ignored. Qed.
Print Assumptions C19_after_blank_ignored.

(* C19: so an unsatisfiable formula without header line, or with a blank line in it, is reported
   satisfiable *)
Theorem C19_lost_clause_refuted : exists lines1 lines2 out1 out2,
  dimacs_body (terminated [[1]; [-1]]) lines1 /\ ~ satisfiable [[1]; [-1]] /\
  program_answers (fun t => t) no_fail default_opts (mkMain false None false false)
    (InDimacs (file_of lines1)) [] (Report out1 [] None None) /\ out_sat out1 = true /\
  dimacs_body (terminated [[1]]) [nth 1 lines2 []] /\ dimacs_body (terminated [[-1]]) [nth 3 lines2 []] /\
  program_answers (fun t => t) no_fail default_opts (mkMain false None false false)
    (InDimacs (file_of lines2)) [] (Report out2 [] None None) /\ out_sat out2 = true.
Proof. exact p_C19_lost_clause_refuted. Qed.
Print Assumptions C19_lost_clause_refuted.

(* C20: a terminated clause of more than three literals in the part that is read makes the reader, and
   the program, fail; whatever follows it *)
Theorem C20_wide_clause_rejected : forall h ls rest toks pre c post,
  Forall one_line (h :: ls ++ rest) -> dimacs_body toks ls ->
  toks = pre ++ c ++ 0 :: post -> (pre = [] \/ exists p, pre = p ++ [0]) -> ~ In 0 c -> (3 < List.length c)%nat ->
  get_cnf_set (InDimacs (file_of (h :: ls ++ rest))) = Err OtherException /\
  forall hash insert_fails fuel lf o a db,
    main_run hash insert_fails fuel lf o a (InDimacs (file_of (h :: ls ++ rest))) db = Ok (Failed OtherException).
Proof. exact p_C20_wide_clause_rejected. Qed.
Print Assumptions C20_wide_clause_rejected.

(* C20: for any file content whatsoever, only the last clause read can have more than three literals *)
Theorem C20_only_last_wide : forall content s, get_cnf_set (InDimacs content) = Ok s ->
  exists front back, raws s = front ++ back /\ (List.length back <= 1)%nat /\
    forall c, In c front -> (List.length c <= 3)%nat.
Proof. exact p_C20_only_last_wide. Qed.
Print Assumptions C20_only_last_wide.

Example C20_example : get_cnf_set (InDimacs (file_of [[]; chars "1 2 3 4"; chars "5 0 1 0"])) = Err OtherException /\
  match get_cnf_set (InDimacs (file_of [[]; chars "1 0 1 2 3"; chars "4"])) with Ok s => raws s | _ => [] end = [[1]; [1; 2; 3; 4]].
Proof. split; reflexivity. Qed.
