(* PP4.v -- input readers (C16-C20): statements and proofs. *)
From Coq Require Import String Ascii ZArith List Bool Lia Permutation Sorted.
From Verif Require Import Spec PyBase MSet MText MQueue MDb MSolver MMain SpecInput SpecRun PLib PClause
  PRename PLo PNorm PEval PText PQueue PNode PStep PRun PStats PSolver PSolve PSearch PGraph PReader PP1 PP2.
Import ListNotations.
Open Scope Z_scope.

(* C16: reading the text of a formula (first line of the file) gives an equivalent set; with clauses of
   at most three different literals, clause for clause: tautologies dropped, literals not repeated *)
Lemma p_C16_single_line : forall F t rest, formula_written F t -> (rest = [] \/ exists u, rest = nl :: u) ->
  exists s, get_cnf_set (InSLF (t ++ rest)) = Ok s /\
    (forall a, cnf_true a (raws s) <-> cnf_true a F) /\
    (Forall narrow F -> reads 1 F (map (fun c => (initial_index c, raw c)) (clauses s))) /\
    (forall c, In c (clauses s) -> cvalue c = None) /\
    svalue s = (match clauses s with [] => Some true | _ => None end) /\
    evaluated_vars s = [] /\ final_names_map s = [].
Proof.
  intros F t rest HF Hr. destruct (formula_read F t HF) as [HP Hne]. pose proof HF as [HFn _].
  exists (add_numbered empty_set 1 (map dedup F)). split.
  - cbn [get_cnf_set]. rewrite first_line; [|eapply formula_lacks; eauto|auto].
    unfold set_of_text. destruct t; [congruence|]. rewrite HP. auto.
  - rewrite add_numbered_read by auto. unfold raws. cbn [clauses svalue set_value set_clauses evaluated_vars final_names_map empty_set].
    split; [intros a; apply read_clauses_equiv|]. split; [intros Hn; apply read_clauses_reads; auto|].
    split; [|auto]. intros c Hc. apply read_clauses_incl in Hc as (d & _ & _ & E). auto.
Qed.
(* C16: a text with a field that is not an integer is reported nowhere: no verdict at all *)
Lemma p_C16_malformed_no_verdict : forall hash insert_fails fuel lf o a db pre f post rest,
  malformed f -> ~ In "&"%char f -> ~ In "|"%char f ->
  (pre = [] \/ exists p, pre = p ++ ["&"%char] \/ pre = p ++ ["|"%char]) ->
  (post = [] \/ exists p, post = "&"%char :: p \/ post = "|"%char :: p) ->
  one_line (pre ++ f ++ post) -> (rest = [] \/ exists u, rest = nl :: u) ->
  main_run hash insert_fails fuel lf o a (InSLF ((pre ++ f ++ post) ++ rest)) db =
  Ok (match a_multiply a with None => NoAnswer | Some _ => Refused end).
Proof.
  intros hash ifl fuel lf o a db pre f post rest Hm H1 H2 Hpre Hpost Hl Hr. unfold main_run, main_with. cbn [get_cnf_set].
  rewrite first_line; auto. rewrite malformed_read; auto. cbn [bind]. unfold preprocess, preprocess_with.
  destruct (a_factorize a); cbn; destruct (a_multiply a) as [[x y]|]; reflexivity.
Qed.
(*EX
Example C16_example : formula_written [[6; 3; -5]; [2; -2; 1]; [3; 1; 3]] (chars "(6|3| -05)&2|-2|+1&( 3|1|3)") /\
  Forall narrow [[6; 3; -5]; [2; -2; 1]; [3; 1; 3]] /\
  reads 1 [[6; 3; -5]; [2; -2; 1]; [3; 1; 3]] [(1, [3; -5; 6]); (3, [1; 3])].
Proof.
  assert (L : forall z pre n post, numeral z n -> Forall filler pre -> Forall filler post ->
            literal_written z (pre ++ n ++ post)) by (intros z p n q H1 H2 H3; exists p, n, q; auto).
  assert (P : forall d, (d < 10)%nat -> numeral (Z.of_nat d) [digit d]).
  { intros d H. change [digit d] with (map digit [d]).
    replace (Z.of_nat d) with (decimal 0 [d]) by reflexivity. constructor; [discriminate|auto]. }
  assert (Q : forall t, forallb (fun c => existsb (Ascii.eqb c) (chars " ()")) t = true -> Forall filler t).
  { intros t H. apply Forall_forall. intros c Hc. rewrite forallb_forall in H. specialize (H c Hc).
    apply existsb_exists in H as (x & Hx & E). apply Ascii.eqb_eq in E. subst x.
    simpl in Hx. unfold filler, is_blank. intuition auto. }
  split; [|split].
  - split; [discriminate|]. exists [chars "(6|3| -05)"; chars "2|-2|+1"; chars "( 3|1|3)"]. split; [|reflexivity].
    constructor; [|constructor; [|constructor; [|constructor]]]; (split; [discriminate|]).
    + exists [chars "(6"; chars "3"; chars " -05)"]. split; [|reflexivity].
      constructor; [|constructor; [|constructor; [|constructor]]].
      * apply (L 6 (chars "(") [digit 6] []); [apply (P 6%nat); lia| |]; apply Q; reflexivity.
      * apply (L 3 [] [digit 3] []); [apply (P 3%nat); lia| |]; apply Q; reflexivity.
      * apply (L (-5) (chars " ") (chars "-05") (chars ")")); [|apply Q; reflexivity|apply Q; reflexivity].
        apply (num_minus [0; 5]%nat); [discriminate|repeat constructor].
    + exists [chars "2"; chars "-2"; chars "+1"]. split; [|reflexivity].
      constructor; [|constructor; [|constructor; [|constructor]]].
      * apply (L 2 [] [digit 2] []); [apply (P 2%nat); lia| |]; apply Q; reflexivity.
      * apply (L (-2) [] (chars "-2") []); [|apply Q; reflexivity|apply Q; reflexivity].
        apply (num_minus [2]%nat); [discriminate|repeat constructor].
      * apply (L 1 [] (chars "+1") []); [|apply Q; reflexivity|apply Q; reflexivity].
        apply (num_plus [1]%nat); [discriminate|repeat constructor].
    + exists [chars "( 3"; chars "1"; chars "3)"]. split; [|reflexivity].
      constructor; [|constructor; [|constructor; [|constructor]]].
      * apply (L 3 (chars "( ") [digit 3] []); [apply (P 3%nat); lia| |]; apply Q; reflexivity.
      * apply (L 1 [] [digit 1] []); [apply (P 1%nat); lia| |]; apply Q; reflexivity.
      * apply (L 3 [] [digit 3] (chars ")")); [apply (P 3%nat); lia| |]; apply Q; reflexivity.
  - repeat constructor.
  - apply reads_clause.
    { intros (v & Hv & H1 & H2). simpl in *. lia. }
    { intros l. simpl. tauto. } { repeat constructor; simpl; lia. } { repeat constructor; simpl; lia. }
    apply reads_taut. { exists 2. simpl. repeat split; auto. lia. }
    apply (reads_clause (1 + 1 + 1)).
    { intros (v & Hv & H1 & H2). simpl in *. lia. }
    { intros l. simpl. tauto. } { repeat constructor; simpl; lia. } { repeat constructor; simpl; lia. }
    constructor.
Qed.
Example C16_malformed_example : malformed (chars "x") /\ malformed [] /\ malformed (chars "(1.5)").
Proof.
  split; [|split].
  - right. exists "x"%char. split; [left; auto|]. split; [|split].
    + intros (d & Hd & E). do 10 (destruct d as [|d]; [discriminate E|]). lia.
    + simpl. intuition discriminate.
    + simpl. intuition discriminate.
  - left. intros c [].
  - right. exists "."%char. split; [simpl; auto|]. split; [|split].
    + intros (d & Hd & E). do 10 (destruct d as [|d]; [discriminate E|]). lia.
    + simpl. intuition discriminate.
    + simpl. intuition discriminate.
Qed.
EX*)

(* C17: a formula given on the command line never gets a verdict *)
Lemma p_C17_command_line_fails : forall hash insert_fails fuel lf o a db t, t <> [] ->
  main_run hash insert_fails fuel lf o a (InSL t) db = Ok (Failed UnboundLocalError).
Proof. intros hash ifl fuel lf o a db t H. destruct t; [congruence|reflexivity]. Qed.

(* C18: a well-formed DIMACS file reads back as the formula, whatever the layout of its integers on the
   lines; the last clause need not be terminated (and may then have any width) *)
Lemma p_C18_dimacs_read : forall h ls rest F last G,
  Forall one_line (h :: ls ++ rest) -> ignored_rest rest ->
  (forall c, In c F -> c <> [] /\ ~ In 0 c /\ (List.length c <= 3)%nat) -> ~ In 0 last ->
  dimacs_body (terminated F ++ last) ls ->
  G = F ++ (match last with [] => [] | _ => [last] end) ->
  exists s, get_cnf_set (InDimacs (file_of (h :: ls ++ rest))) = Ok s /\
    (forall a, cnf_true a (raws s) <-> cnf_true a G) /\
    (narrow last -> reads 1 G (map (fun c => (initial_index c, raw c)) (clauses s))) /\
    (forall c, In c (clauses s) -> cvalue c = None) /\
    (G <> [] -> svalue s = (match clauses s with [] => Some true | _ => None end)) /\
    evaluated_vars s = [] /\ final_names_map s = [].
Proof.
  intros h ls rest F last G Hl Hr HF H0 Hb ->.
  rewrite (read_body h ls rest (terminated F ++ last)) by auto.
  rewrite feed_app, feed_formula by (intros c Hc; destruct (HF c Hc) as (_ & A & B); auto).
  cbn [bind app]. rewrite feed_literals by auto. cbn [bind app].
  replace (filter ne_clause F) with F.
  2:{ clear -HF. induction F as [|c F IH]; auto. cbn [filter]. destruct c as [|z c].
      - destruct (HF []) as [A _]; [left; auto|congruence].
      - cbn [ne_clause]. f_equal. apply IH. intros d Hd; apply HF; right; auto. }
  set (G := F ++ match last with [] => [] | _ => [last] end).
  assert (E : match last with [] => map dedup F | _ => map dedup F ++ [dedup last] end = map dedup G).
  { unfold G. destruct last; [rewrite app_nil_r; auto|]. rewrite map_app. auto. }
  rewrite E. exists (add_numbered empty_set 1 (map dedup G)). split; auto.
  unfold raws. rewrite add_numbered_read_any. split; [intros a; apply read_clauses_equiv|].
  split. { intros Hn. apply read_clauses_reads. unfold G. apply Forall_app. split.
    - apply Forall_forall. intros c Hc. destruct (HF c Hc) as (_ & _ & B). left.
      rewrite nodup_dedup_length. pose proof (dedup_length_le c). lia.
    - destruct last; [constructor|constructor; [auto|constructor]]. }
  split. { intros c Hc. apply read_clauses_incl in Hc as (d & _ & _ & Ev). auto. }
  split. { intros Hg. rewrite add_numbered_read by auto. auto. }
  destruct G as [|g G']; [auto|]. rewrite add_numbered_read by discriminate. auto.
Qed.
(* C18, exception: an explicit empty clause (a 0 with no literal before it) is ignored, so a formula made
   unsatisfiable by an empty clause is read as if it were not there *)
Lemma p_C18_empty_clause_ignored : forall h ls rest F,
  Forall one_line (h :: ls ++ rest) -> ignored_rest rest ->
  (forall c, In c F -> ~ In 0 c /\ (List.length c <= 3)%nat) ->
  dimacs_body (terminated F) ls ->
  exists s, get_cnf_set (InDimacs (file_of (h :: ls ++ rest))) = Ok s /\
    reads 1 (filter nonempty F) (map (fun c => (initial_index c, raw c)) (clauses s)).
Proof.
  intros h ls rest F Hl Hr HF Hb. rewrite (read_body h ls rest (terminated F)) by auto.
  rewrite feed_formula by auto. cbn [bind app]. eexists. split; [reflexivity|].
  rewrite add_numbered_read_any. change ne_clause with nonempty. apply read_clauses_reads.
  apply Forall_forall. intros c Hc. apply filter_In in Hc as [Hc _]. destruct (HF c Hc) as (_ & B). left.
  rewrite nodup_dedup_length. pose proof (dedup_length_le c). lia.
Qed.
(*EX
Example C18_example :
  let F := [[1; -2; 3]; [2; 3]] in let ls := [chars "c hello"; chars "p cnf 3  2"; chars "  1 -2"; chars "3 0 2 "; chars "3"] in
  dimacs_body (terminated [[1; -2; 3]] ++ [2; 3]) ls /\ Forall one_line (chars "p cnf" :: ls ++ [[]; chars "garbage"]) /\
  ignored_rest [[]; chars "garbage"].
Proof.
  assert (P : forall d, (d < 10)%nat -> numeral (Z.of_nat d) [digit d]).
  { intros d H. change [digit d] with (map digit [d]).
    replace (Z.of_nat d) with (decimal 0 [d]) by reflexivity. constructor; [discriminate|auto]. }
  cbn zeta. split; [|split].
  - apply body_comment. { exists [], (chars " hello"). split; [reflexivity|constructor]. }
    apply body_problem.
    { exists [], [], (chars " "), (chars "cnf"), (chars " "), (chars "3"), (chars "  "), (chars "2"), [].
      split; [reflexivity|]. unfold word, gap, blanks.
      repeat split; try discriminate; repeat constructor;
        intros c Hc; simpl in Hc; repeat (destruct Hc as [<-|Hc]; [vm_compute; lia|]); destruct Hc. }
    apply (body_ints [1; -2] [3; 0; 2; 3]); [discriminate| |].
    { apply (spaced_cons (chars "  ") 1 (chars "1") [-2] (chars "-2")); [repeat constructor|apply (P 1%nat); lia|].
      apply (spaced_last [] (-2) (chars "-2")); [constructor|]. apply (num_minus [2]%nat); [discriminate|repeat constructor]. }
    apply (body_ints [3; 0; 2] [3]); [discriminate| |].
    { apply (spaced_cons [] 3 (chars "3") [0; 2] (chars "0 2 ")); [constructor|apply (P 3%nat); lia|].
      apply (spaced_cons [] 0 (chars "0") [2] (chars "2 ")); [constructor|apply (P 0%nat); lia|].
      apply (spaced_cons [] 2 (chars "2") [] []); [constructor|apply (P 2%nat); lia|]. apply spaced_nil. constructor. }
    apply (body_ints [3] []); [discriminate| |constructor].
    apply (spaced_last [] 3 (chars "3")); [constructor|apply (P 3%nat); lia].
  - repeat constructor; vm_compute; intuition discriminate.
  - right. exists [], [chars "garbage"]. split; [reflexivity|constructor].
Qed.
EX*)

(* C19: the first line is never looked at *)
Lemma p_C19_first_line_ignored : forall h h' body, one_line h -> one_line h' ->
  get_cnf_set (InDimacs (h ++ nl :: body)) = get_cnf_set (InDimacs (h' ++ nl :: body)).
Proof.
  intros h h' body H H'. cbn [get_cnf_set]. unfold parse_dimacs. rewrite nl_newline, !split_on_app by auto. auto.
Qed.
(* C19: nothing after the first blank line is looked at *)
Lemma p_C19_after_blank_ignored : forall h ls b rest, Forall one_line (h :: ls ++ b :: rest) -> blanks b ->
  get_cnf_set (InDimacs (file_of (h :: ls ++ b :: rest))) = get_cnf_set (InDimacs (file_of (h :: ls))).
Proof.
  intros h ls b rest H Hb. rewrite !read_file.
  - rewrite after_blank by auto. auto.
  - inversion H; subst. constructor; auto. apply Forall_app in H3 as [H3 _]. auto.
  - auto.
Qed.
(* C19: so an unsatisfiable formula without header line, or with a blank line in it, is reported
   satisfiable *)
Lemma p_C19_lost_clause_refuted : exists lines1 lines2 out1 out2,
  dimacs_body (terminated [[1]; [-1]]) lines1 /\ ~ satisfiable [[1]; [-1]] /\
  program_answers (fun t => t) no_fail default_opts (mkMain false None false false)
    (InDimacs (file_of lines1)) [] (Report out1 [] None None) /\ out_sat out1 = true /\
  dimacs_body (terminated [[1]]) [nth 1 lines2 []] /\ dimacs_body (terminated [[-1]]) [nth 3 lines2 []] /\
  program_answers (fun t => t) no_fail default_opts (mkMain false None false false)
    (InDimacs (file_of lines2)) [] (Report out2 [] None None) /\ out_sat out2 = true.
Proof.
  exists [chars "1 0"; chars "-1 0"], [chars "p cnf 1 2"; chars "1 0"; []; chars "-1 0"]. do 2 eexists.
  assert (P1 : spaced [1; 0] (chars "1 0")).
  { apply (spaced_cons [] 1 (chars "1") [0] (chars "0")); [constructor| |].
    - apply (num_plain [1]%nat); [discriminate|repeat constructor].
    - apply (spaced_last [] 0 (chars "0")); [constructor|]. apply (num_plain [0]%nat); [discriminate|repeat constructor]. }
  assert (P2 : spaced [-1; 0] (chars "-1 0")).
  { apply (spaced_cons [] (-1) (chars "-1") [0] (chars "0")); [constructor| |].
    - apply (num_minus [1]%nat); [discriminate|repeat constructor].
    - apply (spaced_last [] 0 (chars "0")); [constructor|]. apply (num_plain [0]%nat); [discriminate|repeat constructor]. }
  split. { apply (body_ints [1; 0] [-1; 0]); [discriminate|auto|]. apply (body_ints [-1; 0] []); [discriminate|auto|constructor]. }
  split. { intros (a & H). destruct (H [1]) as (l & [<-|[]] & H1); [left; auto|].
           destruct (H [-1]) as (l & [<-|[]] & H2); [right; left; auto|]. cbv in H1, H2. destruct (a 1); discriminate. }
  assert (K : forall i c, get_cnf_set i = Ok c -> clauses c <> [] -> forall c' out h,
    get_hash (fun t => t) false c = Ok (h, c') -> solve_set (fun t => t) no_fail 40 40 default_opts c' [] = Ok out ->
    program_answers (fun t => t) no_fail default_opts (mkMain false None false false) i [] (Report out [] None None)).
  { intros i c E Hc c' out h Eh Es. exists 40%nat. intros fuel lf H1 H2. unfold main_run, main_with. rewrite E. cbn [bind].
    unfold preprocess_with, run_with. cbn [a_factorize a_multiply]. destruct (clauses c); [congruence|]. cbn [andb].
    rewrite Eh. cbn [bind]. rewrite (solve_set_mono _ _ _ _ _ 40 fuel 40 lf H1 H2 out Es). cbn [bind fact_lines mult_lines].
    destruct (out_solution out) as [[|]|]; reflexivity. }
  split. { eapply K; [reflexivity|discriminate|reflexivity|vm_compute; reflexivity]. }
  split. { reflexivity. }
  split. { apply (body_ints [1; 0] []); [discriminate|auto|constructor]. }
  split. { apply (body_ints [-1; 0] []); [discriminate|auto|constructor]. }
  split. { eapply K; [reflexivity|discriminate|reflexivity|vm_compute; reflexivity]. }
  reflexivity.
Qed.

(* C20: a terminated clause of more than three literals in the part that is read makes the reader, and
   the program, fail; whatever follows it *)
Lemma p_C20_wide_clause_rejected : forall h ls rest toks pre c post,
  Forall one_line (h :: ls ++ rest) -> dimacs_body toks ls ->
  toks = pre ++ c ++ 0 :: post -> (pre = [] \/ exists p, pre = p ++ [0]) -> ~ In 0 c -> (3 < List.length c)%nat ->
  get_cnf_set (InDimacs (file_of (h :: ls ++ rest))) = Err OtherException /\
  forall hash insert_fails fuel lf o a db,
    main_run hash insert_fails fuel lf o a (InDimacs (file_of (h :: ls ++ rest))) db = Ok (Failed OtherException).
Proof.
  intros h ls rest toks pre c post Hl Hb -> Hp Hc Hw.
  assert (E : get_cnf_set (InDimacs (file_of (h :: ls ++ rest))) = Err OtherException).
  { rewrite read_file by auto. rewrite (body_read _ _ Hb), feed_wide by auto. auto. }
  split; auto. intros. unfold main_run, main_with. rewrite E. auto.
Qed.
(* C20: for any file content whatsoever, only the last clause read can have more than three literals *)
Lemma p_C20_only_last_wide : forall content s, get_cnf_set (InDimacs content) = Ok s ->
  exists front back, raws s = front ++ back /\ (List.length back <= 1)%nat /\
    forall c, In c front -> (List.length c <= 3)%nat.
Proof.
  intros content s. cbn [get_cnf_set]. unfold parse_dimacs. intros H. apply bind_ok in H as ([cl done] & E & H).
  apply dimacs_lines_narrow in E; [|constructor].
  assert (N : forall l i, Forall (fun c => (List.length c <= 3)%nat) l ->
    forall c, In c (filter undecided (numbered i l)) -> (List.length (raw c) <= 3)%nat).
  { clear. induction l as [|d l IH]; intros i Hl c; cbn [numbered filter]; [intros []|]. inversion Hl; subst.
    destruct (undecided _); [intros [<-|Hc]|intros Hc]; eauto. cbn [raw with_index].
    destruct (clause_init_raw_nil_or d) as [-> | ->]; simpl; [lia|].
    rewrite (Permutation_length (sort_abs_Perm d)). auto. }
  assert (A : forall l, clauses (add_numbered empty_set 1 l) = filter undecided (numbered 1 l)).
  { intros l. rewrite add_numbered_fold.
    destruct (fold_add_nofalse (numbered 1 l) empty_set) as [A B]; simpl; auto; try congruence. apply numbered_nofalse. }
  injection H as <-. unfold raws. rewrite A.
  assert (S : forall l x i, numbered i (l ++ [x]) = numbered i l ++ numbered (i + Z.of_nat (List.length l)) [x]).
  { clear. induction l as [|d l IH]; intros x i; cbn [app numbered].
    - simpl. rewrite Z.add_0_r. auto.
    - rewrite IH. simpl List.length. replace (i + 1 + Z.of_nat (List.length l)) with (i + Z.of_nat (Datatypes.S (List.length l))) by lia. auto. }
  destruct cl as [|x cl].
  - exists (map raw (filter undecided (numbered 1 done))), []. rewrite app_nil_r. split; auto. split; [simpl; lia|].
    intros c Hc. apply in_map_iff in Hc as (d & <- & Hd). eauto.
  - rewrite S, filter_app, map_app. eexists. eexists. split; [reflexivity|]. split.
    + cbn [numbered filter]. destruct (undecided _); simpl; lia.
    + intros c Hc. apply in_map_iff in Hc as (d & <- & Hd). eauto.
Qed.
(*EX
Example C20_example : get_cnf_set (InDimacs (file_of [[]; chars "1 2 3 4"; chars "5 0 1 0"])) = Err OtherException /\
  match get_cnf_set (InDimacs (file_of [[]; chars "1 0 1 2 3"; chars "4"])) with Ok s => raws s | _ => [] end = [[1]; [1; 2; 3; 4]].
Proof. split; reflexivity. Qed.
EX*)
