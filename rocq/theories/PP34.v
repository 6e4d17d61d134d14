(* PP34.v -- C95: the words of the command line *)
From Coq Require Import String Ascii ZArith List Bool Lia.
From Verif Require Import Spec PyBase MSet MText MQueue MDb MSolver MMain MProc MShare MCli MArgs SpecInput SpecRun SpecProc SpecShare SpecCli SpecArgs PLib PCli PArgs PP14.
Import ListNotations.
Open Scope Z_scope.

(* C95: the words are accepted exactly when they can be read as options with their values, the values are of the right form, files
   can be opened, exactly one kind of input and at most one kind of verbosity is asked for and neither help nor version is; the
   program then works with the last value given for each option and with the documented defaults for the others *)
Lemma p_C95_accepted_words : forall s ws c,
  parse_args s ws = Parsed c <-> exists ss, line_reads ws ss /\ acceptable s ss /\ configures s ss c.
Proof. exact parse_exact. Qed.

(* C95: no line can be read in two ways, and one reading gives one configuration *)
Lemma p_C95_one_reading : forall s ws ss ss' c c',
  line_reads ws ss -> line_reads ws ss' -> ss = ss' /\ (configures s ss c -> configures s ss c' -> c = c').
Proof. intros s ws ss ss' c c' A B. split; [exact (reads_fun _ _ _ A B)|apply configures_fun]. Qed.

(* C95: any other line ends the program at once: with status 0 only if a word asks for help or the version, otherwise with 2;
   -h, --help and --version before any line that can be read end it with status 0 *)
Lemma p_C95_status :
  (forall s ws k, parse_args s ws = Exits k -> k = 2 \/ (k = 0 /\ exists w, In w ws /\ asks_for_help w)) /\
  (forall s ws ss w, line_reads ws ss -> In w [txt "-h"; txt "--help"; txt "--version"] -> parse_args s (w :: ws) = Exits 0).
Proof.
  split; [exact exits_status|]. intros s ws ss w R I. destruct (reads_settings _ _ R) as (items & C & _).
  assert (W : exists o, stops o /\ written w o).
  { destruct I as [<-|[<-|[<-|[]]]]; [exists Ohelp|exists Ohelp|exists Oversion]; (split; [unfold stops; auto|apply lookup_written; vm_compute; reflexivity]). }
  destruct W as (o & S & W). assert (N : w <> txt "--") by (intros ->; apply no_two_dashes; exists o; exact W).
  unfold parse_args. rewrite (classes_opt _ _ _ _ _ N (classify_exact _ _ W)), C. cbn [option_map consume consume_word].
  destruct S as [-> | ->]; reflexivity.
Qed.

(* C95: the order of different options does not matter *)
Lemma p_C95_order : forall s ws ws' ss ss' c, line_reads ws ss -> line_reads ws' ss' -> (forall o, of_option o ss = of_option o ss') ->
  (parse_args s ws = Parsed c <-> parse_args s ws' = Parsed c).
Proof.
  intros s ws ws' ss ss' c R R' H. rewrite !parse_exact. split; intros (x & A & B & C).
  - assert (x = ss) by exact (reads_fun _ _ _ A R). subst. exists ss'. split; [exact R'|]. split; [exact (acceptable_same _ _ _ H B)|exact (configures_same _ _ _ _ H C)].
  - assert (x = ss') by exact (reads_fun _ _ _ A R'). subst. assert (H' : forall o, of_option o ss' = of_option o ss) by (intros; symmetry; apply H).
    exists ss. split; [exact R|]. split; [exact (acceptable_same _ _ _ H' B)|exact (configures_same _ _ _ _ H' C)].
Qed.

(* C95: a value that begins with a dash (a clause that starts with a negative literal, say) ends the program with status 2 when
   it is a word of its own, unless it is a negative number or contains a blank; written behind the option and an equals sign every text is taken as it is *)
Lemma p_C95_leading_dash :
  (forall s name o n t rest, written name o -> takes o n -> (0 < n)%nat ->
     begins (txt "-") t -> t <> txt "-" -> ~ negative t -> ~ In " "%char t -> parse_args s (name :: t :: rest) = Exits 2) /\
  (forall s name t, written name Ol ->
     exists c, parse_args s [name ++ "="%char :: t] = Parsed c /\ c_line c = Some t /\ c_mode c = MODE_FLO /\ c_threads c = 1).
Proof.
  split.
  - intros s name o n t rest W T N B ND NN NB. apply takes_arity in T. subst n.
    assert (NM : name <> txt "--") by (intros ->; apply no_two_dashes; exists o; exact W).
    unfold parse_args. rewrite (classes_opt _ _ _ _ _ NM (classify_exact _ _ W)).
    assert (C : classes (t :: rest) = None \/ exists c r, classes (t :: rest) = Some ((t, c) :: r) /\ c <> Arg).
    { destruct (classes (t :: rest)) as [items|] eqn:E; [|auto]. right. apply classes_cons in E as [(-> & r & ->)|(NT & r & -> & _)].
      - exists NoOpt, r. split; [reflexivity|discriminate].
      - exists (classify t), r. split; [reflexivity|]. intros K. apply (arg_value _ NT) in K. destruct K as [K|[K|(_ & [K|K])]]; contradiction. }
    destruct C as [-> |(c & r & -> & NA)]; [reflexivity|]. cbn [option_map consume consume_word].
    destruct (arity o) as [|[|k]]; [lia| |]; destruct c; try congruence; reflexivity.
  - intros s name t W. set (ss := [(Ol, [t])] : list (opt * list text)).
    assert (R : line_reads [name ++ "="%char :: t] ss).
    { apply (reads_joined _ [] Ol t [] []); [|constructor]. apply says_equals; [exact W|apply takes_arity; reflexivity]. }
    assert (V : forall o vs, In (o, vs) ss -> valid s o vs) by (intros o vs [K|[]]; injection K as <- <-; exact I).
    pose proof (cli_configures s ss (reads_arity _ _ R) V) as C. exists (cli_of s (rev ss)). split; [|split; [reflexivity|split; reflexivity]].
    apply parse_exact. exists ss. split; [exact R|]. split; [|exact C].
    assert (U : forall o, uses o ss -> o = Ol) by (intros o (vs & [K|[]]); injection K as <- _; reflexivity). constructor.
    + intros K. discriminate (U _ K).
    + intros K. discriminate (U _ K).
    + exact V.
    + exists Ol. split; [left; reflexivity|]. split; [exists [t]; left; reflexivity|]. intros o' _ K. exact (U _ K).
    + intros o o' _ _ K K'. rewrite (U _ K), (U _ K'). reflexivity.
Qed.

(* C95: with the checks the program makes itself: a run takes place exactly for the lines accepted above with a number of threads that is
   not negative, -gnm only with -gdb and factors above 1; every other line ends with status 0, 2 or 3 before anything is read *)
Lemma p_C95_program : forall s e ws db,
  (forall c, parse_args s ws = Parsed c -> one_input c /\ one_verbosity c /\
     forall fuel lf, program s e fuel lf ws db = command e fuel lf c db) /\
  ((exists c, parse_args s ws = Parsed c /\ proper c) -> forall fuel lf k, program s e fuel lf ws db <> Ok (Exit k)) /\
  (~ (exists c, parse_args s ws = Parsed c /\ proper c) ->
     exists k, (k = 0 \/ k = 2 \/ k = 3) /\ forall fuel lf, program s e fuel lf ws db = Ok (Exit k)).
Proof.
  intros s e ws db.
  assert (G : forall c, parse_args s ws = Parsed c -> one_input c /\ one_verbosity c).
  { intros c H. apply parse_exact in H as (ss & R & [NH NV V (o & I & U & UI) VB] & C). pose proof (reads_arity _ _ R) as AR.
    pose proof (cli_configures s ss AR V) as C'. assert (E : c = cli_of s (rev ss)) by exact (configures_fun _ _ _ _ C C'). destruct C as [F L _ LF D _ _ _].
    assert (GV : forall o', arity o' = 1%nat -> uses o' ss -> exists w, last_use o' [w] ss /\ valid s o' [w]).
    { intros o' A U'. destruct (value o' (rev ss)) as [w|] eqn:X.
      - exists w. apply value_last in X. split; [exact X|]. apply V. exact (last_In _ _ _ X).
      - exfalso. exact (value_missing _ _ AR A X U'). }
    assert (NONE : forall (A : Type) (x : option A), (forall a, x <> Some a) -> x = None) by (intros A [a|] K; [destruct (K a eq_refl)|reflexivity]).
    assert (L0 : o <> Ol -> c_line c = None) by (intros K; apply NONE; intros w Q; apply K; symmetry; apply UI; [cbn [In]; auto|]; apply L in Q; exact (last_uses _ _ _ Q)).
    assert (LF0 : o <> Olf -> c_line_file c = None) by (intros K; apply NONE; intros [n t] Q; apply K; symmetry; apply UI; [cbn [In]; auto|]; apply LF in Q as (w & Q & _); exact (last_uses _ _ _ Q)).
    assert (D0 : o <> Od -> c_dimacs c = None) by (intros K; apply NONE; intros [n t] Q; apply K; symmetry; apply UI; [cbn [In]; auto|]; apply D in Q as (w & Q & _); exact (last_uses _ _ _ Q)).
    split.
    - unfold one_input. destruct I as [<-|[<-|[<-|[]]]].
      + left. destruct (GV Ol eq_refl U) as (w & Q & _). apply L in Q. split; [congruence|]. split; [apply LF0; discriminate|apply D0; discriminate].
      + right. left. destruct (GV Olf eq_refl U) as (w & Q & Q2). split; [apply L0; discriminate|]. split; [|apply D0; discriminate].
        destruct (Q2 w (or_introl eq_refl)) as (n & t & O). assert (K : c_line_file c = Some (n, t)) by (apply LF; eauto). congruence.
      + right. right. destruct (GV Od eq_refl U) as (w & Q & Q2). split; [apply L0; discriminate|]. split; [apply LF0; discriminate|].
        destruct (Q2 w (or_introl eq_refl)) as (n & t & O). assert (K : c_dimacs c = Some (n, t)) by (apply D; eauto). congruence.
    - apply Forall_cons_iff in F as (F1 & F). apply Forall_cons_iff in F as (F2 & F). apply Forall_cons_iff in F as (F3 & F). apply Forall_cons_iff in F as (F4 & _).
      cbn [fst snd] in *. assert (P : forall f f' o1 o2, (f c = true <-> uses o1 ss) -> (f' c = true <-> uses o2 ss) -> In o1 [Ov; Ovv; Oq; Oqn] -> In o2 [Ov; Ovv; Oq; Oqn] -> o2 <> o1 -> ~ (f c = true /\ f' c = true)).
      { intros f f' o1 o2 A B I1 I2 N (K1 & K2). apply N. apply VB; [exact I1|exact I2|apply A; exact K1|apply B; exact K2]. }
      unfold one_verbosity. split; [|split; [|split; [|split; [|split]]]]; eapply P; try eassumption; try discriminate; cbn [In]; auto. }
  split; [|split].
  - intros c H. destruct (G c H) as (A & B). split; [exact A|]. split; [exact B|]. intros fuel lf. unfold program. rewrite H. reflexivity.
  - intros (c & H & P) fuel lf k. unfold program. rewrite H. exact (proj1 (p_C58_accepted_commands e c db) P fuel lf k).
  - intros N. unfold program. destruct (parse_args s ws) as [k|c] eqn:H.
    + exists k. split; [|reflexivity]. apply exits_status in H. tauto.
    + assert (P : ~ proper c) by (intros P; apply N; eauto). destruct (proj2 (p_C58_accepted_commands e c db) P) as (k & A & [(-> & _)|(-> & _)]); eexists; (split; [|exact A]); auto.
Qed.

(* C95: from the words to the verdict: lines that name a readable file and ask for nothing but a run *)
Lemma p_C95_verdict : forall s e ws ss db w name i F,
  line_reads ws ss -> acceptable s ss ->
  (exists content, opens s w name content /\
     (last_use Od [w] ss /\ i = InDimacs content \/ last_use Olf [w] ss /\ i = InSLF content)) ->
  (forall t n, last_use Ot [t] ss -> py_int t = Some n -> 0 <= n) -> (uses Ognm ss -> uses Ogdb ss) -> ~ uses Ofact ss -> ~ uses Omult ss ->
  represents i F -> (exists cl, In cl F /\ ~ complementary cl) ->
  exists c, parse_args s ws = Parsed c /\ configures s ss c /\ proper c /\
    (reliable e c db -> exists root out file ver files shown,
       get_cnf_set i = Ok root /\ program_ends s e ws db (Ran (Report out [] file ver) files shown) /\
       (out_sat out = true -> satisfiable F /\ exists sol, out_solution out = Some sol /\ forall asg, extends asg sol -> cnf_true asg F) /\
       (collision_free (e_hash e) (opts_of c) root -> (out_sat out = true <-> satisfiable F))).
Proof.
  intros s e ws ss db w name i F R A (content & O & IN) HT HG HF HM RP NC. pose proof (reads_arity _ _ R) as AR.
  pose proof (cli_configures s ss AR (ac_values _ _ A)) as C. set (c := cli_of s (rev ss)) in *. exists c.
  assert (P : parse_args s ws = Parsed c) by (apply parse_exact; eauto). destruct (proj1 (p_C95_program s e ws db) c P) as (OI & OV & PR).
  assert (M0 : c_multiply c = None).
  { destruct (c_multiply c) as [[x y]|] eqn:E; [|reflexivity]. exfalso. apply (cf_multiply _ _ _ C) in E as (a & b & L & _). apply HM. exact (last_uses _ _ _ L). }
  assert (FL : forall f o, In (f, o) [(c_v, Ov); (c_vv, Ovv); (c_q, Oq); (c_qn, Oqn); (c_solution_file, Os); (c_no_stats, Ons); (c_exit, Oe); (c_verify, Overify);
     (c_rdb, Ordb); (c_gdb, Ogdb); (c_gnm, Ognm); (c_sort_by_size, Oz); (c_thief, Othief); (c_factorize, Ofact)] -> (f c = true <-> uses o ss)).
  { intros f o J. exact (proj1 (Forall_forall _ _) (cf_flags _ _ _ C) (f, o) J). }
  assert (PC : proper c).
  { constructor; [exact OI|exact OV| | |].
    - destruct (proj1 (cf_threads _ _ _ C (c_threads c)) eq_refl) as [(t & L & E)|(_ & E)]; [exact (HT _ _ L E)|]. rewrite E. lia.
    - intros K. apply (FL c_gdb Ogdb); [do 9 right; left; reflexivity|]. apply HG. apply (FL c_gnm Ognm); [do 10 right; left; reflexivity|exact K].
    - intros a b K. congruence. }
  split; [exact P|]. split; [exact C|]. split; [exact PC|]. intros RE.
  assert (RF : reads_file c name i).
  { destruct IN as [(L & ->)|(L & ->)]; [right|left]; exists content; (split; [|reflexivity]); [apply (cf_dimacs _ _ _ C)|apply (cf_line_file _ _ _ C)]; eauto. }
  assert (F0 : c_factorize c = false).
  { destruct (c_factorize c) eqn:E; [|reflexivity]. exfalso. apply HF. apply (FL c_factorize Ofact); [do 13 right; left; reflexivity|exact E]. }
  destruct (p_C59_program_verdict e c db name i F PC RF RP NC RE F0 M0) as (root & out & file & ver & wr & shown & G & (N & E) & S1 & _ & S2).
  exists root, out, file, ver, wr, shown. split; [exact G|]. split; [exists N; intros fuel lf H1 H2; rewrite PR; exact (E fuel lf H1 H2)|]. split; [|exact S2].
  intros K. destruct (S1 K) as (SF & sol & SO & _ & SA & _). split; [exact SF|]. exists sol. auto.
Qed.

(*EX
Definition some_files : surroundings := mkSurroundings (fun w => if text_eqb w (txt "in.cnf") then Some (txt "1 2 0") else None) (txt "").
Definition a_line : list text := [txt "-sed"; txt "in.cnf"; txt "--mo=lou"; txt "-t3"; txt "-m"; txt "lo"; txt "--use-g"; txt "-g"; txt "-"].
Definition its_settings : list (opt * list text) :=
  [(Os, []); (Oe, []); (Od, [txt "in.cnf"]); (Om, [txt "lou"]); (Ot, [txt "3"]); (Om, [txt "lo"]); (Ogdb, []); (Og, [txt "-"])].
(* letters together, abbreviations, values in the word and behind it; the last -m counts *)
Example ex_C95_a_line : line_reads a_line its_settings /\ acceptable some_files its_settings /\
  exists c, parse_args some_files a_line = Parsed c /\ c_mode c = MODE_LO /\ c_threads c = 3 /\ c_dimacs c = Some (txt "in.cnf", txt "1 2 0") /\
    c_solution_file c = true /\ c_exit c = true /\ c_gdb c = true /\ c_graph c = Some (txt "-") /\ c_v c = false.
Proof.
  assert (K : exists items, classes a_line = Some items /\ settings_of items = Some its_settings) by (eexists; split; vm_compute; reflexivity).
  destruct K as (items & A & B). pose proof (settings_reads _ _ _ A B) as R.
  assert (P : exists c, parse_args some_files a_line = Parsed c /\ c_mode c = MODE_LO /\ c_threads c = 3 /\ c_dimacs c = Some (txt "in.cnf", txt "1 2 0") /\
    c_solution_file c = true /\ c_exit c = true /\ c_gdb c = true /\ c_graph c = Some (txt "-") /\ c_v c = false).
  { eexists. split; [vm_compute; reflexivity|]. vm_compute. tauto. }
  split; [exact R|]. split; [|exact P]. destruct P as (c & P & _). apply p_C95_accepted_words in P as (ss & R' & AC & _). rewrite (reads_fun _ _ _ R R'). exact AC.
Qed.
(* another order of the same options *)
Definition another_line : list text := [txt "--threads"; txt "3"; txt "-g-"; txt "-m=lou"; txt "-gdb"; txt "-e"; txt "-mlo"; txt "--output-s"; txt "-d=in.cnf"].
Example ex_C95_another_order : exists ss, line_reads another_line ss /\ (forall o, of_option o ss = of_option o its_settings) /\
  parse_args some_files another_line = parse_args some_files a_line.
Proof.
  assert (K : exists items ss, classes another_line = Some items /\ settings_of items = Some ss /\ forall o, of_option o ss = of_option o its_settings).
  { eexists; eexists; split; [vm_compute; reflexivity|]. split; [vm_compute; reflexivity|]. intros o. destruct o; vm_compute; reflexivity. }
  destruct K as (items & ss & A & B & C). exists ss. split; [exact (settings_reads _ _ _ A B)|]. split; [exact C|]. vm_compute. reflexivity.
Qed.
(* lines that are not accepted: two inputs, two kinds of verbosity, an ambiguous abbreviation, a missing value, a clause with a leading
   dash, an unknown file, no input; and the help text, also where it is part of letters that make no sense *)
Example ex_C95_refused : forall ws k, In (ws, k) [([txt "-d"; txt "in.cnf"; txt "-la"], 2); ([txt "-la"; txt "-v"; txt "-q"], 2); ([txt "-la"; txt "--ver"], 2); ([txt "-la"; txt "-t"], 2);
  ([txt "-l"; txt "-1|2"], 2); ([txt "-d"; txt "x"], 2); ([txt "-v"], 2); ([txt "-la"; txt "--hel"], 0); ([txt "-eh?"], 0); ([txt "-la"; txt "--vers"; txt "-v"], 0)] ->
  parse_args some_files ws = Exits k.
Proof. intros ws k H. repeat (destruct H as [H|H]; [injection H as <- <-; vm_compute; reflexivity|]). destruct H. Qed.
Example ex_C95_dash : negative (txt "-12") /\ ~ negative (txt "-1|2") /\ value_word (txt "-1|2 & 3") /\ ~ value_word (txt "-1|2").
Proof.
  split; [apply negative_spec; vm_compute; reflexivity|]. split; [intros K; apply negative_spec in K; vm_compute in K; discriminate K|].
  split; [apply arg_value; [discriminate|vm_compute; reflexivity]|]. intros K. apply arg_value in K; [vm_compute in K; discriminate K|discriminate].
Qed.
From Verif Require Import PP10 Properties5.
(* the hypotheses of the verdict: -lf f -e -t 3 -gdb *)
Definition f_file : surroundings := mkSurroundings (fun w => if text_eqb w (txt "f") then Some (txt "1|2&-1" ++ []) else None) (txt "").
Definition f_line : list text := [txt "-lf"; txt "f"; txt "-e"; txt "-t"; txt "3"; txt "-gdb"].
Definition f_settings : list (opt * list text) := [(Olf, [txt "f"]); (Oe, []); (Ot, [txt "3"]); (Ogdb, [])].
Example ex_C95_verdict : line_reads f_line f_settings /\ acceptable f_file f_settings /\
  opens f_file (txt "f") (txt "f") (txt "1|2&-1" ++ []) /\ last_use Olf [txt "f"] f_settings /\ ~ uses Ofact f_settings /\ ~ uses Omult f_settings /\
  represents (InSLF (txt "1|2&-1" ++ [])) [[1; 2]; [-1]] /\ (exists cl, In cl [[1; 2]; [-1]] /\ ~ complementary cl) /\
  exists c, parse_args f_file f_line = Parsed c /\ reliable plain_env c [] /\
  exists out, program f_file plain_env 400 400 f_line [] = Ok (Ran (Report out [] None None) [] []) /\ out_sat out = true.
Proof.
  assert (K : exists items, classes f_line = Some items /\ settings_of items = Some f_settings) by (eexists; split; vm_compute; reflexivity).
  destruct K as (items & A & B). pose proof (settings_reads _ _ _ A B) as R.
  assert (P : exists c, parse_args f_file f_line = Parsed c /\ c_threads c = 3 /\ c_gnm c = false) by (eexists; split; [vm_compute; reflexivity|split; reflexivity]).
  destruct P as (c & P & T & G). split; [exact R|]. split; [apply p_C95_accepted_words in P as (ss & R' & AC & _); rewrite (reads_fun _ _ _ R R'); exact AC|].
  split; [left; split; [discriminate|split; reflexivity]|].
  split; [exists [], [(Oe, []); (Ot, [txt "3"]); (Ogdb, [])]; split; [reflexivity|]; intros (vs & K); repeat (destruct K as [K|K]; [discriminate K|]); destruct K|].
  split; [intros (vs & K); repeat (destruct K as [K|K]; [discriminate K|]); destruct K|].
  split; [intros (vs & K); repeat (destruct K as [K|K]; [discriminate K|]); destruct K|].
  split; [exact (proj1 C47_example)|]. split; [exact (proj1 (proj2 C47_example))|]. exists c. split; [exact P|]. split.
  - split; [reflexivity|]. split; [intros k; exists 0%nat; reflexivity|]. split; [rewrite T; apply round_robin_fair|]. split; [auto|]. rewrite G. discriminate.
  - eexists. split; [vm_compute; reflexivity|reflexivity].
Qed.
EX*)
