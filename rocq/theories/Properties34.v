(* Properties34.v -- generated by tools/genprops.py from PP34.v: property theorems, their
   assumptions, and examples showing that the hypotheses are met.  Proofs are in PP34.v. *)
From Coq Require Import String Ascii ZArith List Bool Lia.
From Verif Require Import Spec PyBase MSet MText MQueue MDb MSolver MMain MProc MShare MCli MArgs SpecInput SpecRun SpecProc SpecShare SpecCli SpecArgs PLib PCli PArgs PP14.
Import ListNotations.
From Verif Require Import PP34.
Open Scope Z_scope.

(* C95: the words are accepted exactly when they can be read as options with their values, the values are of the right form, files
   can be opened, exactly one kind of input and at most one kind of verbosity is asked for and neither help nor version is; the
   program then works with the last value given for each option and with the documented defaults for the others *)
Theorem C95_accepted_words : forall s ws c,
  parse_args s ws = Parsed c <-> exists ss, line_reads ws ss /\ acceptable s ss /\ configures s ss c.
Proof. exact p_C95_accepted_words. Qed.
Print Assumptions C95_accepted_words.

(* C95: no line can be read in two ways, and one reading gives one configuration *)
Theorem C95_one_reading : forall s ws ss ss' c c',
  line_reads ws ss -> line_reads ws ss' -> ss = ss' /\ (configures s ss c -> configures s ss c' -> c = c').
Proof. exact p_C95_one_reading. Qed.
Print Assumptions C95_one_reading.

(* C95: any other line ends the program at once: with status 0 only if a word asks for help or the version, otherwise with 2;
   -h, --help and --version before any line that can be read end it with status 0 *)
Theorem C95_status :
  (forall s ws k, parse_args s ws = Exits k -> k = 2 \/ (k = 0 /\ exists w, In w ws /\ asks_for_help w)) /\
  (forall s ws ss w, line_reads ws ss -> In w [txt "-h"; txt "--help"; txt "--version"] -> parse_args s (w :: ws) = Exits 0).
Proof. exact p_C95_status. Qed.
Print Assumptions C95_status.

(* C95: the order of different options does not matter *)
Theorem C95_order : forall s ws ws' ss ss' c, line_reads ws ss -> line_reads ws' ss' -> (forall o, of_option o ss = of_option o ss') ->
  (parse_args s ws = Parsed c <-> parse_args s ws' = Parsed c).
Proof. exact p_C95_order. Qed.
Print Assumptions C95_order.

(* C95: a value that begins with a dash (a clause that starts with a negative literal, say) ends the program with status 2 when
   it is a word of its own, unless it is a negative number or contains a blank; written behind the option and an equals sign every text is taken as it is *)
Theorem C95_leading_dash :
  (forall s name o n t rest, written name o -> takes o n -> (0 < n)%nat ->
     begins (txt "-") t -> t <> txt "-" -> ~ negative t -> ~ In " "%char t -> parse_args s (name :: t :: rest) = Exits 2) /\
  (forall s name t, written name Ol ->
     exists c, parse_args s [name ++ "="%char :: t] = Parsed c /\ c_line c = Some t /\ c_mode c = MODE_FLO /\ c_threads c = 1).
Proof. exact p_C95_leading_dash. Qed.
Print Assumptions C95_leading_dash.

(* C95: with the checks the program makes itself: a run takes place exactly for the lines accepted above with a number of threads that is
   not negative, -gnm only with -gdb and factors above 1; every other line ends with status 0, 2 or 3 before anything is read *)
Theorem C95_program : forall s e ws db,
  (forall c, parse_args s ws = Parsed c -> one_input c /\ one_verbosity c /\
     forall fuel lf, program s e fuel lf ws db = command e fuel lf c db) /\
  ((exists c, parse_args s ws = Parsed c /\ proper c) -> forall fuel lf k, program s e fuel lf ws db <> Ok (Exit k)) /\
  (~ (exists c, parse_args s ws = Parsed c /\ proper c) ->
     exists k, (k = 0 \/ k = 2 \/ k = 3) /\ forall fuel lf, program s e fuel lf ws db = Ok (Exit k)).
Proof. exact p_C95_program. Qed.
Print Assumptions C95_program.

(* C95: from the words to the verdict: lines that name a readable file and ask for nothing but a run *)
Theorem C95_verdict : forall s e ws ss db w name i F,
  line_reads ws ss -> acceptable s ss ->
  (exists content, opens s w name content /\
     (last_use Od [w] ss /\ i = InDimacs content \/ last_use Olf [w] ss /\ i = InSLF content)) ->
  (forall t n, last_use Ot [t] ss -> py_int t = Some n -> 0 <= n) -> (uses Ognm ss -> uses Ogdb ss) -> ~ uses Ofact ss -> ~ uses Omult ss ->
  represents i F -> (exists cl, In cl F /\ ~ complementary cl) ->
  exists c, parse_args s ws = Parsed c /\ configures s ss c /\ proper c /\
    (reliable e c db -> exists root out file ver files shown,
       get_cnf_set i = Ok root /\ program_ends s e ws db (Ran (Report out [] file ver) files shown) /\
       (out_sat out = true -> satisfiable F /\ exists sol, out_solution out = Some sol /\ forall asg, extends asg sol -> cnf_true asg F) /\
       (collision_free (e_hash e) (opts_of c) root -> (out_sat out = true <-> satisfiable F))).
Proof. exact p_C95_verdict. Qed.
Print Assumptions C95_verdict.

Definition some_files : surroundings := mkSurroundings (fun w => if text_eqb w (txt "in.cnf") then Some (txt "1 2 0") else None) (txt "").
Definition a_line : list text := [txt "-sed"; txt "in.cnf"; txt "--mo=lou"; txt "-t3"; txt "-m"; txt "lo"; txt "--use-g"; txt "-g"; txt "-"].
Definition its_settings : list (opt * list text) :=
  [(Os, []); (Oe, []); (Od, [txt "in.cnf"]); (Om, [txt "lou"]); (Ot, [txt "3"]); (Om, [txt "lo"]); (Ogdb, []); (Og, [txt "-"])].
(* letters together, abbreviations, values in the word and behind it; the last -m counts *)
Example ex_C95_a_line : line_reads a_line its_settings /\ acceptable some_files its_settings /\
  exists c, parse_args some_files a_line = Parsed c /\ c_mode c = MODE_LO /\ c_threads c = 3 /\ c_dimacs c = Some (txt "in.cnf", txt "1 2 0") /\
    c_solution_file c = true /\ c_exit c = true /\ c_gdb c = true /\ c_graph c = Some (txt "-") /\ c_v c = false.
Proof.
  assert (K : exists items, classes a_line = Some items /\ settings_of items = Some its_settings) by (eexists; split; vm_compute; reflexivity).
  destruct K as (items & A & B). pose proof (settings_reads _ _ _ A B) as R.
  assert (P : exists c, parse_args some_files a_line = Parsed c /\ c_mode c = MODE_LO /\ c_threads c = 3 /\ c_dimacs c = Some (txt "in.cnf", txt "1 2 0") /\
    c_solution_file c = true /\ c_exit c = true /\ c_gdb c = true /\ c_graph c = Some (txt "-") /\ c_v c = false).
  { eexists. split; [vm_compute; reflexivity|]. vm_compute. tauto. }
  split; [exact R|]. split; [|exact P]. destruct P as (c & P & _). apply p_C95_accepted_words in P as (ss & R' & AC & _). rewrite (reads_fun _ _ _ R R'). exact AC.
Qed.
(* another order of the same options *)
Definition another_line : list text := [txt "--threads"; txt "3"; txt "-g-"; txt "-m=lou"; txt "-gdb"; txt "-e"; txt "-mlo"; txt "--output-s"; txt "-d=in.cnf"].
Example ex_C95_another_order : exists ss, line_reads another_line ss /\ (forall o, of_option o ss = of_option o its_settings) /\
  parse_args some_files another_line = parse_args some_files a_line.
Proof.
  assert (K : exists items ss, classes another_line = Some items /\ settings_of items = Some ss /\ forall o, of_option o ss = of_option o its_settings).
  { eexists; eexists; split; [vm_compute; reflexivity|]. split; [vm_compute; reflexivity|]. intros o. destruct o; vm_compute; reflexivity. }
  destruct K as (items & ss & A & B & C). exists ss. split; [exact (settings_reads _ _ _ A B)|]. split; [exact C|]. vm_compute. reflexivity.
Qed.
(* lines that are not accepted: two inputs, two kinds of verbosity, an ambiguous abbreviation, a missing value, a clause with a leading
   dash, an unknown file, no input; and the help text, also where it is part of letters that make no sense *)
Example ex_C95_refused : forall ws k, In (ws, k) [([txt "-d"; txt "in.cnf"; txt "-la"], 2); ([txt "-la"; txt "-v"; txt "-q"], 2); ([txt "-la"; txt "--ver"], 2); ([txt "-la"; txt "-t"], 2);
  ([txt "-l"; txt "-1|2"], 2); ([txt "-d"; txt "x"], 2); ([txt "-v"], 2); ([txt "-la"; txt "--hel"], 0); ([txt "-eh?"], 0); ([txt "-la"; txt "--vers"; txt "-v"], 0)] ->
  parse_args some_files ws = Exits k.
Proof. intros ws k H. repeat (destruct H as [H|H]; [injection H as <- <-; vm_compute; reflexivity|]). destruct H. Qed.
Example ex_C95_dash : negative (txt "-12") /\ ~ negative (txt "-1|2") /\ value_word (txt "-1|2 & 3") /\ ~ value_word (txt "-1|2").
Proof.
  split; [apply negative_spec; vm_compute; reflexivity|]. split; [intros K; apply negative_spec in K; vm_compute in K; discriminate K|].
  split; [apply arg_value; [discriminate|vm_compute; reflexivity]|]. intros K. apply arg_value in K; [vm_compute in K; discriminate K|discriminate].
Qed.
From Verif Require Import PP10 Properties5.
(* the hypotheses of the verdict: -lf f -e -t 3 -gdb *)
Definition f_file : surroundings := mkSurroundings (fun w => if text_eqb w (txt "f") then Some (txt "1|2&-1" ++ []) else None) (txt "").
Definition f_line : list text := [txt "-lf"; txt "f"; txt "-e"; txt "-t"; txt "3"; txt "-gdb"].
Definition f_settings : list (opt * list text) := [(Olf, [txt "f"]); (Oe, []); (Ot, [txt "3"]); (Ogdb, [])].
Example ex_C95_verdict : line_reads f_line f_settings /\ acceptable f_file f_settings /\
  opens f_file (txt "f") (txt "f") (txt "1|2&-1" ++ []) /\ last_use Olf [txt "f"] f_settings /\ ~ uses Ofact f_settings /\ ~ uses Omult f_settings /\
  represents (InSLF (txt "1|2&-1" ++ [])) [[1; 2]; [-1]] /\ (exists cl, In cl [[1; 2]; [-1]] /\ ~ complementary cl) /\
  exists c, parse_args f_file f_line = Parsed c /\ reliable plain_env c [] /\
  exists out, program f_file plain_env 400 400 f_line [] = Ok (Ran (Report out [] None None) [] []) /\ out_sat out = true.
Proof.
  assert (K : exists items, classes f_line = Some items /\ settings_of items = Some f_settings) by (eexists; split; vm_compute; reflexivity).
  destruct K as (items & A & B). pose proof (settings_reads _ _ _ A B) as R.
  assert (P : exists c, parse_args f_file f_line = Parsed c /\ c_threads c = 3 /\ c_gnm c = false) by (eexists; split; [vm_compute; reflexivity|split; reflexivity]).
  destruct P as (c & P & T & G). split; [exact R|]. split; [apply p_C95_accepted_words in P as (ss & R' & AC & _); rewrite (reads_fun _ _ _ R R'); exact AC|].
  split; [left; split; [discriminate|split; reflexivity]|].
  split; [exists [], [(Oe, []); (Ot, [txt "3"]); (Ogdb, [])]; split; [reflexivity|]; intros (vs & K); repeat (destruct K as [K|K]; [discriminate K|]); destruct K|].
  split; [intros (vs & K); repeat (destruct K as [K|K]; [discriminate K|]); destruct K|].
  split; [intros (vs & K); repeat (destruct K as [K|K]; [discriminate K|]); destruct K|].
  split; [exact (proj1 C47_example)|]. split; [exact (proj1 (proj2 C47_example))|]. exists c. split; [exact P|]. split.
  - split; [reflexivity|]. split; [intros k; exists 0%nat; reflexivity|]. split; [rewrite T; apply round_robin_fair|]. split; [auto|]. rewrite G. discriminate.
  - eexists. split; [vm_compute; reflexivity|reflexivity].
Qed.
