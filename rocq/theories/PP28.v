(* PP28.v -- C89: external SAT solvers *)
From Coq Require Import String Ascii ZArith List Bool Lia.
From Verif Require Import Spec SpecInput SpecFile SpecTool PyBase MSet MText MCnf MFile MGraph MSat SpecCnf SpecSat PText PReader PLib PCnf1 PCnf2 PCnf3 PFam1 PFam4 PFile1 PFile2 PFile6 PFile7 PSat1.
Import ListNotations.
Open Scope Z_scope.

(* C89: with a correct solver that has the interface of minisat, is_satisfiable answers True exactly for the satisfiable
   formulas, and the witness then satisfies every clause; the witness is None for unsatisfiable formulas, and for
   formulas without clauses of which the solver assigns no variable *)
Lemma p_C89_right : forall m header c cmd w ws sameas, made c -> called m cmd w ws sameas minisat_style -> right_minisat (mc_file m (w :: ws)) ->
  exists b wit, is_satisfiable m header c (Some cmd) sameas = Ok (b, wit) /\ (b = true <-> has_model (cnf_clauses c)) /\
    match wit with
    | Some d => b = true /\ d <> [] /\ good_witness c d
    | None => b = false \/ cnf_clauses c = []
    end.
Proof.
  intros m h c cmd w ws sa M C R. apply made_well in M. rewrite (minisat_called _ _ _ _ _ _ _ C). destruct C as (SW & _).
  assert (E : split_ws cmd = w :: ws) by (rewrite <- (app_nil_r cmd); apply several_split; [auto|constructor]).
  rewrite <- E in R. pose proof (same_satisfiable c M) as SS.
  destruct (R _ _ _ (handed h c M)) as [[A B]|(zs & A & D & B & H)].
  - exists false, None. split; [apply answer_unsat; auto|]. split; [|auto]. split; [discriminate|]. intros K. apply SS in K. contradiction.
  - exists true, (match zs with [] => None | _ => Some (map (item c) zs) end). split; [apply answer_sat; auto; apply M|]. split.
    + split; auto. intros _. apply SS. exact (literals_model _ _ zs D B H).
    + destruct zs as [|z zs].
      * right. unfold cnf_clauses. destruct (cn_clauses c) as [|cl F]; [reflexivity|]. destruct (H cl (or_introl eq_refl)) as (l & _ & []).
      * split; [reflexivity|]. split; [discriminate|]. apply items_good; auto.
Qed.

(* C89: the result file decides, the solver is not checked: UNSAT gives False, other words than SAT and UNSAT and an empty
   file RuntimeError, after SAT a word that is no number ValueError and a number out of range IndexError; when the
   command cannot be run UnboundLocalError *)
Lemma p_C89_result_file : forall m header c cmd w ws sameas, called m cmd w ws sameas minisat_style ->
  let run := mc_file m (w :: ws) (dimacs true header None c) in
  (forall content, run = Some content -> first_word (chars "UNSAT") content -> is_satisfiable m header c (Some cmd) sameas = Ok (false, None)) /\
  (forall content v, run = Some content -> first_word v content -> v <> chars "SAT" -> v <> chars "UNSAT" ->
     is_satisfiable m header c (Some cmd) sameas = Err RuntimeError) /\
  (forall content, run = Some content -> Forall white content -> is_satisfiable m header c (Some cmd) sameas = Err RuntimeError) /\
  (forall vs line f, run = Some (chars "SAT" ++ [nl] ++ line) -> several_words vs line -> In f vs -> malformed f ->
     is_satisfiable m header c (Some cmd) sameas = Err ValueError) /\
  (forall lits, run = Some (sat_file lits) -> (forall l, In l lits -> l <> 0) -> (exists l, In l lits /\ Z.of_nat (List.length (cnf_variables c)) < Z.abs l) ->
     is_satisfiable m header c (Some cmd) sameas = Err IndexError) /\
  (run = None -> is_satisfiable m header c (Some cmd) sameas = Err UnboundLocalError).
Proof.
  intros m h c cmd w ws sa C run. rewrite (minisat_called _ _ _ _ _ _ _ C). destruct C as (SW & _). unfold satsolve_filein_fileout.
  rewrite (words_of _ _ _ SW). repeat apply conj; unfold run; clear run.
  - intros t R F. rewrite R. cbv iota beta. apply first_split in F as (vs & E). rewrite E. reflexivity.
  - intros t v R F N1 N2. rewrite R. cbv iota beta. apply first_split in F as (vs & E). rewrite E.
    destruct (text_eqb_spec v (txt "SAT")) as [E1|_]; [exfalso; apply N1; exact E1|]. destruct (text_eqb_spec v (txt "UNSAT")) as [E1|_]; [exfalso; apply N2; exact E1|]. reflexivity.
  - intros t R F. rewrite R. cbv iota beta. rewrite (no_words t F). reflexivity.
  - intros vs line f R V I M. rewrite R. cbv iota beta. unfold split_ws. cbn [app]. change (chars "SAT" ++ nl :: line) with (txt "SAT" ++ nl :: line). rewrite split_ws_word_sp; [|split; [discriminate|]|reflexivity].
    + rewrite text_eqb_refl. fold (split_ws line). rewrite <- (app_nil_r line), (several_split vs line []); [|exact V|constructor].
      rewrite (integers_bad _ f); [reflexivity| |exact M]. apply filter_In. split; auto. destruct (text_eqb_spec f (txt "0")) as [->|]; [|reflexivity].
      exfalso. destruct M as [M|(x & Hx & M & _)]; [apply (M "0"%char); [left; reflexivity|]|cbn in Hx; destruct Hx as [<-|[]]; apply M]; exists 0%nat; split; auto; lia.
    + intros x Hx. cbn in Hx. destruct Hx as [<-|[<-|[<-|[]]]]; vm_compute; lia.
  - intros zs R Z B. rewrite R. cbv iota beta. rewrite sat_words, text_eqb_refl, (kept_words zs Z), integers_str. cbn [bind]. rewrite (items_bad c zs B). reflexivity.
  - intros R. rewrite R. reflexivity.
Qed.
(* C89: every solver called with the DIMACS conventions ends in RuntimeError, whatever it answers (under Python 3 its output
   is bytes, compared with text); so does a command that does not start *)
Lemma p_C89_dimacs_style : forall m header c cmd w ws sameas,
  (called m cmd w ws sameas dimacs_style -> is_satisfiable m header c (Some cmd) sameas = Err RuntimeError) /\
  (several_words (w :: ws) cmd -> mc_starts m w = false -> (forall s, sameas = Some s -> In s solvers_in_order) ->
     is_satisfiable m header c (Some cmd) sameas = Err RuntimeError).
Proof.
  intros m h c cmd w ws sa. split.
  - intros (SW & St & K). assert (K' : exists s, In s dimacs_style /\ (sa = None /\ s = w \/ sa = Some s)) by (destruct K as [[-> K]|(s & -> & K)]; eauto).
    destruct K' as (s & I & K'). destruct (dimacs_interface s I) as (f & E & R).
    rewrite (called_runs m h c cmd w ws sa s f); [|apply words_of; auto|auto|apply style_supported; auto|auto]. rewrite St. apply R.
  - intros SW St K. apply words_of in SW. unfold is_satisfiable. rewrite SW.
    assert (X : match sa with Some s => negb (supported s) | None => false end = false).
    { destruct sa as [s|]; [|reflexivity]. specialize (K s eq_refl). apply supported_spec in K. rewrite K. reflexivity. }
    rewrite X. destruct (negb (supported w) && _) eqn:Y; [reflexivity|]. 
    assert (G : supported (match sa with Some s => s | None => w end) = true).
    { destruct sa as [s|]; [apply supported_spec; auto|]. rewrite andb_true_r in Y. apply negb_false_iff in Y. exact Y. }
    destruct (supported_interface _ G) as (f & E). rewrite (try_one m h c sa cmd w ws _ f [] SW eq_refl E), St. reflexivity.
Qed.
(* C89: without a command, or with one that has no words, the known solvers are tried in their order and the first that
   starts is used, whether or not it works; RuntimeError when none starts *)
Lemma p_C89_default : forall m header c cmd sameas, (cmd = None \/ exists t, cmd = Some t /\ Forall white t) -> (forall s, sameas = Some s -> In s solvers_in_order) ->
  ((forall s, In s solvers_in_order -> mc_starts m s = false) -> is_satisfiable m header c cmd sameas = Err RuntimeError) /\
  (forall before s after, solvers_in_order = before ++ s :: after -> (forall x, In x before -> mc_starts m x = false) -> mc_starts m s = true ->
     is_satisfiable m header c cmd sameas = is_satisfiable m header c (Some s) None /\
     (s <> chars "minisat" -> is_satisfiable m header c cmd sameas = Err RuntimeError)).
Proof.
  intros m h c cmd sa C K.
  assert (E : is_satisfiable m h c cmd sa = try_solvers m h c None solvers_in_order).
  { unfold is_satisfiable. assert (X : match sa with Some s => negb (supported s) | None => false end = false).
    { destruct sa as [s|]; [|reflexivity]. specialize (K s eq_refl). apply supported_spec in K. rewrite K. reflexivity. }
    rewrite X. destruct C as [->|(t & -> & F)]; [reflexivity|]. rewrite (no_words t F). reflexivity. }
  assert (G : forall before after, incl before solvers_in_order -> (forall x, In x before -> mc_starts m x = false) ->
    try_solvers m h c None (before ++ after) = try_solvers m h c None after).
  { induction before as [|s before IH]; intros after I N; [reflexivity|]. cbn [app].
    destruct (solver_name s) as (W & f & F); [apply I; left; auto|]. rewrite (try_one m h c None s s [] s f _ W eq_refl F), N by (left; auto). apply IH; [intros x Hx; apply I; right; auto|].
    intros; apply N; right; auto. }
  split.
  - intros N. rewrite E, <- (app_nil_r solvers_in_order), G by (auto; apply incl_refl). reflexivity.
  - intros before s after S N St. assert (Is : In s solvers_in_order) by (rewrite S; apply in_or_app; right; left; auto).
    destruct (solver_name s Is) as (W & f & F).
    assert (R : is_satisfiable m h c cmd sa = f m h c s).
    { rewrite E, S, G; [|rewrite S; apply incl_appl, incl_refl|auto]. rewrite (try_one m h c None s s [] s f _ W eq_refl F), St. reflexivity. }
    split.
    + rewrite R. symmetry. rewrite (called_runs m h c s s [] None s f); auto; [rewrite St; reflexivity|apply supported_spec; auto].
    + intros NM. rewrite R. destruct (dimacs_interface s) as (g & Eg & Rg); [|assert (f = g) by congruence; subst; apply Rg].
      clear - Is NM. cbn [solvers_in_order map In] in Is. unfold dimacs_style. cbn [map In].
      repeat (destruct Is as [<-|Is]; [first [exfalso; apply NM; reflexivity|auto 12]|]). destruct Is.
Qed.
(* C89: a name for sameas that is not supported is a ValueError, a command that is not supported without sameas RuntimeError;
   have_satsolver tells whether one of the listed solvers starts *)
Lemma p_C89_refused :
  (forall m header c cmd s, ~ In s solvers_in_order -> is_satisfiable m header c cmd (Some s) = Err ValueError) /\
  (forall m header c cmd w ws, several_words (w :: ws) cmd -> ~ In w solvers_in_order -> is_satisfiable m header c (Some cmd) None = Err RuntimeError) /\
  (forall m l, have_satsolver m (Some l) = true <-> exists s, In s l /\ mc_starts m s = true) /\
  (forall m, have_satsolver m None = have_satsolver m (Some solvers_in_order)) /\
  supported_satsolvers = solvers_in_order.
Proof.
  assert (X : forall s, ~ In s solvers_in_order -> supported s = false).
  { intros s N. destruct (supported s) eqn:E; auto. apply supported_spec in E. contradiction. }
  split; [|split; [|split; [|split]]].
  - intros m h c cmd s N. unfold is_satisfiable. rewrite (X s N). reflexivity.
  - intros m h c cmd w ws SW N. unfold is_satisfiable. rewrite (words_of _ _ _ SW), (X w N). reflexivity.
  - intros m l. unfold have_satsolver. apply existsb_exists.
  - reflexivity.
  - reflexivity.
Qed.
(*EX
(* a machine on which only minisat is installed, and works *)
Definition box : machine := mkMachine (text_eqb (txt "minisat")) (fun _ => exhaustive) (fun _ _ => None) (fun _ _ => None).
Definition not_both : cnf := mkCnf [txt "x"; txt "y"] [[1; 2]; [-1; -2]; [-1]].
Lemma not_both_made : made not_both.
Proof.
  assert (E : cnf_of [[(true, txt "x"); (true, txt "y")]; [(false, txt "x"); (false, txt "y")]; [(false, txt "x")]] = Ok not_both) by (vm_compute; reflexivity).
  cbn [cnf_of] in E. unfold cnf_of in E. cbn [add_all] in E. apply bind_ok in E as (c1 & E1 & E). apply bind_ok in E as (c2 & E2 & E). apply bind_ok in E as (c3 & E3 & E). injection E as <-.
  apply (made_clause c2 false false true false [(false, txt "x")]); auto. apply (made_clause c1 false false true false [(false, txt "x"); (false, txt "y")]); auto.
  apply (made_clause empty_cnf false false true false [(true, txt "x"); (true, txt "y")]); auto. constructor.
Qed.
Example C89_called : called box (txt "minisat -no-pre") (txt "minisat") [txt "-no-pre"] None minisat_style.
Proof.
  split; [|split; [reflexivity|left; split; [reflexivity|left; reflexivity]]]. apply (words_cons [] (txt "minisat") [txt "-no-pre"] " "%char (txt "-no-pre")); [constructor| |left; reflexivity|].
  - split; [discriminate|]. intros c H. cbn in H. repeat (destruct H as [<-|H]; [vm_compute; lia|]). destruct H.
  - apply (words_last [] (txt "-no-pre")); [constructor|]. split; [discriminate|]. intros c H. cbn in H. repeat (destruct H as [<-|H]; [vm_compute; lia|]). destruct H.
Qed.
Example C89_solver : right_minisat (mc_file box [txt "minisat"; txt "-no-pre"]).
Proof. exact exhaustive_right. Qed.
Example C89_answer : is_satisfiable box (txt "A header" ++ [nl]) not_both (Some (txt "minisat -no-pre")) None =
  Ok (true, Some [(Some (txt "x"), false); (Some (txt "y"), true)]).
Proof. vm_compute. reflexivity. Qed.
(* the same machine with lingeling also installed: its correct answer is not understood, and hides minisat *)
Definition bigger_box : machine := mkMachine (fun s => text_eqb s (txt "minisat") || text_eqb s (txt "lingeling")) (fun _ => exhaustive)
  (fun _ _ => Some (txt "s SATISFIABLE" ++ [nl] ++ txt "v -1 2 0" ++ [nl])) (fun _ _ => None).
Example C89_lingeling : is_satisfiable bigger_box [] not_both (Some (txt "lingeling")) None = Err RuntimeError /\
  is_satisfiable box [] not_both None None = Ok (true, Some [(Some (txt "x"), false); (Some (txt "y"), true)]) /\
  is_satisfiable bigger_box [] not_both None None = Err RuntimeError.
Proof. split; [|split]; vm_compute; reflexivity. Qed.
EX*)
