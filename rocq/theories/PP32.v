(* PP32.v -- C93: the LaTeX output *)
From Coq Require Import String Ascii ZArith List Bool Lia.
From Verif Require Import PyBase MText MCnf MFam MTrans MTool MLatex SpecCnf SpecLatex PLib PText PCnf2 PLatex.
Import ListNotations.
Open Scope Z_scope.

(* C93: the pages of the LaTeX text, read by a reader who knows nothing of the formula, show its clauses in order: every row is a
   clause with its literals and signs joined by \lor, \\ ends every row of a page but the last, and without the document every
   row but the first begins with \land and the clauses are in parentheses.  The names are such that a reader can tell
   them apart, and what is put verbatim into a document has no lines that look like rows *)
Lemma p_C93_read : forall export header extra (full : bool) c,
  made c -> Forall clear_name (cn_names c) -> (full = true -> quiet header /\ forall e, extra = Some e -> quiet e) ->
  exists t shown, latex export header extra full c = Ok t /\ Forall2 (shows_clauses full) (pages_of t) shown /\ concat shown = cnf_clauses c.
Proof.
  intros e h x full c M N Q. destruct (latex_defined e h x full c M) as (t & T).
  assert (F : Forall (lacks newline) (cn_names c)) by (eapply Forall_impl; [|exact N]; intros n (_ & A & _); exact A).
  destruct (latex_paged _ _ _ _ _ _ T F) as (P & Ps & Cs & E & EC & Sh & _).
  { intros E. destruct (Q E) as (A & B). split; [exact A|]. destruct x; [exact (B _ eq_refl)|exact I]. }
  exists t, (map (map (uncompress_clause (cn_names c))) Cs). split; [exact T|]. split.
  - rewrite E. clear E EC. induction Sh as [|R C Rs Cs' A _ IH]; constructor; [exact (page_shown _ _ _ _ N A)|exact IH].
  - unfold cnf_clauses. rewrite EC. symmetry. apply concat_map.
Qed.

(* C93: so formulas with the same LaTeX text have the same clauses *)
Lemma p_C93_same : forall export export' header header' extra extra' full full' c c' t,
  made c -> made c' -> Forall clear_name (cn_names c) -> Forall clear_name (cn_names c') ->
  quiet header -> quiet header' -> (forall e, extra = Some e -> quiet e) -> (forall e, extra' = Some e -> quiet e) ->
  latex export header extra full c = Ok t -> latex export' header' extra' full' c' = Ok t ->
  cnf_clauses c = cnf_clauses c'.
Proof.
  intros e e' h h' x x' full full' c c' t M M' N N' Q Q' X X' T T'.
  destruct (p_C93_read e h x full c M N (fun _ => conj Q X)) as (u & a & U & A & <-).
  destruct (p_C93_read e' h' x' full' c' M' N' (fun _ => conj Q' X')) as (u' & a' & U' & A' & <-).
  f_equal. assert (u = t) by congruence. assert (u' = t) by congruence. subst u u'. exact (shown_pages _ _ _ _ _ A A').
Qed.

(* C93: a document is the fixed opening -- the title is the first line of the header with every _ escaped, the header is put
   verbatim into a listing, then the extra text and the numbers of variables and clauses -- around the same kind of body,
   which begins with \begin{align} and ends with \end{align}; before it, on demand, the header's lines as comments *)
Lemma p_C93_document : forall export header extra c t,
  latex export header extra true c = Ok t ->
  exists comments title body,
    t = (if export : bool then concat (map (fun l => l ++ [newline]) comments) else []) ++
        document_of title header (match extra with Some e => e | None => [] end)
          (Z.of_nat (List.length (cn_names c))) (Z.of_nat (List.length (cn_clauses c))) (txt "\begin{align}" ++ body ++ [newline] ++ txt "\end{align}") /\
    Forall2 latex_comment (removelast (split_on newline header)) comments /\
    typeset (hd [] (split_on newline header)) title.
Proof.
  intros e h x c t T. unfold latex in T.
  match type of T with bind ?r _ = _ => destruct r as [rows| |]; try discriminate T end. cbn [bind] in T. injection T as <-.
  exists (map (fun s => rstrip (txt "% " ++ s)) (removelast (split_on newline h))), (escape_underscores (hd [] (split_on newline h))), rows.
  split; [|split].
  - assert (X : forall u, (if e then concat (map (fun s => rstrip (txt "% " ++ s) ++ [newline]) (removelast (split_on newline h))) else []) ++ u =
      (if e then concat (map (fun l : list ascii => l ++ [newline]) (map (fun s => rstrip (txt "% " ++ s)) (removelast (split_on newline h)))) else []) ++ u)
      by (intros u; rewrite map_map; reflexivity).
    rewrite X. f_equal. unfold document_of, latex_opening, latex_preamble. cbn [join map concat].
    repeat (rewrite <- !app_assoc; cbn [app]). reflexivity.
  - induction (removelast (split_on newline h)) as [|l ls IH]; constructor; [|exact IH]. exact (rstrip_comment l).
  - exact (escape_typeset _).
Qed.

(* C93: without header and document the text is nothing but the one environment with the rows; \top when there is no clause *)
Lemma p_C93_plain : forall header extra c t,
  latex false header extra false c = Ok t -> Forall clear_name (cn_names c) ->
  exists rows, split_on newline t =
      txt "\begin{align}" :: (match cn_clauses c with [] => [txt "   \top"] | _ => rows end) ++ [txt "\end{align}"] /\
    shows_clauses false rows (cnf_clauses c).
Proof.
  intros h x c t T N.
  assert (F : Forall (lacks newline) (cn_names c)) by (eapply Forall_impl; [|exact N]; intros n (_ & A & _); exact A).
  destruct (latex_lines _ _ _ _ T F) as (R & E & Sh). exists R. split; [exact E|exact (page_shown _ _ _ _ N Sh)].
Qed.

(* C93: a document has one row for each clause, at most 40 rows on a page and 40 on every page but the last; without the
   document everything is in one environment *)
Lemma p_C93_pages : forall export header extra (full : bool) c t,
  latex export header extra full c = Ok t -> (forall n, In n (cn_names c) -> ~ In newline n) ->
  (full = true -> quiet header /\ forall e, extra = Some e -> quiet e) ->
  List.length (concat (pages_of t)) = List.length (cn_clauses c) /\
  Forall (fun p => Z.of_nat (List.length p) = 40) (if full then removelast (pages_of t) else []) /\
  Forall (fun p => Z.of_nat (List.length p) <= 40) (if full then pages_of t else []) /\
  Forall (fun p => full = true -> cn_clauses c <> [] -> p <> []) (pages_of t) /\
  (full = false \/ cn_clauses c = [] -> List.length (pages_of t) = 1%nat).
Proof.
  intros e h x full c t T N Q.
  assert (F : Forall (lacks newline) (cn_names c)) by (apply Forall_forall; exact N).
  destruct (latex_paged _ _ _ _ _ _ T F) as (P & Ps & Cs & E & EC & Sh & L).
  { intros E. destruct (Q E) as (A & B). split; [exact A|]. destruct x; [exact (B _ eq_refl)|exact I]. }
  pose proof (pages_length _ _ _ _ Sh) as Len. rewrite <- EC in Len.
  rewrite E. split; [exact Len|]. unfold laid_out in L. destruct full.
  - destruct L as (L1 & L2 & L3 & L4). change (room 0) with 40 in *. split; [|split; [|split]].
    + destruct Ps as [|p Ps]; [constructor|]. change (removelast (P :: p :: Ps)) with (P :: removelast (p :: Ps)).
      constructor; [apply L2; discriminate|exact L4].
    + constructor; [exact L1|]. eapply Forall_impl; [|exact L3]. intros p Hp. cbv beta in Hp. lia.
    + constructor.
      * intros _ C ->. apply C. destruct Ps as [|p Ps]; [destruct (cn_clauses c); [reflexivity|discriminate Len]|]. specialize (L2 ltac:(discriminate)). discriminate L2.
      * eapply Forall_impl; [|exact L3]. intros p Hp _ _ ->. cbv beta in Hp. cbn [List.length] in Hp. lia.
    + intros [X|X]; [discriminate|]. rewrite X in Len. destruct Ps as [|p Ps]; [reflexivity|]. exfalso.
      specialize (L2 ltac:(discriminate)). cbn [concat List.length] in Len. rewrite app_length in Len. lia.
  - subst Ps. split; [constructor|]. split; [constructor|]. split; [|reflexivity]. constructor; [discriminate|constructor].
Qed.

(* C93: when the braces of the names are balanced, so are those of every row *)
Lemma p_C93_braces : forall export header extra (full : bool) c t,
  latex export header extra full c = Ok t -> (forall n, In n (cn_names c) -> ~ In newline n) -> Forall balanced (cn_names c) ->
  (full = true -> quiet header /\ forall e, extra = Some e -> quiet e) ->
  Forall balanced (concat (pages_of t)).
Proof.
  intros e h x full c t T N B Q.
  assert (F : Forall (lacks newline) (cn_names c)) by (apply Forall_forall; exact N).
  destruct (latex_paged _ _ _ _ _ _ T F) as (P & Ps & Cs & E & EC & Sh & _).
  { intros E. destruct (Q E) as (X & Y). split; [exact X|]. destruct x; [exact (Y _ eq_refl)|exact I]. }
  rewrite E. clear E T Q N EC. induction Sh as [|r cl rs cls A _ IH]; cbn [concat]; [constructor|].
  apply Forall_app. split; [exact (rows_balanced _ _ B _ _ _ A)|exact IH].
Qed.

(*EX
Definition three : cnf := mkCnf [txt "x_1"; txt "x_2"; txt "x_3"; txt "x_4"] [[-1; 2; -3]; [-2; -4]; [2; 3; -4]].
Lemma three_made : made three.
Proof.
  assert (E : cnf_of [[(false, txt "x_1"); (true, txt "x_2"); (false, txt "x_3")]; [(false, txt "x_2"); (false, txt "x_4")];
                      [(true, txt "x_2"); (true, txt "x_3"); (false, txt "x_4")]] = Ok three) by (vm_compute; reflexivity).
  assert (G : forall cls c c', made c -> add_all cnf_add_clause cls c = Ok c' -> made c').
  { induction cls as [|cl cls IH]; cbn [add_all]; intros c c' M H; [injection H as <-; exact M|].
    destruct (cnf_add_clause cl c) as [c1| |] eqn:E1; try discriminate. exact (IH _ _ (made_clause _ _ _ _ _ _ _ M E1) H). }
  exact (G _ _ _ made_empty E).
Qed.
(* the example in the documentation of the method *)
Example C93_text : latex false [] None false three = Ok (join [newline]
  [txt "\begin{align}";
   txt "&       \left( {\overline{x}_1} \lor            {x_2} \lor {\overline{x}_3} \right) \\";
   txt "& \land \left( {\overline{x}_2} \lor {\overline{x}_4} \right) \\";
   txt "& \land \left(            {x_2} \lor            {x_3} \lor {\overline{x}_4} \right)";
   txt "\end{align}"]) /\
  latex false [] None false empty_cnf = Ok (join [newline] [txt "\begin{align}"; txt "   \top"; txt "\end{align}"]).
Proof. split; vm_compute; reflexivity. Qed.
Example C93_read_holds : made three /\ Forall clear_name (cn_names three) /\ Forall balanced (cn_names three) /\ quiet default_header /\
  quiet (txt "\noindent\textbf{Command line:}" ++ [newline]) /\
  exists t, latex true default_header (Some (txt "\noindent\textbf{Command line:}" ++ [newline])) true three = Ok t /\
    map (option_map r_clause) (map read_row (concat (pages_of t))) =
      [Some [(false, txt "x_1"); (true, txt "x_2"); (false, txt "x_3")]; Some [(false, txt "x_2"); (false, txt "x_4")];
       Some [(true, txt "x_2"); (true, txt "x_3"); (false, txt "x_4")]] /\
    map (@List.length _) (pages_of t) = [3%nat].
Proof.
  split; [exact three_made|]. split.
  { assert (A : forall d, (d = "1" \/ d = "2" \/ d = "3" \/ d = "4")%char -> clear_name ["x"%char; "_"%char; d]).
    { intros d D. unfold clear_name. repeat split.
      - intros I. cbn in I. intuition (subst; discriminate).
      - intros I. cbn in I. intuition (subst; discriminate).
      - intros I. cbn in I. intuition (subst; discriminate).
      - intros [|x [|y a]] b E NI; [intros []| injection E as <- E; intros [K|[]]; discriminate | injection E as <- <- E; exfalso; apply NI; right; left; auto].
      - intros a x E NI. exfalso. apply NI. right; left; auto. }
    repeat (apply Forall_cons; [apply A; tauto|]). apply Forall_nil. }
  split; [repeat (apply Forall_cons; [reflexivity|]); apply Forall_nil|].
  split; [repeat (apply Forall_cons; [split; reflexivity|]); apply Forall_nil|].
  split; [repeat (apply Forall_cons; [split; reflexivity|]); apply Forall_nil|].
  eexists. split; [vm_compute; reflexivity|]. split; vm_compute; reflexivity.
Qed.
(* the opening of a document: the title's underscore is escaped, the header is verbatim; a misspelled title is not typeset *)
Example C93_document_holds : exists t, latex true (txt "A_b" ++ [newline] ++ txt "by x  " ++ [newline]) None true three = Ok t /\
  firstn 12 (split_on newline t) =
    [txt "% A_b"; txt "% by x"; txt "%"; txt "\documentclass[10pt,a4paper]{article}"; txt "\usepackage[margin=1in]{geometry}";
     txt "\usepackage{amsmath}"; txt "\usepackage{listings}"; txt "\begin{document}"; txt "\title{A\_b}";
     txt "\author{CNFgen formula generator}"; txt "\maketitle"; txt "\noindent\textbf{Formula header:}"] /\
  typeset (txt "A_b") (txt "A\_b") /\ ~ typeset (txt "A_b") (txt "A_b").
Proof.
  eexists. split; [vm_compute; reflexivity|]. split; [vm_compute; reflexivity|]. split.
  - cbn. apply typeset_other; [discriminate|]. apply typeset_underscore. apply typeset_other; [discriminate|]. apply typeset_end.
  - intros K. inversion K; subst. match goal with H : typeset _ (_ :: _) |- _ => inversion H; subst; congruence end.
Qed.
(* a name with a closing brace before its first underscore: two names that look the same below a bar *)
Example C93_unclear : latex_literal [txt "a}b_c"] (-1) = Ok (txt "{\overline{a}b}_c}") /\ read_literal (txt "{\overline{a}b}_c}") = Some (false, txt "ab}_c").
Proof. split; vm_compute; reflexivity. Qed.
(* what the reader refuses: a missing \lor, a missing brace, a second \square *)
Example C93_strict : read_row (txt "& {x} {y}") = None /\ read_row (txt "& {x} \lor {y") = None /\ read_row (txt "& \square \square") = None /\
  read_row (txt "& \left( {x} \lor {y}") = None /\ read_row (txt "&  {x} \land {y}") = None.
Proof. repeat split; vm_compute; reflexivity. Qed.
(* 41 clauses *)
Definition forty_one : cnf := mkCnf [txt "x"] (repeat [1] 41).
Example C93_two_pages : exists t, latex false default_header None true forty_one = Ok t /\ map (@List.length _) (pages_of t) = [40%nat; 1%nat] /\
  exists u, latex true default_header None false forty_one = Ok u /\ map (@List.length _) (pages_of u) = [41%nat].
Proof. eexists. split; [vm_compute; reflexivity|]. split; [vm_compute; reflexivity|]. eexists. split; [vm_compute; reflexivity|]. vm_compute; reflexivity. Qed.
EX*)
