(* SpecLatex.v -- what a reader sees in the LaTeX text of a formula. *)
From Coq Require Import String Ascii ZArith List Bool.
From Verif Require Import PyBase MText MCnf.
Import ListNotations.
Open Scope Z_scope.

(* the lines of the text; a line that opens an align environment begins a page, a line that starts with & is a row of it *)
Definition begins_page (l : text) : bool := starts_with (txt "\begin{align}") l.
Definition is_row (l : text) : bool := starts_with (txt "&") l.
(* the rows before the first page, and the rows of each page *)
Fixpoint paged (ls : list text) : list text * list (list text) :=
  match ls with
  | [] => ([], [])
  | l :: t =>
      let '(rows, pages) := paged t in
      if begins_page l then ([], rows :: pages)
      else if is_row l then (l :: rows, pages) else (rows, pages)
  end.
Definition pages_of (t : text) : list (list text) := snd (paged (split_on newline t)).

(* a row is made of words separated by blanks; those that start with a brace are literals: {name} or {\overline{na}me} *)
Definition words_of (l : text) : list text := filter (fun w => match w with [] => false | _ => true end) (split_on " "%char l).
Fixpoint until_brace (t : text) : text * text :=
  match t with
  | [] => ([], [])
  | c :: t' => if Ascii.eqb c "}"%char then ([], t') else let '(a, b) := until_brace t' in (c :: a, b)
  end.
Definition negation : text := txt "\overline{".
Definition read_literal (w : text) : option (bool * text) :=
  match w with
  | c :: inside =>
      if Ascii.eqb c "{"%char && Ascii.eqb (last inside " "%char) "}"%char then
        let name := removelast inside in
        if starts_with negation name
        then let '(a, b) := until_brace (skipn (List.length negation) name) in Some (false, a ++ b)
        else Some (true, name)
      else None
  | [] => None
  end.
(* literals joined by \lor *)
Fixpoint read_or (ws : list text) : option (list (bool * text)) :=
  match ws with
  | [] => None
  | w :: t =>
      match read_literal w, t with
      | Some x, [] => Some [x]
      | Some x, s :: t' => if text_eqb s (txt "\lor") then option_map (cons x) (read_or t') else None
      | None, _ => None
      end
  end.
(* a clause: \square for the empty one, literals joined by \lor, or these between \left( and \right) *)
Definition read_body (ws : list text) : option (bool * list (bool * text)) :=
  match ws with
  | [] => None
  | w :: t =>
      if text_eqb w (txt "\square") then match t with [] => Some (false, []) | _ => None end
      else if text_eqb w (txt "\left(")
      then match rev t with
           | z :: r => if text_eqb z (txt "\right)") then option_map (pair true) (read_or (rev r)) else None
           | [] => None
           end
      else option_map (pair false) (read_or ws)
  end.
(* what a row says: whether it begins with \land, whether its clause is in parentheses, the clause, whether \\ ends it *)
Record row := mkRow { r_and : bool; r_parentheses : bool; r_clause : list (bool * text); r_ended : bool }.
Definition read_row (l : text) : option row :=
  match words_of l with
  | a :: ws =>
      if text_eqb a (txt "&") then
        let '(ws, ended) := match rev ws with z :: r => if text_eqb z (txt "\\") then (rev r, true) else (ws, false) | [] => (ws, false) end in
        let '(ws, joined) := match ws with w :: t => if text_eqb w (txt "\land") then (t, true) else (ws, false) | [] => (ws, false) end in
        match read_body ws with Some (b, cl) => Some (mkRow joined b cl ended) | None => None end
      else None
  | [] => None
  end.
(* the rows of a page show these clauses: \\ ends every row but the last; in a document there is nothing else around the
   clauses, otherwise every row but the first begins with \land and every clause but the empty one is in parentheses *)
Definition shows_clauses (document : bool) (page : list text) (cls : list (list (bool * text))) : Prop :=
  List.length page = List.length cls /\
  forall k l cl, nth_error page k = Some l -> nth_error cls k = Some cl ->
    read_row l = Some (mkRow (negb document && negb (Nat.eqb k 0)) (negb document && match cl with [] => false | _ => true end) cl
                             (Nat.ltb (S k) (List.length page))).

(* names a reader can tell apart: without blanks, newlines and backslashes, and without a closing brace in what the bar
   covers, which is what precedes the first underscore, or all but the last character when there is none *)
Definition clear_name (n : text) : Prop :=
  ~ In " "%char n /\ ~ In newline n /\ ~ In "\"%char n /\
  (forall a b, n = a ++ "_"%char :: b -> ~ In "_"%char a -> ~ In "}"%char a) /\
  (forall a x, n = a ++ [x] -> ~ In "_"%char n -> ~ In "}"%char a).
(* text without lines that look like rows or pages *)
Definition quiet (t : text) : Prop := Forall (fun l => begins_page l = false /\ is_row l = false) (split_on newline t).

(* braces: the depth after a text, none when a closing brace has no partner *)
Fixpoint depth (t : text) (d : nat) : option nat :=
  match t with
  | [] => Some d
  | c :: t' =>
      if Ascii.eqb c "{"%char then depth t' (S d)
      else if Ascii.eqb c "}"%char then match d with O => None | S d' => depth t' d' end
      else depth t' d
  end.
Definition balanced (t : text) : Prop := depth t 0 = Some O.

(* a title typeset in LaTeX: every _ is written \_ *)
Inductive typeset : text -> text -> Prop :=
| typeset_end : typeset [] []
| typeset_underscore : forall t u, typeset t u -> typeset ("_"%char :: t) (ascii_of_nat 92 :: "_"%char :: u)
| typeset_other : forall c t u, c <> "_"%char -> typeset t u -> typeset (c :: t) (c :: u).
(* a line of the header as a comment: after "% ", without the blanks at its end *)
Definition latex_comment (line comment : text) : Prop :=
  exists blanks, txt "% " ++ line = comment ++ blanks /\ Forall (fun c => is_uspace c = true) blanks /\ is_uspace (last comment "%"%char) = false.
(* a document around a body: the commands of the opening in their order, with the title and the header as given *)
Definition document_of (title header extra : text) (variables clauses : Z) (body : text) : text :=
  join [newline]
    ([txt "%"; txt "\documentclass[10pt,a4paper]{article}"; txt "\usepackage[margin=1in]{geometry}"; txt "\usepackage{amsmath}";
      txt "\usepackage{listings}"; txt "\begin{document}"; txt "\title{" ++ title ++ txt "}";
      txt "\author{CNFgen formula generator}"; txt "\maketitle"; txt "\noindent\textbf{Formula header:}";
      txt "\begin{lstlisting}[breaklines]"; header ++ txt "\end{lstlisting}"; txt "\bigskip";
      extra ++ txt "\noindent\textbf{CNF with " ++ str_Z variables ++ txt " variables and and " ++ str_Z clauses ++ txt " clauses:}";
      body; txt "\end{document}"]).
