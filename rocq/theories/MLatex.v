(* MLatex.v -- CNF.latex of the bundled generator, software/cnfgen/cnfformula/cnf.py:566-705.
   Simplifications: as in MCnf.v; the header is given as text; names are texts. *)
From Coq Require Import String Ascii ZArith List Bool.
From Verif Require Import PyBase MText MCnf MTrans.
Import ListNotations.
Open Scope Z_scope.

Definition underscore : ascii := "_"%char.
Definition backslash : ascii := ascii_of_nat 92.
(* name.find("_") *)
Fixpoint find_underscore (t : text) : option nat :=
  match t with
  | [] => None
  | c :: t' => if Ascii.eqb c underscore then Some O else option_map S (find_underscore t')
  end.
(* cnf.py:662: the place where the name is split; without underscore it is -1, the place of the last character *)
Definition split_point (name : text) : nat :=
  match find_underscore name with Some k => k | None => (List.length name - 1)%nat end.
(* cnf.py:655-663 *)
Definition latex_literal (names : list text) (l : Z) : result text :=
  if l =? 0 then Err AssertionError
  else name <- of_option IndexError (nth_error names (Z.to_nat (Z.abs l - 1))) ;;
       Ok (if 0 <? l then txt "           {" ++ name ++ txt "}"
           else txt "{\overline{" ++ firstn (split_point name) name ++ txt "}" ++ skipn (split_point name) name ++ txt "}").
(* cnf.py:670-678 *)
Definition latex_body (names : list text) (full_document : bool) (cl : list Z) : result text :=
  match cl with
  | [] => Ok (txt "\square")
  | _ => ls <- mapM (latex_literal names) cl ;;
         Ok (if full_document then join (txt " \lor ") ls else txt "\left( " ++ join (txt " \lor ") ls ++ txt " \right)")
  end.
(* cnf.py:665-678 *)
Definition latex_clause (names : list text) (cl : list Z) (first full_document : bool) : result text :=
  body <- latex_body names full_document cl ;;
  Ok ((if first then [] else txt " \\") ++ [newline] ++ txt "&" ++
      (if full_document || first then txt "       " else txt " \land ") ++ body).
Definition clauses_per_page : Z := 40.
(* cnf.py:691-697: the clauses from number i on *)
Fixpoint latex_clauses (names : list text) (full_document : bool) (i : Z) (cls : list (list Z)) : result text :=
  match cls with
  | [] => Ok []
  | cl :: rest =>
      row <- (if (i mod clauses_per_page =? 0) && negb (i =? 0) && full_document
              then r <- latex_clause names cl true full_document ;;
                   Ok ([newline] ++ txt "\end{align}\pagebreak" ++ [newline] ++ txt "\begin{align}" ++ r)
              else latex_clause names cl (i =? 0) full_document) ;;
      t <- latex_clauses names full_document (i + 1) rest ;;
      Ok (row ++ t)
  end.
(* cnf.py:622-627 *)
Definition latex_preamble : text :=
  concat (map (fun l => l ++ [newline])
    [txt "%"; txt "\documentclass[10pt,a4paper]{article}"; txt "\usepackage[margin=1in]{geometry}"; txt "\usepackage{amsmath}"; txt "\usepackage{listings}"]).
(* title.replace("_","\_") *)
Definition escape_underscores (t : text) : text :=
  flat_map (fun c => if Ascii.eqb c underscore then [backslash; underscore] else [c]) t.
(* cnf.py:638-650 *)
Definition latex_opening (header : text) : text :=
  latex_preamble ++ txt "\begin{document}" ++ [newline] ++
  txt "\title{" ++ escape_underscores (hd [] (split_on newline header)) ++ txt "}" ++ [newline] ++
  txt "\author{CNFgen formula generator}" ++ [newline] ++
  txt "\maketitle" ++ [newline] ++
  txt "\noindent\textbf{Formula header:}" ++ [newline] ++
  txt "\begin{lstlisting}[breaklines]" ++ [newline] ++
  header ++
  txt "\end{lstlisting}" ++ [newline] ++
  txt "\bigskip" ++ [newline].
(* cnf.py:566-705 *)
Definition latex (export_header : bool) (header : text) (extra_text : option text) (full_document : bool) (c : cnf) : result text :=
  rows <- match cn_clauses c with
          | [] => Ok ([newline] ++ txt "   \top")
          | cls => latex_clauses (cn_names c) full_document 0 cls
          end ;;
  Ok ((if export_header then concat (map (fun s => rstrip (txt "% " ++ s) ++ [newline]) (removelast (split_on newline header))) else []) ++
      (if full_document then latex_opening header else []) ++
      (if full_document then match extra_text with Some t => t | None => [] end else []) ++
      (if full_document
       then txt "\noindent\textbf{CNF with " ++ str_Z (Z.of_nat (List.length (cn_names c))) ++ txt " variables and and " ++
            str_Z (Z.of_nat (List.length (cn_clauses c))) ++ txt " clauses:}" ++ [newline]
       else []) ++
      txt "\begin{align}" ++ rows ++ [newline] ++ txt "\end{align}" ++
      (if full_document then [newline] ++ txt "\end{document}" else [])).
