(* SpecFile.v -- what the files read by the bundled generator mean, independently of the readers.  Definitions only. *)
From Coq Require Import String Ascii ZArith List Bool.
From Verif Require Import Spec SpecInput.
Import ListNotations.
Open Scope Z_scope.

(* a file all of whose lines end with a newline *)
Definition ended (ls : list (list ascii)) : list ascii := concat (map (fun l => l ++ [nl]) ls).

(* integers separated by spaces and tabs *)
Inductive numbers : list Z -> list ascii -> Prop :=
| numbers_nil t : blanks t -> numbers [] t
| numbers_last pre z n : blanks pre -> numeral z n -> numbers [z] (pre ++ n)
| numbers_cons pre z n zs b u : blanks pre -> numeral z n -> is_blank b -> numbers zs u -> numbers (z :: zs) (pre ++ n ++ b :: u).

(* ---- DIMACS formulas ---- *)
(* the text of a comment: what follows the c, without one space *)
Inductive remark : list ascii -> list ascii -> Prop :=
| remark_space t : remark ("c"%char :: " "%char :: t) t
| remark_other t : hd_error t <> Some " "%char -> remark ("c"%char :: t) t.
(* p <word> <n> <m>, from the first character *)
Definition spec_line (n m : Z) (l : list ascii) : Prop :=
  exists w s1 fmt s2 wn s3 wm post, l = ("p"%char :: w) ++ s1 ++ fmt ++ s2 ++ wn ++ s3 ++ wm ++ post /\
    word ("p"%char :: w) /\ word fmt /\ numeral n wn /\ numeral m wm /\ gap s1 /\ gap s2 /\ gap s3 /\ blanks post.
(* lines, the comments joined, the numbers of variables and clauses if they are given, the integers of the clauses *)
Inductive formula_file : list (list ascii) -> list ascii -> option (Z * Z) -> list Z -> Prop :=
| file_empty : formula_file [] [] None []
| file_comment l t ls h s toks : remark l t -> formula_file ls h s toks -> formula_file (l :: ls) (t ++ nl :: h) s toks
| file_spec l n m ls h toks : spec_line n m l -> 0 <= n -> formula_file ls h None toks -> formula_file (l :: ls) h (Some (n, m)) toks
| file_numbers l ts ls h s toks : numbers ts l -> formula_file ls h s toks -> formula_file (l :: ls) h s (ts ++ toks).

(* ---- graphs in the kthlist format ---- *)
(* comments, blank lines and lines  v : u1 .. uk 0  over the vertices 1 .. n; the name made of the comments (what follows
   the second character, with the newline), the vertices with the lists *)
Inductive adjacency_lines (n : Z) : list (list ascii) -> list ascii -> list (Z * list Z) -> Prop :=
| adj_none : adjacency_lines n [] [] []
| adj_comment x t ls name adj : adjacency_lines n ls name adj -> adjacency_lines n (("c"%char :: x :: t) :: ls) (t ++ nl :: name) adj
| adj_bare ls name adj : adjacency_lines n ls name adj -> adjacency_lines n (["c"%char] :: ls) name adj
| adj_blank l ls name adj : blanks l -> adjacency_lines n ls name adj -> adjacency_lines n (l :: ls) name adj
| adj_line v us a b ls name adj : numbers [v] a -> numbers (us ++ [0]) b -> 1 <= v <= n -> (forall u, In u us -> 1 <= u <= n) ->
    adjacency_lines n ls name adj -> adjacency_lines n ((a ++ ":"%char :: b) :: ls) name ((v, us) :: adj).
(* the number of vertices on a line of its own, before the lists *)
Definition kthlist_file (lines : list (list ascii)) (name : list ascii) (n : Z) (adj : list (Z * list Z)) : Prop :=
  exists pre size post name1 name2, lines = pre ++ size :: post /\ name = name1 ++ name2 /\ 0 <= n /\
    adjacency_lines n pre name1 [] /\ numbers [n] size /\ adjacency_lines n post name2 adj.
(* the file has the arc from u to v *)
Definition listed (adj : list (Z * list Z)) (u v : Z) : Prop := exists us, In (v, us) adj /\ In u us.
(* a line that no kthlist file over the vertices 1 .. n continues with: another line without colon, or a list whose last
   number is not 0, or with a vertex out of range, or with a word that is no integer *)
Inductive bad_line (n : Z) : list ascii -> Prop :=
| bad_size l : 0 <= n -> hd_error l <> Some "c"%char -> (exists x, In x l /\ (32 < nat_of_ascii x)%nat) -> ~ In ":"%char l -> bad_line n l
| bad_end v us a b : numbers [v] a -> numbers us b -> last us 1 <> 0 -> bad_line n (a ++ ":"%char :: b)
| bad_target v us a b : numbers [v] a -> numbers (us ++ [0]) b -> ~ 1 <= v <= n -> bad_line n (a ++ ":"%char :: b)
| bad_source v us u a b : numbers [v] a -> numbers (us ++ [0]) b -> In u us -> ~ 1 <= u <= n -> bad_line n (a ++ ":"%char :: b)
| bad_number v a pre w post : numbers [v] a -> word w -> malformed w -> ~ In ":"%char (pre ++ w ++ post) ->
    (pre = [] \/ exists p b, pre = p ++ [b] /\ is_blank b) -> (post = [] \/ exists b p, post = b :: p /\ is_blank b) ->
    bad_line n (a ++ ":"%char :: pre ++ w ++ post).

(* ---- graphs in the DIMACS edge format ---- *)
(* words separated by spaces and tabs *)
Inductive several_words : list (list ascii) -> list ascii -> Prop :=
| words_none t : blanks t -> several_words [] t
| words_last pre w : blanks pre -> word w -> several_words [w] (pre ++ w)
| words_cons pre w ws b u : blanks pre -> word w -> is_blank b -> several_words ws u -> several_words (w :: ws) (pre ++ w ++ b :: u).
(* comments; a line  p edge n m ; lines  e u v ; lines that begin with another character do not count.  The name made of
   the comments, the numbers of the line p if there is one, the edges *)
Inductive edge_file : list (list ascii) -> list ascii -> option (Z * Z) -> list (Z * Z) -> Prop :=
| edges_none : edge_file [] [] None []
| edges_comment x t ls name s es : edge_file ls name s es -> edge_file (("c"%char :: x :: t) :: ls) (t ++ nl :: name) s es
| edges_bare ls name s es : edge_file ls name s es -> edge_file (["c"%char] :: ls) name s es
| edges_spec t w n m wn wm ls name es : several_words [w; chars "edge"; wn; wm] ("p"%char :: t) -> numeral n wn -> numeral m wm -> 0 <= n ->
    edge_file ls name None es -> edge_file (("p"%char :: t) :: ls) name (Some (n, m)) es
| edges_edge t w u v wu wv ls name s es : several_words [w; wu; wv] ("e"%char :: t) -> numeral u wu -> numeral v wv ->
    edge_file ls name s es -> edge_file (("e"%char :: t) :: ls) name s ((u, v) :: es)
| edges_other l ls name s es : hd_error l <> Some "c"%char -> hd_error l <> Some "p"%char -> hd_error l <> Some "e"%char ->
    edge_file ls name s es -> edge_file (l :: ls) name s es.
(* a line e without two integers; a line p without the word edge and two integers *)
Inductive bad_edge_line : list ascii -> Prop :=
| bad_edge_count t ws : several_words ws ("e"%char :: t) -> List.length ws <> 3%nat -> bad_edge_line ("e"%char :: t)
| bad_edge_ends t w a b : several_words [w; a; b] ("e"%char :: t) -> malformed a \/ malformed b -> bad_edge_line ("e"%char :: t)
| bad_spec_count t ws : several_words ws ("p"%char :: t) -> List.length ws <> 4%nat -> bad_edge_line ("p"%char :: t)
| bad_spec_words t w fmt a b : several_words [w; fmt; a; b] ("p"%char :: t) -> fmt <> chars "edge" \/ malformed a \/ malformed b -> bad_edge_line ("p"%char :: t).
