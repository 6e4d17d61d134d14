(* Properties25.v -- generated by tools/genprops.py from PP25.v: property theorems, their
   assumptions, and examples showing that the hypotheses are met.  Proofs are in PP25.v. *)
From Coq Require Import String Ascii ZArith List Bool Lia Sorted.
From Verif Require Import Spec SpecInput SpecFile PyBase MSet MText MCnf MFam MFam2 MTrans MFile SpecCnf SpecFam SpecFam2 PText PReader PLib PCnf3 PFam1 PFam2 PFam4 PFam8 PFam15 PGen6 PFile1 PFile2 PFile3 PFile4 PFile5 PFile6 PFile7.
Import ListNotations.
From Verif Require Import PP25.
Open Scope Z_scope.

(* C85: the file is accepted exactly when it has a line p and as many lines e as this line says; the edges are those of the
   lines e, the vertices are 1 .. n and the ends of the edges *)
Theorem C85_read : forall directed lines name spec es, Forall one_line lines -> edge_file lines name spec es ->
  (forall n m, spec = Some (n, m) -> m = Z.of_nat (List.length es) ->
     exists f, read_dimacs_graph directed (ended lines) = Ok f /\ f_name f = name /\ NoDup (f_vertices f) /\
       (forall w, In w (f_vertices f) <-> 1 <= w <= n \/ exists u v, In (u, v) es /\ (w = u \/ w = v)) /\
       (directed = true -> forall u v, arc (to_digraph f) u v <-> In (u, v) es) /\
       (directed = false -> forall u v, adjacent (to_graph f) u v <-> In (u, v) es \/ In (v, u) es)) /\
  (spec = None \/ (exists n m, spec = Some (n, m) /\ m <> Z.of_nat (List.length es)) -> read_dimacs_graph directed (ended lines) = Err ValueError).
Proof. exact p_C85_read. Qed.
Print Assumptions C85_read.

(* C85: when the ends are between 1 and n, the vertices are 1 .. n, and without loops the undirected graph is simple *)
Theorem C85_in_range : forall lines name n m es, Forall one_line lines -> edge_file lines name (Some (n, m)) es -> m = Z.of_nat (List.length es) ->
  (forall u v, In (u, v) es -> 1 <= u <= n /\ 1 <= v <= n) ->
  (exists f, read_dimacs_graph true (ended lines) = Ok f /\ proper_digraph (to_digraph f) /\ d_nodes (to_digraph f) = range 1 (n + 1)) /\
  (exists f, read_dimacs_graph false (ended lines) = Ok f /\ g_nodes (to_graph f) = range 1 (n + 1) /\
     ((forall v, ~ In (v, v) es) -> simple_graph (to_graph f))).
Proof. exact p_C85_in_range. Qed.
Print Assumptions C85_in_range.

(* C85: refused, whatever follows: a second line p, a line p of another form, a line e without two integers *)
Theorem C85_refused : forall directed lines name spec es text, Forall one_line lines -> edge_file lines name spec es ->
  (spec <> None -> read_dimacs_graph directed (ended lines ++ "p"%char :: text) = Err ValueError) /\
  (forall l, one_line l -> bad_edge_line l -> read_dimacs_graph directed (ended (lines ++ [l]) ++ text) = Err ValueError).
Proof. exact p_C85_refused. Qed.
Print Assumptions C85_refused.

(* C85: a graph written and read again is the same up to the numbers of the vertices, which are their positions; the name
   loses the blanks at its end and gets a newline *)
Theorem C85_round_trip : forall name, one_line name ->
  (forall g, simple_graph g -> exists f num, read_dimacs_graph false (write_dimacs_graph name (g_nodes g) (g_edges g)) = Ok f /\
     f_name f = match rstrip name with [] => [] | t => t ++ [nl] end /\
     simple_graph (to_graph f) /\ map num (g_nodes g) = g_nodes (to_graph f) /\
     g_nodes (to_graph f) = range 1 (Z.of_nat (List.length (g_nodes g)) + 1) /\
     forall u v, In u (g_nodes g) -> In v (g_nodes g) -> (adjacent (to_graph f) (num u) (num v) <-> adjacent g u v)) /\
  (forall d, proper_digraph d -> exists f num, read_dimacs_graph true (write_dimacs_graph name (d_nodes d) (d_edges d)) = Ok f /\
     proper_digraph (to_digraph f) /\ map num (d_nodes d) = d_nodes (to_digraph f) /\
     d_nodes (to_digraph f) = range 1 (Z.of_nat (List.length (d_nodes d)) + 1) /\
     forall u v, In u (d_nodes d) -> In v (d_nodes d) -> (arc (to_digraph f) (num u) (num v) <-> arc d u v)).
Proof. exact p_C85_round_trip. Qed.
Print Assumptions C85_round_trip.

(* C85: a matrix: the numbers of left and right vertices, then for each left vertex a line with an entry for each right
   vertex, 1 when there is an edge and 0 otherwise.  Reading a matrix always ends with an AttributeError *)
Theorem C85_matrix : forall b, 
  (exists size rows, write_matrix b = ended (size :: rows) /\ Forall one_line (size :: rows) /\
     numbers [Z.of_nat (List.length (b_left b)); Z.of_nat (List.length (b_right b))] size /\
     Forall2 (fun u row => exists entries, numbers entries row /\
       Forall2 (fun v e => (In (u, v) (b_edges b) /\ e = 1) \/ (~ In (u, v) (b_edges b) /\ e = 0)) (b_right b) entries) (b_left b) rows) /\
  forall t, read_matrix t = Err AttributeError.
Proof. exact p_C85_matrix. Qed.
Print Assumptions C85_matrix.

(* a triangle, the line p after the first edge *)
Definition triangle_file : list text := map txt ["c tri"; "e 1 2"; "p edge 3 3"; "n ignored"; ""; "e 2  3"; "edge 3 1"]%string.
Example C85_file : Forall one_line triangle_file /\ edge_file triangle_file (txt "tri" ++ [nl]) (Some (3, 3)) [(1, 2); (2, 3); (3, 1)].
Proof.
  split; [repeat (constructor; [intros K; repeat (destruct K as [K|K]; [discriminate K|]); destruct K|]); constructor|].
  change (txt "tri" ++ [nl]) with (txt "tri" ++ nl :: []). apply (edges_comment " "%char (txt "tri")).
  assert (W1 : forall x, (32 < nat_of_ascii x)%nat -> word [x]) by (intros x Hx; split; [discriminate|intros c [<-|[]]; exact Hx]).
  assert (E3 : forall w a b, word w -> several_words [w; str_Z a; str_Z b] (w ++ " "%char :: str_Z a ++ " "%char :: str_Z b)).
  { intros w a b Hw. apply (words_cons [] w [str_Z a; str_Z b] " "%char (str_Z a ++ " "%char :: str_Z b)); [constructor|exact Hw|left; reflexivity|].
    apply (words_cons [] (str_Z a) [str_Z b] " "%char (str_Z b)); [constructor|eapply numeral_word, PReader.str_Z_numeral|left; reflexivity|].
    apply (words_last []); [constructor|eapply numeral_word, PReader.str_Z_numeral]. }
  eapply (edges_edge (txt " 1 2") (txt "e") 1 2 (str_Z 1) (str_Z 2)); try apply PReader.str_Z_numeral; [apply (E3 (txt "e") 1 2); apply W1; cbv; lia|].
  eapply (edges_spec (txt " edge 3 3") (txt "p") 3 3 (str_Z 3) (str_Z 3)); try apply PReader.str_Z_numeral; [|lia|].
  { apply (words_cons [] (txt "p") [txt "edge"; txt "3"; txt "3"] " "%char (txt "edge 3 3")); [constructor|apply W1; cbv; lia|left; reflexivity|].
    apply (E3 (txt "edge") 3 3). apply word_of_txt; [discriminate|reflexivity]. }
  apply edges_other; try discriminate. apply edges_other; try discriminate.
  eapply (edges_edge (txt " 2  3") (txt "e") 2 3 (str_Z 2) (str_Z 3)); try apply PReader.str_Z_numeral.
  { apply (words_cons [] (txt "e") [txt "2"; txt "3"] " "%char (txt "2  3")); [constructor|apply W1; cbv; lia|left; reflexivity|].
    apply (words_cons [] (txt "2") [txt "3"] " "%char (txt " 3")); [constructor|apply W1; cbv; lia|left; reflexivity|].
    apply (words_last [" "%char] (txt "3")); [constructor; [left; reflexivity|constructor]|apply W1; cbv; lia]. }
  eapply (edges_edge (txt "dge 3 1") (txt "edge") 3 1 (str_Z 3) (str_Z 1)); try apply PReader.str_Z_numeral; [apply (E3 (txt "edge") 3 1); apply word_of_txt; [discriminate|reflexivity]|].
  apply edges_none.
Qed.
Example C85_triangle : exists f, read_dimacs_graph false (ended triangle_file) = Ok f /\ to_graph f = mkGraph [1; 2; 3] [(1, 2); (1, 3); (2, 3)].
Proof. eexists. split; vm_compute; reflexivity. Qed.
(* an end out of range is a further vertex; an edge given twice counts twice but is there once; a loop stays *)
Example C85_accepted : exists f, read_dimacs_graph false (txt "p edge 2 4
e 1 2
e 2 1
e 5 0
e 1 1") = Ok f /\ to_graph f = mkGraph [0; 1; 2; 5] [(0, 5); (1, 1); (1, 2)].
Proof. eexists. split; vm_compute; reflexivity. Qed.
(* the name  col  of the original format is refused *)
Example C85_col : bad_edge_line (txt "p col 3 3") /\ read_dimacs_graph false (txt "p col 3 3
") = Err ValueError.
Proof.
  split; [|vm_compute; reflexivity]. apply (bad_spec_words (txt " col 3 3") (txt "p") (txt "col") (txt "3") (txt "3")); [|left; discriminate].
  assert (W : forall s, s <> ""%string -> forallb (fun c => (32 <? Z.of_nat (nat_of_ascii c))) (txt s) = true -> word (txt s)) by (intros; apply word_of_txt; auto).
  apply (words_cons [] (txt "p") [txt "col"; txt "3"; txt "3"] " "%char (txt "col 3 3")); [constructor|apply W; [discriminate|reflexivity]|left; reflexivity|].
  apply (words_cons [] (txt "col") [txt "3"; txt "3"] " "%char (txt "3 3")); [constructor|apply W; [discriminate|reflexivity]|left; reflexivity|].
  apply (words_cons [] (txt "3") [txt "3"] " "%char (txt "3")); [constructor|apply W; [discriminate|reflexivity]|left; reflexivity|].
  apply (words_last [] (txt "3")); [constructor|apply W; [discriminate|reflexivity]].
Qed.
Example C85_written : write_dimacs_graph (txt "path ") [4; 7; 9] [(4, 7); (9, 7)] = txt "c path
p edge 3 2
e 1 2
e 3 2
".
Proof. vm_compute. reflexivity. Qed.
Example C85_applies : simple_graph (mkGraph [4; 7; 9] [(4, 7); (9, 7)]) /\ proper_digraph (mkDigraph [4; 7; 9] [(4, 7); (9, 7)]).
Proof.
  split; split.
  - repeat (constructor; [cbn; intuition discriminate|]). constructor.
  - repeat (constructor; [cbn; intuition discriminate|]). constructor.
  - cbn. intros u v H K. repeat (destruct H as [H|H]; [injection H as <- <-; repeat (destruct K as [K|K]; [discriminate K|]); destruct K|]). destruct H.
  - cbn. intros u v H. repeat (destruct H as [H|H]; [injection H as <- <-; auto 8|]). destruct H.
  - repeat (constructor; [cbn; intuition discriminate|]). constructor.
  - cbn. intros u v H. repeat (destruct H as [H|H]; [injection H as <- <-; auto 8|]). destruct H.
Qed.
Example C85_a_matrix : write_matrix (mkBipartite [1; 2] [7; 8; 9] [(1, 8); (2, 7); (2, 9)]) = txt "2 3
0 1 0
1 0 1
".
Proof. vm_compute. reflexivity. Qed.
