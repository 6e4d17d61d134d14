(* Properties24.v -- generated by tools/genprops.py from PP24.v: property theorems, their
   assumptions, and examples showing that the hypotheses are met.  Proofs are in PP24.v. *)
From Coq Require Import String Ascii ZArith List Bool Lia Sorted.
From Verif Require Import Spec SpecInput SpecFile PyBase MSet MText MCnf MFam MFam2 MTrans MFile SpecCnf SpecFam SpecFam2 PText PReader PLib PFam1 PFam2 PFam4 PFam8 PFam15 PFile1 PFile3 PFile4 PFile5 PFile6.
Import ListNotations.
From Verif Require Import PP24.
Open Scope Z_scope.

(* C84: a directed graph: the vertices 1 .. n, the arcs of the lists; marked as sorted when every arc goes from a larger to
   a smaller number.  As dag it is accepted exactly when it has no cycle *)
Theorem C84_digraph : forall lines name n adj, Forall one_line lines -> kthlist_file lines name n adj ->
  exists f, readGraph_kthlist Directed (ended lines) = Ok f /\ f_name f = name /\ proper_digraph (to_digraph f) /\
    d_nodes (to_digraph f) = range 1 (n + 1) /\ (forall u v, arc (to_digraph f) u v <-> listed adj u v) /\
    (f_sorted f = true <-> forall u v, listed adj u v -> v < u) /\
    (acyclic (to_digraph f) -> readGraph_kthlist Dag (ended lines) = Ok f) /\
    (~ acyclic (to_digraph f) -> readGraph_kthlist Dag (ended lines) = Err ValueError).
Proof. exact p_C84_digraph. Qed.
Print Assumptions C84_digraph.

(* C84: an undirected graph: u and v are adjacent when one is in the list of the other.  Loops are not refused *)
Theorem C84_simple : forall lines name n adj, Forall one_line lines -> kthlist_file lines name n adj ->
  exists f, readGraph_kthlist Simple (ended lines) = Ok f /\ f_name f = name /\ g_nodes (to_graph f) = range 1 (n + 1) /\
    (forall u v, adjacent (to_graph f) u v <-> listed adj u v \/ listed adj v u) /\
    ((forall v, ~ listed adj v v) -> simple_graph (to_graph f)).
Proof. exact p_C84_simple. Qed.
Print Assumptions C84_simple.

(* C84: a bipartite graph.  Without loops an accepted file gives a bipartite graph with the edges of the lists.  When no
   vertex has a line and is in a list, the file is accepted and the vertices with a line are the left side.  The
   only other answer is ValueError, for every graph that is not bipartite *)
Theorem C84_bipartite : forall lines name n adj, Forall one_line lines -> kthlist_file lines name n adj ->
  ((exists f, readGraph_kthlist Bipartite (ended lines) = Ok f /\ f_name f = name) \/ readGraph_kthlist Bipartite (ended lines) = Err ValueError) /\
  (forall f, readGraph_kthlist Bipartite (ended lines) = Ok f -> (forall v, ~ listed adj v v) ->
     bipartite_graph (to_bipartite f) /\ (forall w, In w (b_left (to_bipartite f)) \/ In w (b_right (to_bipartite f)) <-> 1 <= w <= n) /\
     (forall u v, In (u, v) (b_edges (to_bipartite f)) <-> In u (b_left (to_bipartite f)) /\ (listed adj u v \/ listed adj v u))) /\
  ((forall u v us, listed adj u v -> ~ In (u, us) adj) -> exists f, readGraph_kthlist Bipartite (ended lines) = Ok f /\
     forall w, In w (b_left (to_bipartite f)) <-> exists us, In (w, us) adj) /\
  ((forall v, ~ listed adj v v) -> ~ (exists side : Z -> bool, forall u v, listed adj u v -> side u <> side v) ->
     readGraph_kthlist Bipartite (ended lines) = Err ValueError).
Proof. exact p_C84_bipartite. Qed.
Print Assumptions C84_bipartite.

(* C84: refused, whatever follows: a second line without colon; a list that does not end in 0, with a vertex out of range
   or with a word that is no integer; a list before the number of vertices; a negative number of vertices.  Without this number the file is refused *)
Theorem C84_refused : forall k lines name n adj text, Forall one_line lines ->
  (forall l, kthlist_file lines name n adj -> one_line l -> bad_line n l -> readGraph_kthlist k (ended (lines ++ [l]) ++ text) = Err ValueError) /\
  (adjacency_lines n lines name [] ->
     (forall l, one_line l -> bad_line (-1) l -> readGraph_kthlist k (ended (lines ++ [l]) ++ text) = Err ValueError) /\
     (forall l z, one_line l -> numbers [z] l -> z < 0 -> readGraph_kthlist k (ended (lines ++ [l]) ++ text) = Err ValueError) /\
     readGraph_kthlist k (ended lines) = Err ValueError).
Proof. exact p_C84_refused. Qed.
Print Assumptions C84_refused.

(* C84: a list before the number of vertices is such a line; the newline of the last line may be missing *)
Theorem C84_last_line : forall k,
  (forall v us a b, numbers [v] a -> numbers us b -> bad_line (-1) (a ++ ":"%char :: b)) /\
  (forall lines l, Forall one_line lines -> one_line l -> l <> [] -> hd_error l <> Some "c"%char ->
     readGraph_kthlist k (ended lines ++ l) = readGraph_kthlist k (ended (lines ++ [l]))).
Proof. exact p_C84_last_line. Qed.
Print Assumptions C84_last_line.

(* C84: a graph written and read again is the same up to the numbers of the vertices, which are their positions *)
Theorem C84_round_trip : forall name, one_line name ->
  (forall g, simple_graph g -> exists f num, readGraph_kthlist Simple (writeGraph_kthlist name g) = Ok f /\ f_name f = name ++ [nl] /\
     simple_graph (to_graph f) /\ map num (g_nodes g) = g_nodes (to_graph f) /\
     g_nodes (to_graph f) = range 1 (Z.of_nat (List.length (g_nodes g)) + 1) /\
     forall u v, In u (g_nodes g) -> In v (g_nodes g) -> (adjacent (to_graph f) (num u) (num v) <-> adjacent g u v)) /\
  (forall d, proper_digraph d -> exists f num, readGraph_kthlist Directed (writeDigraph_kthlist name d) = Ok f /\ f_name f = name ++ [nl] /\
     proper_digraph (to_digraph f) /\ map num (d_nodes d) = d_nodes (to_digraph f) /\
     d_nodes (to_digraph f) = range 1 (Z.of_nat (List.length (d_nodes d)) + 1) /\
     (forall u v, In u (d_nodes d) -> In v (d_nodes d) -> (arc (to_digraph f) (num u) (num v) <-> arc d u v)) /\
     (acyclic d -> acyclic (to_digraph f) /\ readGraph_kthlist Dag (writeDigraph_kthlist name d) = Ok f)) /\
  (forall b, bipartite_graph b -> exists f num, readGraph_kthlist Bipartite (writeBipartite_kthlist name b) = Ok f /\ f_name f = name ++ [nl] /\
     bipartite_graph (to_bipartite f) /\
     (forall u v, In u (b_left b ++ b_right b) -> In v (b_left b ++ b_right b) -> (num u < num v <-> u < v)) /\
     (forall i, In i (b_left (to_bipartite f)) <-> exists u, In u (b_left b) /\ i = num u) /\
     (forall i, In i (b_right (to_bipartite f)) <-> exists u, In u (b_right b) /\ i = num u) /\
     (forall i, In i (b_left (to_bipartite f)) \/ In i (b_right (to_bipartite f)) <-> 1 <= i <= Z.of_nat (List.length (b_left b ++ b_right b))) /\
     forall u v, In u (b_left b ++ b_right b) -> In v (b_left b ++ b_right b) -> (In (num u, num v) (b_edges (to_bipartite f)) <-> In (u, v) (b_edges b))).
Proof. exact p_C84_round_trip. Qed.
Print Assumptions C84_round_trip.

Example C84_negative : numbers [-3] (txt "-3") /\ readGraph_kthlist Simple (txt "-3
2
") = Err ValueError.
Proof. split; [apply (numbers_join [-3])|vm_compute; reflexivity]. Qed.
(* three vertices, arcs 1 -> 3 and 2 -> 3 *)
Definition small_dag : list text := map txt ["c a pyramid"; ""; "3"; "c"; " 3 : 1  2 0"]%string.
Example C84_file : Forall one_line small_dag /\ kthlist_file small_dag (txt "a pyramid" ++ [nl]) 3 [(3, [1; 2])].
Proof.
  split; [repeat (constructor; [intros K; repeat (destruct K as [K|K]; [discriminate K|]); destruct K|]); constructor|].
  exists [txt "c a pyramid"; []], (txt "3"), [txt "c"; txt " 3 : 1  2 0"], (txt "a pyramid" ++ nl :: []), []. split; [reflexivity|]. split; [reflexivity|]. split; [lia|].
  split; [apply adj_comment; apply adj_blank; [constructor|]; apply adj_none|]. split; [apply (numbers_join [3])|].
  apply adj_bare. apply (adj_line 3 3 [1; 2] (txt " 3 ") (txt " 1  2 0")); [| |lia|cbn; intuition lia|apply adj_none].
  - apply (numbers_cons [" "%char] 3 (str_Z 3) [] " "%char []); [constructor; [left; reflexivity|constructor]|apply PReader.str_Z_numeral|left; reflexivity|constructor; constructor].
  - apply (numbers_cons [" "%char] 1 (str_Z 1) [2; 0] " "%char (txt " 2 0")); [constructor; [left; reflexivity|constructor]|apply PReader.str_Z_numeral|left; reflexivity|].
    apply (numbers_before [" "%char]); [constructor; [left; reflexivity|constructor]|]. apply (numbers_join [2; 0]).
Qed.
(* a sorted file in the sense of the documentation is not marked as sorted; the file with the opposite arcs is *)
Example C84_marks :
  (exists f, readGraph_kthlist Dag (ended small_dag) = Ok f /\ f_sorted f = false) /\
  (exists f, readGraph_kthlist Dag (txt "3
1 : 3 0
2 : 3 0") = Ok f /\ f_sorted f = true) /\
  readGraph_kthlist Dag (txt "2
1 : 2 0
2 : 1 0") = Err ValueError.
Proof. split; [eexists; split; vm_compute; reflexivity|]. split; [eexists; split; vm_compute; reflexivity|]. vm_compute. reflexivity. Qed.
(* a path, hence bipartite, refused because of the order of the lines; with the lines in another order it is accepted *)
Example C84_greedy :
  readGraph_kthlist Bipartite (txt "4
1 : 2 0
3 : 4 0
1 : 3 0") = Err ValueError /\
  exists f, readGraph_kthlist Bipartite (txt "4
1 : 2 0
1 : 3 0
3 : 4 0") = Ok f /\ to_bipartite f = mkBipartite [1; 4] [2; 3] [(1, 2); (1, 3); (4, 3)].
Proof. split; [vm_compute; reflexivity|]. eexists. split; vm_compute; reflexivity. Qed.
(* a loop is accepted; then 1 and 2 are on the right side although they are joined *)
Example C84_loop : exists f, readGraph_kthlist Bipartite (txt "2
1 : 1 2 0") = Ok f /\ b_left (to_bipartite f) = [] /\ b_right (to_bipartite f) = [1; 2].
Proof. eexists. split; [vm_compute; reflexivity|]. split; vm_compute; reflexivity. Qed.
Definition square : graph := mkGraph [4; 7; 8; 9] [(4, 7); (7, 8); (8, 9); (4, 9)].
Example C84_square : simple_graph square.
Proof.
  split.
  - repeat (constructor; [cbn; intuition discriminate|]). constructor.
  - repeat (constructor; [cbn; intuition discriminate|]). constructor.
  - cbn. intros u v H K. repeat (destruct H as [H|H]; [injection H as <- <-; repeat (destruct K as [K|K]; [discriminate K|]); destruct K|]). destruct H.
  - cbn. intros u v H. repeat (destruct H as [H|H]; [injection H as <- <-; auto 8|]). destruct H.
Qed.
Example C84_written : writeGraph_kthlist (txt "square") square = txt "c square
4
1 : 2 4 0
2 : 1 3 0
3 : 2 4 0
4 : 1 3 0

".
Proof. vm_compute. reflexivity. Qed.
(* a name of two lines is written as it is: the file cannot be read again *)
Example C84_two_lines : readGraph_kthlist Simple (writeGraph_kthlist (txt "square
of side 1") square) = Err ValueError.
Proof. vm_compute. reflexivity. Qed.
(* an acyclic directed graph, a bipartite graph *)
Example C84_applies : proper_digraph (mkDigraph [5; 3; 1] [(5, 3); (5, 1); (3, 1)]) /\ acyclic (mkDigraph [5; 3; 1] [(5, 3); (5, 1); (3, 1)]) /\
  bipartite_graph (mkBipartite [1; 4] [2; 3] [(1, 2); (1, 3); (4, 3)]).
Proof.
  split; [|split].
  - split.
    + repeat (constructor; [cbn; intuition discriminate|]). constructor.
    + intros u v H. repeat (destruct H as [H|H]; [injection H as <- <-; cbn; auto 8|]). destruct H.
  - apply downward_acyclic. intros u v H. repeat (destruct H as [H|H]; [injection H as <- <-; lia|]). destruct H.
  - split.
    + repeat (constructor; [cbn; intuition discriminate|]). constructor.
    + repeat (constructor; [cbn; intuition discriminate|]). constructor.
    + repeat (constructor; [cbn; intuition discriminate|]). constructor.
    + intros u v H. repeat (destruct H as [H|H]; [injection H as <- <-; cbn; auto 8|]). destruct H.
    + cbn. intros v H K. intuition lia.
Qed.
