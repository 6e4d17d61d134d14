(* PP24.v -- C84: graphs in the kthlist format *)
From Coq Require Import String Ascii ZArith List Bool Lia Sorted.
From Verif Require Import Spec SpecInput SpecFile PyBase MSet MText MCnf MFam MFam2 MTrans MFile SpecCnf SpecFam SpecFam2 PText PReader PLib PFam1 PFam2 PFam4 PFam8 PFam15 PFile1 PFile3 PFile4 PFile5 PFile6.
Import ListNotations.
Open Scope Z_scope.

(* C84: a directed graph: the vertices 1 .. n, the arcs of the lists; marked as sorted when every arc goes from a larger to
   a smaller number.  As dag it is accepted exactly when it has no cycle *)
Lemma p_C84_digraph : forall lines name n adj, Forall one_line lines -> kthlist_file lines name n adj ->
  exists f, readGraph_kthlist Directed (ended lines) = Ok f /\ f_name f = name /\ proper_digraph (to_digraph f) /\
    d_nodes (to_digraph f) = range 1 (n + 1) /\ (forall u v, arc (to_digraph f) u v <-> listed adj u v) /\
    (f_sorted f = true <-> forall u v, listed adj u v -> v < u) /\
    (acyclic (to_digraph f) -> readGraph_kthlist Dag (ended lines) = Ok f) /\
    (~ acyclic (to_digraph f) -> readGraph_kthlist Dag (ended lines) = Err ValueError).
Proof.
  intros ls name n adj O F. pose proof (read_kthlist_ok true false _ _ _ _ O F) as E. cbn [bind] in E. fold (edges_of true adj) in E.
  destruct (kth_digraph n adj [] name (kthlist_range _ _ _ _ F)) as (P & V & A).
  set (f := mkFile (range 1 (n + 1)) (edges_of true adj) [] (downward adj) name) in *.
  exists f. unfold readGraph_kthlist. cbn [is_directed is_bipartite]. rewrite E. cbn [bind].
  split; [reflexivity|]. split; [reflexivity|]. split; [exact P|]. split; [exact V|]. split; [exact A|]. split; [apply downward_spec|]. split.
  - intros K. rewrite (proj2 (is_dag_ok _ P) K). reflexivity.
  - intros K. destruct (is_dag (to_digraph f)) eqn:D; [exfalso; apply K; apply is_dag_ok; auto|].
    destruct (f_sorted f) eqn:Sf; [|reflexivity]. exfalso. apply K. apply downward_acyclic. intros u v H. apply A in H.
    exact (proj1 (downward_spec adj) Sf u v H).
Qed.
(* C84: an undirected graph: u and v are adjacent when one is in the list of the other.  Loops are not refused *)
Lemma p_C84_simple : forall lines name n adj, Forall one_line lines -> kthlist_file lines name n adj ->
  exists f, readGraph_kthlist Simple (ended lines) = Ok f /\ f_name f = name /\ g_nodes (to_graph f) = range 1 (n + 1) /\
    (forall u v, adjacent (to_graph f) u v <-> listed adj u v \/ listed adj v u) /\
    ((forall v, ~ listed adj v v) -> simple_graph (to_graph f)).
Proof.
  intros ls name n adj O F. pose proof (read_kthlist_ok false false _ _ _ _ O F) as E. cbn [bind] in E. fold (edges_of false adj) in E.
  exists (mkFile (range 1 (n + 1)) (edges_of false adj) [] (downward adj) name). unfold readGraph_kthlist. cbn [is_directed is_bipartite]. rewrite E. cbn [bind].
  split; [reflexivity|]. split; [reflexivity|]. apply kth_graph. eapply kthlist_range; eauto.
Qed.
(* C84: a bipartite graph.  Without loops an accepted file gives a bipartite graph with the edges of the lists.  When no
   vertex has a line and is in a list, the file is accepted and the vertices with a line are the left side.  The
   only other answer is ValueError, for every graph that is not bipartite *)
Lemma p_C84_bipartite : forall lines name n adj, Forall one_line lines -> kthlist_file lines name n adj ->
  ((exists f, readGraph_kthlist Bipartite (ended lines) = Ok f /\ f_name f = name) \/ readGraph_kthlist Bipartite (ended lines) = Err ValueError) /\
  (forall f, readGraph_kthlist Bipartite (ended lines) = Ok f -> (forall v, ~ listed adj v v) ->
     bipartite_graph (to_bipartite f) /\ (forall w, In w (b_left (to_bipartite f)) \/ In w (b_right (to_bipartite f)) <-> 1 <= w <= n) /\
     (forall u v, In (u, v) (b_edges (to_bipartite f)) <-> In u (b_left (to_bipartite f)) /\ (listed adj u v \/ listed adj v u))) /\
  ((forall u v us, listed adj u v -> ~ In (u, us) adj) -> exists f, readGraph_kthlist Bipartite (ended lines) = Ok f /\
     forall w, In w (b_left (to_bipartite f)) <-> exists us, In (w, us) adj) /\
  ((forall v, ~ listed adj v v) -> ~ (exists side : Z -> bool, forall u v, listed adj u v -> side u <> side v) ->
     readGraph_kthlist Bipartite (ended lines) = Err ValueError).
Proof.
  intros ls name n adj O F. pose proof (read_kthlist_ok false true _ _ _ _ O F) as E. fold (edges_of false adj) in E.
  pose proof (kthlist_range _ _ _ _ F) as R. unfold readGraph_kthlist. cbn [is_directed is_bipartite]. rewrite E.
  assert (G : forall f, (f' <- (colors <- color_lists adj [] ;; Ok (mkFile (range 1 (n + 1)) (edges_of false adj) (residual n colors) (downward adj) name)) ;; Ok f') = Ok f ->
    exists cs, color_lists adj [] = Ok cs /\ f = bip_file n adj cs name).
  { intros f K. destruct (color_lists adj []) as [cs| |]; cbn [bind] in K; try discriminate. injection K as <-. exists cs. auto. }
  assert (B : forall f, (f' <- (colors <- color_lists adj [] ;; Ok (mkFile (range 1 (n + 1)) (edges_of false adj) (residual n colors) (downward adj) name)) ;; Ok f') = Ok f -> (forall v, ~ listed adj v v) ->
     bipartite_graph (to_bipartite f) /\ (forall w, In w (b_left (to_bipartite f)) \/ In w (b_right (to_bipartite f)) <-> 1 <= w <= n) /\
     (forall u v, In (u, v) (b_edges (to_bipartite f)) <-> In u (b_left (to_bipartite f)) /\ (listed adj u v \/ listed adj v u))).
  { intros f K NL. destruct (G f K) as (cs & Ec & ->). destruct (bip_ok n adj cs name R NL Ec) as (B1 & B2 & _ & B4). auto. }
  assert (D : (exists f, (f' <- (colors <- color_lists adj [] ;; Ok (mkFile (range 1 (n + 1)) (edges_of false adj) (residual n colors) (downward adj) name)) ;; Ok f') = Ok f /\ f_name f = name) \/
    (f' <- (colors <- color_lists adj [] ;; Ok (mkFile (range 1 (n + 1)) (edges_of false adj) (residual n colors) (downward adj) name)) ;; Ok f') = Err ValueError).
  { destruct (color_lists adj []) as [cs|e|] eqn:Ec; cbn [bind].
    - left. eexists. split; [reflexivity|reflexivity].
    - right. apply color_lists_err in Ec. subst. reflexivity.
    - apply color_lists_fuel in Ec. destruct Ec. }
  split; [exact D|]. split; [exact B|]. split.
  - intros Hs. assert (SD : sided adj) by (intros u v w us L H K; subst w; apply (Hs u v us); auto).
    destruct (sided_colors adj SD adj [] (incl_refl adj)) as (cs & EC & C1 & _ & C3); [intros w k K; discriminate|].
    rewrite EC. cbn [bind]. eexists. split; [reflexivity|]. intros w. change (mkFile (range 1 (n + 1)) (edges_of false adj) (residual n cs) (downward adj) name) with (bip_file n adj cs name).
    assert (NL : no_loops adj) by (intros v (us & H & K); apply (Hs v v us); auto; exists us; auto).
    destruct (bip_ok n adj cs name R NL EC) as (_ & _ & B3 & _). rewrite B3. split.
    + intros [H _]. destruct (C1 w 0 H) as [[_ K]|[K _]]; [auto|discriminate].
    + intros (us & H). split; [eapply C3; eauto|]. clear - F H.
      destruct F as (pre & size & post & n1 & n2 & _ & _ & _ & _ & _ & A). induction A; auto; [destruct H|].
      destruct H as [H|H]; auto. inversion H; subst. auto.
  - intros NL NB. destruct D as [(f & K & _)|K]; auto. exfalso. apply NB. destruct (G f K) as (cs & Ec & _).
    assert (V0 : valid_colors []) by (intros w k K1; discriminate).
    destruct (color_lists_ok adj NL [] cs Ec V0) as (V & _ & L).
    exists (fun w => match dget Z.eqb w cs with Some k => k =? 0 | None => false end). intros u v H. destruct (L u v H) as (c & A1 & A2). rewrite A1, A2.
    destruct (V _ _ A2) as [-> | ->]; discriminate.
Qed.
(* C84: refused, whatever follows: a second line without colon; a list that does not end in 0, with a vertex out of range
   or with a word that is no integer; a list before the number of vertices; a negative number of vertices.  Without this number the file is refused *)
Lemma p_C84_refused : forall k lines name n adj text, Forall one_line lines ->
  (forall l, kthlist_file lines name n adj -> one_line l -> bad_line n l -> readGraph_kthlist k (ended (lines ++ [l]) ++ text) = Err ValueError) /\
  (adjacency_lines n lines name [] ->
     (forall l, one_line l -> bad_line (-1) l -> readGraph_kthlist k (ended (lines ++ [l]) ++ text) = Err ValueError) /\
     (forall l z, one_line l -> numbers [z] l -> z < 0 -> readGraph_kthlist k (ended (lines ++ [l]) ++ text) = Err ValueError) /\
     readGraph_kthlist k (ended lines) = Err ValueError).
Proof.
  intros k ls name n adj t O. unfold readGraph_kthlist. split.
  - intros l F O2 B. erewrite read_bad; eauto.
  - intros A. split; [intros l O2 B; erewrite read_early; eauto|split; [intros l z O2 B N; erewrite read_negative; eauto|erewrite read_no_size; eauto]].
Qed.
(* C84: a list before the number of vertices is such a line; the newline of the last line may be missing *)
Lemma p_C84_last_line : forall k,
  (forall v us a b, numbers [v] a -> numbers us b -> bad_line (-1) (a ++ ":"%char :: b)) /\
  (forall lines l, Forall one_line lines -> one_line l -> l <> [] -> hd_error l <> Some "c"%char ->
     readGraph_kthlist k (ended lines ++ l) = readGraph_kthlist k (ended (lines ++ [l]))).
Proof.
  intros k. split.
  - intros v us a b Ha Hb. destruct (Z.eq_dec (List.last us 1) 0) as [E|E].
    + destruct us as [|u us] using rev_ind; [discriminate|]. rewrite last_last in E. subst u. eapply bad_target; eauto. lia.
    + eapply bad_end; eauto.
  - intros ls l O O2 N H. unfold readGraph_kthlist. rewrite kth_last by auto. reflexivity.
Qed.
(* C84: a graph written and read again is the same up to the numbers of the vertices, which are their positions *)
Lemma p_C84_round_trip : forall name, one_line name ->
  (forall g, simple_graph g -> exists f num, readGraph_kthlist Simple (writeGraph_kthlist name g) = Ok f /\ f_name f = name ++ [nl] /\
     simple_graph (to_graph f) /\ map num (g_nodes g) = g_nodes (to_graph f) /\
     g_nodes (to_graph f) = range 1 (Z.of_nat (List.length (g_nodes g)) + 1) /\
     forall u v, In u (g_nodes g) -> In v (g_nodes g) -> (adjacent (to_graph f) (num u) (num v) <-> adjacent g u v)) /\
  (forall d, proper_digraph d -> exists f num, readGraph_kthlist Directed (writeDigraph_kthlist name d) = Ok f /\ f_name f = name ++ [nl] /\
     proper_digraph (to_digraph f) /\ map num (d_nodes d) = d_nodes (to_digraph f) /\
     d_nodes (to_digraph f) = range 1 (Z.of_nat (List.length (d_nodes d)) + 1) /\
     (forall u v, In u (d_nodes d) -> In v (d_nodes d) -> (arc (to_digraph f) (num u) (num v) <-> arc d u v)) /\
     (acyclic d -> acyclic (to_digraph f) /\ readGraph_kthlist Dag (writeDigraph_kthlist name d) = Ok f)) /\
  (forall b, bipartite_graph b -> exists f num, readGraph_kthlist Bipartite (writeBipartite_kthlist name b) = Ok f /\ f_name f = name ++ [nl] /\
     bipartite_graph (to_bipartite f) /\
     (forall u v, In u (b_left b ++ b_right b) -> In v (b_left b ++ b_right b) -> (num u < num v <-> u < v)) /\
     (forall i, In i (b_left (to_bipartite f)) <-> exists u, In u (b_left b) /\ i = num u) /\
     (forall i, In i (b_right (to_bipartite f)) <-> exists u, In u (b_right b) /\ i = num u) /\
     (forall i, In i (b_left (to_bipartite f)) \/ In i (b_right (to_bipartite f)) <-> 1 <= i <= Z.of_nat (List.length (b_left b ++ b_right b))) /\
     forall u v, In u (b_left b ++ b_right b) -> In v (b_left b ++ b_right b) -> (In (num u, num v) (b_edges (to_bipartite f)) <-> In (u, v) (b_edges b))).
Proof.
  intros name O. split; [|split].
  - intros g S. destruct (simple_written name g O S) as (f & E & N & Sf & V & A). exists f, (position_in (g_nodes g)).
    repeat (split; auto). rewrite V. apply positions. apply S.
  - intros d P. destruct (digraph_written name d O P) as (f & E & N & Sf & V & A & C). exists f, (position_in (d_nodes d)).
    split; auto. split; auto. split; auto. split; [rewrite V; apply positions; apply P|]. auto.
  - intros b B. destruct (bipartite_written name b O B) as (f & E & N & Sf & L & R & A). exists f, (position_in (bip_vertices b)).
    assert (M : forall w, In w (b_left b ++ b_right b) <-> In w (bip_vertices b)) by (intros w; unfold bip_vertices; rewrite sorted_In; tauto).
    split; auto. split; auto. split; auto. split; [|split; auto; split; auto; split].
    + intros u v Hu Hv. apply M in Hu, Hv.
      assert (I : forall u v, In u (bip_vertices b) -> In v (bip_vertices b) -> u < v -> position_in (bip_vertices b) u < position_in (bip_vertices b) v).
      { intros x y Hx Hy L1. apply position_increasing; auto. apply sorted_strict. apply NoDup_app_intro; [apply B|apply B|]. intros z Hz. apply (bg_apart b B z Hz). }
      split; [|apply I; auto]. intros K. destruct (Z.lt_total u v) as [H|[->|H]]; auto; [lia|]. apply (I v u) in H; auto. lia.
    + intros i. assert (LV : List.length (bip_vertices b) = List.length (b_left b ++ b_right b)) by (apply Permutation.Permutation_length; apply sort_by_Perm). rewrite <- LV.
      assert (ND : NoDup (bip_vertices b)).
      { apply (Permutation.Permutation_NoDup (Permutation.Permutation_sym (sort_by_Perm _ _))). apply NoDup_app_intro; [apply B|apply B|]. intros z Hz. apply (bg_apart b B z Hz). }
      split.
      * intros [H|H]; [apply L in H|apply R in H]; destruct H as (u & Hu & ->); apply position_range; apply M; apply in_app_iff; auto.
      * intros H. destruct (positions_exist _ _ H ND) as (u & Hu & ->). apply M, in_app_iff in Hu as [Hu|Hu]; [left; apply L|right; apply R]; eauto.
    + intros u v Hu Hv. apply A; apply M; auto.
Qed.
(*EX
Example C84_negative : numbers [-3] (txt "-3") /\ readGraph_kthlist Simple (txt "-3
2
") = Err ValueError.
Proof. split; [apply (numbers_join [-3])|vm_compute; reflexivity]. Qed.
(* three vertices, arcs 1 -> 3 and 2 -> 3 *)
Definition small_dag : list text := map txt ["c a pyramid"; ""; "3"; "c"; " 3 : 1  2 0"]%string.
Example C84_file : Forall one_line small_dag /\ kthlist_file small_dag (txt "a pyramid" ++ [nl]) 3 [(3, [1; 2])].
Proof.
  split; [repeat (constructor; [intros K; repeat (destruct K as [K|K]; [discriminate K|]); destruct K|]); constructor|].
  exists [txt "c a pyramid"; []], (txt "3"), [txt "c"; txt " 3 : 1  2 0"], (txt "a pyramid" ++ nl :: []), []. split; [reflexivity|]. split; [reflexivity|]. split; [lia|].
  split; [apply adj_comment; apply adj_blank; [constructor|]; apply adj_none|]. split; [apply (numbers_join [3])|].
  apply adj_bare. apply (adj_line 3 3 [1; 2] (txt " 3 ") (txt " 1  2 0")); [| |lia|cbn; intuition lia|apply adj_none].
  - apply (numbers_cons [" "%char] 3 (str_Z 3) [] " "%char []); [constructor; [left; reflexivity|constructor]|apply PReader.str_Z_numeral|left; reflexivity|constructor; constructor].
  - apply (numbers_cons [" "%char] 1 (str_Z 1) [2; 0] " "%char (txt " 2 0")); [constructor; [left; reflexivity|constructor]|apply PReader.str_Z_numeral|left; reflexivity|].
    apply (numbers_before [" "%char]); [constructor; [left; reflexivity|constructor]|]. apply (numbers_join [2; 0]).
Qed.
(* a sorted file in the sense of the documentation is not marked as sorted; the file with the opposite arcs is *)
Example C84_marks :
  (exists f, readGraph_kthlist Dag (ended small_dag) = Ok f /\ f_sorted f = false) /\
  (exists f, readGraph_kthlist Dag (txt "3
1 : 3 0
2 : 3 0") = Ok f /\ f_sorted f = true) /\
  readGraph_kthlist Dag (txt "2
1 : 2 0
2 : 1 0") = Err ValueError.
Proof. split; [eexists; split; vm_compute; reflexivity|]. split; [eexists; split; vm_compute; reflexivity|]. vm_compute. reflexivity. Qed.
(* a path, hence bipartite, refused because of the order of the lines; with the lines in another order it is accepted *)
Example C84_greedy :
  readGraph_kthlist Bipartite (txt "4
1 : 2 0
3 : 4 0
1 : 3 0") = Err ValueError /\
  exists f, readGraph_kthlist Bipartite (txt "4
1 : 2 0
1 : 3 0
3 : 4 0") = Ok f /\ to_bipartite f = mkBipartite [1; 4] [2; 3] [(1, 2); (1, 3); (4, 3)].
Proof. split; [vm_compute; reflexivity|]. eexists. split; vm_compute; reflexivity. Qed.
(* a loop is accepted; then 1 and 2 are on the right side although they are joined *)
Example C84_loop : exists f, readGraph_kthlist Bipartite (txt "2
1 : 1 2 0") = Ok f /\ b_left (to_bipartite f) = [] /\ b_right (to_bipartite f) = [1; 2].
Proof. eexists. split; [vm_compute; reflexivity|]. split; vm_compute; reflexivity. Qed.
Definition square : graph := mkGraph [4; 7; 8; 9] [(4, 7); (7, 8); (8, 9); (4, 9)].
Example C84_square : simple_graph square.
Proof.
  split.
  - repeat (constructor; [cbn; intuition discriminate|]). constructor.
  - repeat (constructor; [cbn; intuition discriminate|]). constructor.
  - cbn. intros u v H K. repeat (destruct H as [H|H]; [injection H as <- <-; repeat (destruct K as [K|K]; [discriminate K|]); destruct K|]). destruct H.
  - cbn. intros u v H. repeat (destruct H as [H|H]; [injection H as <- <-; auto 8|]). destruct H.
Qed.
Example C84_written : writeGraph_kthlist (txt "square") square = txt "c square
4
1 : 2 4 0
2 : 1 3 0
3 : 2 4 0
4 : 1 3 0

".
Proof. vm_compute. reflexivity. Qed.
(* a name of two lines is written as it is: the file cannot be read again *)
Example C84_two_lines : readGraph_kthlist Simple (writeGraph_kthlist (txt "square
of side 1") square) = Err ValueError.
Proof. vm_compute. reflexivity. Qed.
(* an acyclic directed graph, a bipartite graph *)
Example C84_applies : proper_digraph (mkDigraph [5; 3; 1] [(5, 3); (5, 1); (3, 1)]) /\ acyclic (mkDigraph [5; 3; 1] [(5, 3); (5, 1); (3, 1)]) /\
  bipartite_graph (mkBipartite [1; 4] [2; 3] [(1, 2); (1, 3); (4, 3)]).
Proof.
  split; [|split].
  - split.
    + repeat (constructor; [cbn; intuition discriminate|]). constructor.
    + intros u v H. repeat (destruct H as [H|H]; [injection H as <- <-; cbn; auto 8|]). destruct H.
  - apply downward_acyclic. intros u v H. repeat (destruct H as [H|H]; [injection H as <- <-; lia|]). destruct H.
  - split.
    + repeat (constructor; [cbn; intuition discriminate|]). constructor.
    + repeat (constructor; [cbn; intuition discriminate|]). constructor.
    + repeat (constructor; [cbn; intuition discriminate|]). constructor.
    + intros u v H. repeat (destruct H as [H|H]; [injection H as <- <-; cbn; auto 8|]). destruct H.
    + cbn. intros v H K. intuition lia.
Qed.
EX*)
