(* PP25.v -- C85: graphs in the DIMACS edge format, matrices *)
From Coq Require Import String Ascii ZArith List Bool Lia Sorted.
From Verif Require Import Spec SpecInput SpecFile PyBase MSet MText MCnf MFam MFam2 MTrans MFile SpecCnf SpecFam SpecFam2 PText PReader PLib PCnf3 PFam1 PFam2 PFam4 PFam8 PFam15 PGen6 PFile1 PFile2 PFile3 PFile4 PFile5 PFile6 PFile7.
Import ListNotations.
Open Scope Z_scope.

(* C85: the file is accepted exactly when it has a line p and as many lines e as this line says; the edges are those of the
   lines e, the vertices are 1 .. n and the ends of the edges *)
Lemma p_C85_read : forall directed lines name spec es, Forall one_line lines -> edge_file lines name spec es ->
  (forall n m, spec = Some (n, m) -> m = Z.of_nat (List.length es) ->
     exists f, read_dimacs_graph directed (ended lines) = Ok f /\ f_name f = name /\ NoDup (f_vertices f) /\
       (forall w, In w (f_vertices f) <-> 1 <= w <= n \/ exists u v, In (u, v) es /\ (w = u \/ w = v)) /\
       (directed = true -> forall u v, arc (to_digraph f) u v <-> In (u, v) es) /\
       (directed = false -> forall u v, adjacent (to_graph f) u v <-> In (u, v) es \/ In (v, u) es)) /\
  (spec = None \/ (exists n m, spec = Some (n, m) /\ m <> Z.of_nat (List.length es)) -> read_dimacs_graph directed (ended lines) = Err ValueError).
Proof.
  intros d ls name sp es O H. destruct (read_edges d ls name sp es O H) as (V & DV & I & E). split.
  - intros n m -> ->. rewrite Z.eqb_refl in E. exists (mkFile V (edges_of d (map single es)) [] false name). split; [exact E|]. split; [reflexivity|]. split; [exact DV|]. split; [|split].
    + intros w. cbn [f_vertices]. rewrite I. unfold vertices_from. split.
      * intros [[]|[(n' & m' & K & L)|([u v] & K & L)]]; [injection K as <- <-; auto|]. right. exists u, v. auto.
      * intros [K|(u & v & K & L)]; right; [left; eauto|]. right. exists (u, v). auto.
    + intros -> u v. rewrite <- singles_listed, <- edges_directed. reflexivity.
    + intros -> u v. rewrite <- !(singles_listed es), <- edges_undirected.
      assert (P : forall e, In e (g_edges (to_graph (mkFile V (edges_of false (map single es)) [] false name))) <-> In e (map sorted_pair (edges_of false (map single es)))).
      { intros e. split; apply Permutation.Permutation_in; [apply sort_by_Perm|apply Permutation.Permutation_sym, sort_by_Perm]. }
      unfold adjacent. rewrite !P. generalize (edges_of false (map single es)). intros l. split.
      * intros [K|K]; apply sorted_pair_In in K as (a & b & K & L); injection L as L1 L2; destruct (Z.min_spec a b) as [[Q1 M]|[Q1 M]], (Z.max_spec a b) as [[Q2 X]|[Q2 X]]; try lia;
          assert ((u = a /\ v = b) \/ (u = b /\ v = a)) as [[-> ->]|[-> ->]] by lia; auto.
      * assert (S : forall a b, In (a, b) l -> a <= b -> In (a, b) (map sorted_pair l)).
        { intros a b K L. apply in_map_iff. exists (a, b). split; auto. unfold sorted_pair. cbn [fst snd]. rewrite Z.min_l, Z.max_r by lia. reflexivity. }
        assert (S' : forall a b, In (a, b) l -> b <= a -> In (b, a) (map sorted_pair l)).
        { intros a b K L. apply in_map_iff. exists (a, b). split; auto. unfold sorted_pair. cbn [fst snd]. rewrite Z.min_r, Z.max_l by lia. reflexivity. }
        intros [K|K]; destruct (Z.le_ge_cases u v); auto.
  - intros [->|(n & m & -> & D)]; rewrite E.
    + destruct (Z.eqb_spec (-1) (Z.of_nat (List.length es))); [lia|reflexivity].
    + destruct (Z.eqb_spec m (Z.of_nat (List.length es))); [contradiction|reflexivity].
Qed.
(* C85: when the ends are between 1 and n, the vertices are 1 .. n, and without loops the undirected graph is simple *)
Lemma p_C85_in_range : forall lines name n m es, Forall one_line lines -> edge_file lines name (Some (n, m)) es -> m = Z.of_nat (List.length es) ->
  (forall u v, In (u, v) es -> 1 <= u <= n /\ 1 <= v <= n) ->
  (exists f, read_dimacs_graph true (ended lines) = Ok f /\ proper_digraph (to_digraph f) /\ d_nodes (to_digraph f) = range 1 (n + 1)) /\
  (exists f, read_dimacs_graph false (ended lines) = Ok f /\ g_nodes (to_graph f) = range 1 (n + 1) /\
     ((forall v, ~ In (v, v) es) -> simple_graph (to_graph f))).
Proof.
  intros ls name n m es O H -> R.
  assert (RL : forall u v, listed (map single es) u v -> 1 <= u <= n /\ 1 <= v <= n) by (intros u v K; apply R; apply singles_listed; auto).
  split.
  - destruct (read_edges true ls name _ es O H) as (V & DV & I & E). rewrite Z.eqb_refl in E. eexists. split; [exact E|].
    pose proof (range_vertices V n DV (in_range_vertices _ _ _ _ I R)) as SV.
    assert (EQ : to_digraph (mkFile V (edges_of true (map single es)) [] false name) = to_digraph (mkFile (range 1 (n + 1)) (edges_of true (map single es)) [] (downward (map single es)) name)).
    { unfold to_digraph. cbn [f_vertices f_edges]. rewrite SV, sort_range. reflexivity. }
    rewrite EQ. destruct (kth_digraph n (map single es) [] name RL) as (P & Q & _). auto.
  - destruct (read_edges false ls name _ es O H) as (V & DV & I & E). rewrite Z.eqb_refl in E. eexists. split; [exact E|].
    pose proof (range_vertices V n DV (in_range_vertices _ _ _ _ I R)) as SV.
    assert (EQ : to_graph (mkFile V (edges_of false (map single es)) [] false name) = to_graph (mkFile (range 1 (n + 1)) (edges_of false (map single es)) [] (downward (map single es)) name)).
    { unfold to_graph. cbn [f_vertices f_edges]. rewrite SV, sort_range. reflexivity. }
    rewrite EQ. destruct (kth_graph n (map single es) [] name RL) as (P & _ & Q). split; auto. intros NL. apply Q. intros v K. apply (NL v). apply singles_listed; auto.
Qed.
(* C85: refused, whatever follows: a second line p, a line p of another form, a line e without two integers *)
Lemma p_C85_refused : forall directed lines name spec es text, Forall one_line lines -> edge_file lines name spec es ->
  (spec <> None -> read_dimacs_graph directed (ended lines ++ "p"%char :: text) = Err ValueError) /\
  (forall l, one_line l -> bad_edge_line l -> read_dimacs_graph directed (ended (lines ++ [l]) ++ text) = Err ValueError).
Proof. intros d ls name sp es t O H. split; [intros N; eapply read_second_spec; eauto|intros l O2 B; eapply read_bad_edge; eauto]. Qed.
(* C85: a graph written and read again is the same up to the numbers of the vertices, which are their positions; the name
   loses the blanks at its end and gets a newline *)
Lemma p_C85_round_trip : forall name, one_line name ->
  (forall g, simple_graph g -> exists f num, read_dimacs_graph false (write_dimacs_graph name (g_nodes g) (g_edges g)) = Ok f /\
     f_name f = match rstrip name with [] => [] | t => t ++ [nl] end /\
     simple_graph (to_graph f) /\ map num (g_nodes g) = g_nodes (to_graph f) /\
     g_nodes (to_graph f) = range 1 (Z.of_nat (List.length (g_nodes g)) + 1) /\
     forall u v, In u (g_nodes g) -> In v (g_nodes g) -> (adjacent (to_graph f) (num u) (num v) <-> adjacent g u v)) /\
  (forall d, proper_digraph d -> exists f num, read_dimacs_graph true (write_dimacs_graph name (d_nodes d) (d_edges d)) = Ok f /\
     proper_digraph (to_digraph f) /\ map num (d_nodes d) = d_nodes (to_digraph f) /\
     d_nodes (to_digraph f) = range 1 (Z.of_nat (List.length (d_nodes d)) + 1) /\
     forall u v, In u (d_nodes d) -> In v (d_nodes d) -> (arc (to_digraph f) (num u) (num v) <-> arc d u v)).
Proof.
  intros name O. split.
  - intros g S. destruct (written_edges name (g_nodes g) (g_edges g) O) as [OL F]. set (V := g_nodes g) in *.
    assert (R : forall a b, In (a, b) (g_edges g) -> In a V /\ In b V) by (apply (sg_ends g S)).
    set (es := numbered V (g_edges g)) in *.
    assert (LE : Z.of_nat (List.length (g_edges g)) = Z.of_nat (List.length es)) by (unfold es, numbered; rewrite map_length; reflexivity).
    destruct (p_C85_read false _ _ _ _ OL F) as [A _]. destruct (A _ _ eq_refl LE) as (f & E & Nf & _ & _ & _ & Ad). specialize (Ad eq_refl).
    assert (IR : forall u v, In (u, v) es -> 1 <= u <= Z.of_nat (List.length V) /\ 1 <= v <= Z.of_nat (List.length V)).
    { intros i j K. apply numbered_positions in K as (u & v & Hu & Hv & -> & -> & _); auto. split; apply position_range; auto. }
    destruct (p_C85_in_range _ _ _ _ _ OL F LE IR) as [_ (f' & E' & Q & Sf)]. rewrite E in E'. injection E' as <-.
    exists f, (position_in V). rewrite write_edges. split; [exact E|]. split; [|split; [|split; [|split; [exact Q|]]]].
    + exact Nf.
    + apply Sf. intros i K. apply numbered_positions in K as (u & v & Hu & Hv & -> & K1 & K); auto. apply position_inj in K1; auto. subst v. apply (sg_once g S u u); auto.
    + rewrite Q. apply positions. apply S.
    + intros u v Hu Hv. rewrite Ad. unfold es. rewrite !numbered_In by auto. unfold adjacent. tauto.
  - intros d P. destruct (written_edges name (d_nodes d) (d_edges d) O) as [OL F]. set (V := d_nodes d) in *.
    assert (R : forall a b, In (a, b) (d_edges d) -> In a V /\ In b V) by (intros a b K; apply (pd_ends d P a b); exact K).
    set (es := numbered V (d_edges d)) in *.
    assert (LE : Z.of_nat (List.length (d_edges d)) = Z.of_nat (List.length es)) by (unfold es, numbered; rewrite map_length; reflexivity).
    destruct (p_C85_read true _ _ _ _ OL F) as [A _]. destruct (A _ _ eq_refl LE) as (f & E & Nf & _ & _ & Ad & _). specialize (Ad eq_refl).
    assert (IR : forall u v, In (u, v) es -> 1 <= u <= Z.of_nat (List.length V) /\ 1 <= v <= Z.of_nat (List.length V)).
    { intros i j K. apply numbered_positions in K as (u & v & Hu & Hv & -> & -> & _); auto. split; apply position_range; auto. }
    destruct (p_C85_in_range _ _ _ _ _ OL F LE IR) as [(f' & E' & Sf & Q) _]. rewrite E in E'. injection E' as <-.
    exists f, (position_in V). rewrite write_edges. split; [exact E|]. split; [exact Sf|]. split; [rewrite Q; apply positions; apply P|]. split; [exact Q|].
    intros u v Hu Hv. rewrite Ad. unfold es. rewrite numbered_In by auto. reflexivity.
Qed.
(* C85: a matrix: the numbers of left and right vertices, then for each left vertex a line with an entry for each right
   vertex, 1 when there is an edge and 0 otherwise.  Reading a matrix always ends with an AttributeError *)
Lemma p_C85_matrix : forall b, 
  (exists size rows, write_matrix b = ended (size :: rows) /\ Forall one_line (size :: rows) /\
     numbers [Z.of_nat (List.length (b_left b)); Z.of_nat (List.length (b_right b))] size /\
     Forall2 (fun u row => exists entries, numbers entries row /\
       Forall2 (fun v e => (In (u, v) (b_edges b) /\ e = 1) \/ (~ In (u, v) (b_edges b) /\ e = 0)) (b_right b) entries) (b_left b) rows) /\
  forall t, read_matrix t = Err AttributeError.
Proof.
  intros b. split; [|reflexivity].
  set (entry := fun u v : Z => if existsb (fun e : Z * Z => (fst e =? u) && (snd e =? v)) (b_edges b) then 1 else 0).
  set (row := fun u => join (txt " ") (map str_Z (map (entry u) (b_right b)))).
  assert (NR : forall u, numbers (map (entry u) (b_right b)) (row u)) by (intros u; apply numbers_join).
  assert (NS : numbers [Z.of_nat (List.length (b_left b)); Z.of_nat (List.length (b_right b))] (join (txt " ") (map str_Z [Z.of_nat (List.length (b_left b)); Z.of_nat (List.length (b_right b))]))) by apply numbers_join.
  exists (join (txt " ") (map str_Z [Z.of_nat (List.length (b_left b)); Z.of_nat (List.length (b_right b))])), (map row (b_left b)).
  split; [|split; [|split; [exact NS|]]].
  - unfold ended. cbn [map concat]. rewrite map_map.
    assert (R : forall u, join (txt " ") (map (fun v => if existsb (fun e => (fst e =? u) && (snd e =? v)) (b_edges b) then txt "1" else txt "0") (b_right b)) = row u).
    { intros u. unfold row. f_equal. rewrite map_map. apply map_ext. intros v. unfold entry. destruct (existsb _ _); reflexivity. }
    assert (RR : map (fun u => join (txt " ") (map (fun v => if existsb (fun e => (fst e =? u) && (snd e =? v)) (b_edges b) then txt "1" else txt "0") (b_right b)) ++ [newline]) (b_left b)
      = map (fun u => row u ++ [nl]) (b_left b)) by (apply map_ext; intros u; rewrite R; reflexivity).
    unfold write_matrix. rewrite RR. cbn [join]. rewrite <- !app_assoc. reflexivity.
  - constructor; [eapply numbers_one_line; eauto|]. rewrite Forall_forall. intros r Hr. apply in_map_iff in Hr as (u & <- & _). eapply numbers_one_line; eauto.
  - clear NS. induction (b_left b) as [|u l IH]; cbn [map]; constructor; [clear IH|exact IH]. exists (map (entry u) (b_right b)). split; [apply NR|]. clear NR row.
    induction (b_right b) as [|v r IH]; cbn [map]; constructor; [clear IH|exact IH]. unfold entry. destruct (existsb _ _) eqn:E.
    + left. split; auto. apply existsb_exists in E as ([x y] & Hx & E). cbn [fst snd] in E. apply andb_true_iff in E as [E1 E2]. apply Z.eqb_eq in E1, E2. subst. auto.
    + right. split; auto. intros K. assert (existsb (fun e : Z * Z => (fst e =? u) && (snd e =? v)) (b_edges b) = true); [|congruence].
      apply existsb_exists. exists (u, v). split; auto. cbn [fst snd]. rewrite !Z.eqb_refl. reflexivity.
Qed.
(*EX
(* a triangle, the line p after the first edge *)
Definition triangle_file : list text := map txt ["c tri"; "e 1 2"; "p edge 3 3"; "n ignored"; ""; "e 2  3"; "edge 3 1"]%string.
Example C85_file : Forall one_line triangle_file /\ edge_file triangle_file (txt "tri" ++ [nl]) (Some (3, 3)) [(1, 2); (2, 3); (3, 1)].
Proof.
  split; [repeat (constructor; [intros K; repeat (destruct K as [K|K]; [discriminate K|]); destruct K|]); constructor|].
  change (txt "tri" ++ [nl]) with (txt "tri" ++ nl :: []). apply (edges_comment " "%char (txt "tri")).
  assert (W1 : forall x, (32 < nat_of_ascii x)%nat -> word [x]) by (intros x Hx; split; [discriminate|intros c [<-|[]]; exact Hx]).
  assert (E3 : forall w a b, word w -> several_words [w; str_Z a; str_Z b] (w ++ " "%char :: str_Z a ++ " "%char :: str_Z b)).
  { intros w a b Hw. apply (words_cons [] w [str_Z a; str_Z b] " "%char (str_Z a ++ " "%char :: str_Z b)); [constructor|exact Hw|left; reflexivity|].
    apply (words_cons [] (str_Z a) [str_Z b] " "%char (str_Z b)); [constructor|eapply numeral_word, PReader.str_Z_numeral|left; reflexivity|].
    apply (words_last []); [constructor|eapply numeral_word, PReader.str_Z_numeral]. }
  eapply (edges_edge (txt " 1 2") (txt "e") 1 2 (str_Z 1) (str_Z 2)); try apply PReader.str_Z_numeral; [apply (E3 (txt "e") 1 2); apply W1; cbv; lia|].
  eapply (edges_spec (txt " edge 3 3") (txt "p") 3 3 (str_Z 3) (str_Z 3)); try apply PReader.str_Z_numeral; [|lia|].
  { apply (words_cons [] (txt "p") [txt "edge"; txt "3"; txt "3"] " "%char (txt "edge 3 3")); [constructor|apply W1; cbv; lia|left; reflexivity|].
    apply (E3 (txt "edge") 3 3). apply word_of_txt; [discriminate|reflexivity]. }
  apply edges_other; try discriminate. apply edges_other; try discriminate.
  eapply (edges_edge (txt " 2  3") (txt "e") 2 3 (str_Z 2) (str_Z 3)); try apply PReader.str_Z_numeral.
  { apply (words_cons [] (txt "e") [txt "2"; txt "3"] " "%char (txt "2  3")); [constructor|apply W1; cbv; lia|left; reflexivity|].
    apply (words_cons [] (txt "2") [txt "3"] " "%char (txt " 3")); [constructor|apply W1; cbv; lia|left; reflexivity|].
    apply (words_last [" "%char] (txt "3")); [constructor; [left; reflexivity|constructor]|apply W1; cbv; lia]. }
  eapply (edges_edge (txt "dge 3 1") (txt "edge") 3 1 (str_Z 3) (str_Z 1)); try apply PReader.str_Z_numeral; [apply (E3 (txt "edge") 3 1); apply word_of_txt; [discriminate|reflexivity]|].
  apply edges_none.
Qed.
Example C85_triangle : exists f, read_dimacs_graph false (ended triangle_file) = Ok f /\ to_graph f = mkGraph [1; 2; 3] [(1, 2); (1, 3); (2, 3)].
Proof. eexists. split; vm_compute; reflexivity. Qed.
(* an end out of range is a further vertex; an edge given twice counts twice but is there once; a loop stays *)
Example C85_accepted : exists f, read_dimacs_graph false (txt "p edge 2 4
e 1 2
e 2 1
e 5 0
e 1 1") = Ok f /\ to_graph f = mkGraph [0; 1; 2; 5] [(0, 5); (1, 1); (1, 2)].
Proof. eexists. split; vm_compute; reflexivity. Qed.
(* the name  col  of the original format is refused *)
Example C85_col : bad_edge_line (txt "p col 3 3") /\ read_dimacs_graph false (txt "p col 3 3
") = Err ValueError.
Proof.
  split; [|vm_compute; reflexivity]. apply (bad_spec_words (txt " col 3 3") (txt "p") (txt "col") (txt "3") (txt "3")); [|left; discriminate].
  assert (W : forall s, s <> ""%string -> forallb (fun c => (32 <? Z.of_nat (nat_of_ascii c))) (txt s) = true -> word (txt s)) by (intros; apply word_of_txt; auto).
  apply (words_cons [] (txt "p") [txt "col"; txt "3"; txt "3"] " "%char (txt "col 3 3")); [constructor|apply W; [discriminate|reflexivity]|left; reflexivity|].
  apply (words_cons [] (txt "col") [txt "3"; txt "3"] " "%char (txt "3 3")); [constructor|apply W; [discriminate|reflexivity]|left; reflexivity|].
  apply (words_cons [] (txt "3") [txt "3"] " "%char (txt "3")); [constructor|apply W; [discriminate|reflexivity]|left; reflexivity|].
  apply (words_last [] (txt "3")); [constructor|apply W; [discriminate|reflexivity]].
Qed.
Example C85_written : write_dimacs_graph (txt "path ") [4; 7; 9] [(4, 7); (9, 7)] = txt "c path
p edge 3 2
e 1 2
e 3 2
".
Proof. vm_compute. reflexivity. Qed.
Example C85_applies : simple_graph (mkGraph [4; 7; 9] [(4, 7); (9, 7)]) /\ proper_digraph (mkDigraph [4; 7; 9] [(4, 7); (9, 7)]).
Proof.
  split; split.
  - repeat (constructor; [cbn; intuition discriminate|]). constructor.
  - repeat (constructor; [cbn; intuition discriminate|]). constructor.
  - cbn. intros u v H K. repeat (destruct H as [H|H]; [injection H as <- <-; repeat (destruct K as [K|K]; [discriminate K|]); destruct K|]). destruct H.
  - cbn. intros u v H. repeat (destruct H as [H|H]; [injection H as <- <-; auto 8|]). destruct H.
  - repeat (constructor; [cbn; intuition discriminate|]). constructor.
  - cbn. intros u v H. repeat (destruct H as [H|H]; [injection H as <- <-; auto 8|]). destruct H.
Qed.
Example C85_a_matrix : write_matrix (mkBipartite [1; 2] [7; 8; 9] [(1, 8); (2, 7); (2, 9)]) = txt "2 3
0 1 0
1 0 1
".
Proof. vm_compute. reflexivity. Qed.
EX*)
