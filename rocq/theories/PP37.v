(* PP37.v -- C98: the formats of graph files *)
From Coq Require Import String Ascii ZArith List Bool Lia.
From Verif Require Import Spec SpecInput SpecCnf SpecFile SpecFam SpecFam2 SpecFormat PyBase MSet MText MCnf MFam MFam2 MTrans MFile MGraph MFormat MGenCmd PLib PText PFam1 PFam15 PFile1 PFile5 PFormat PP24 PP25.
Import ListNotations.
Open Scope Z_scope.

(* C98: without a format the extension of the file's name chooses it, for reading and for writing; a name without extension,
   or with one that is not offered for the type, is refused with ValueError *)
Lemma p_C98_autodetect : forall L F (path : text) ty, In ty graph_types ->
  (forall ext, has_extension path ext -> offered (lib_dot L) ty ext ->
     readGraph L F (FileName path) ty (word_of "autodetect") = readGraph L F (FileName path) ty ext /\
     forall g, type_name (type_of g) = ty -> writeGraph L F path g (word_of "autodetect") = writeGraph L F path g ext) /\
  ((forall ext, has_extension path ext -> ~ offered (lib_dot L) ty ext) ->
     (F path <> None -> readGraph L F (FileName path) ty (word_of "autodetect") = Err ValueError) /\
     forall g, type_name (type_of g) = ty -> fst (writeGraph L F path g (word_of "autodetect")) = Err ValueError).
Proof.
  intros L F p ty T. destruct (types_are _ T) as (k & ->).
  assert (A : forall n, process_graph_io_arguments (lib_dot L) (Stream (Some n)) (type_name k) (word_of "autodetect") =
                        if member (extension n) (format_list (lib_dot L) k) then Ok (k, extension n) else Err ValueError).
  { intros n. rewrite process_known. reflexivity. }
  split.
  - intros e H O.
    assert (B : process_graph_io_arguments (lib_dot L) (Stream (Some p)) (type_name k) (word_of "autodetect") =
                process_graph_io_arguments (lib_dot L) (Stream (Some p)) (type_name k) e).
    { rewrite A, (extension_some _ _ H), process_known. change (word_of "autodetect") with (txt "autodetect"). rewrite (not_autodetect _ _ _ O).
      apply offered_list, member_In in O. rewrite O. reflexivity. }
    split.
    + unfold readGraph. destruct (F p); [|reflexivity]. unfold read_stream. rewrite B. reflexivity.
    + intros g G. unfold writeGraph, written. rewrite G, B. reflexivity.
  - intros N.
    assert (B : process_graph_io_arguments (lib_dot L) (Stream (Some p)) (type_name k) (word_of "autodetect") = Err ValueError).
    { rewrite A. destruct (member (extension p) (format_list (lib_dot L) k)) eqn:M; [|reflexivity]. exfalso.
      apply member_In in M. apply offered_list in M. destruct (extension_inv p) as [E|E]; [rewrite E in M; inversion M|exact (N _ E M)]. }
    split.
    + intros H. unfold readGraph. destruct (F p) as [t|]; [|congruence]. unfold read_stream. rewrite B. reflexivity.
    + intros g G. unfold writeGraph, written. rewrite G, B. reflexivity.
Qed.

(* C98: a format that is offered is read by its reader, from a file given by name or open; a graph read as dag has no cycle
   and one read as bipartite has a side for every vertex, whatever networkx reads from gml and dot *)
Lemma p_C98_formats : forall L F i t k, (exists n, i = FileName n /\ F n = Some t) \/ (exists n, i = OpenFile n t) ->
  readGraph L F i (type_name k) (word_of "kthlist") = readGraph_kthlist k t /\
  (k = Directed \/ k = Simple -> readGraph L F i (type_name k) (word_of "dimacs") = read_dimacs_graph (is_directed k) t) /\
  (k = Bipartite -> readGraph L F i (type_name k) (word_of "matrix") = read_matrix t) /\
  (forall f G, f = word_of "gml" \/ (f = word_of "dot" /\ lib_dot L = true) -> readGraph L F i (type_name k) f = Ok G ->
     lib_read L f k t = Ok G /\ (k = Dag -> proper_digraph (to_digraph G) -> acyclic (to_digraph G)) /\
     (k = Bipartite -> forall v, In v (f_vertices G) -> dget Z.eqb v (f_colors G) = Some 0 \/ dget Z.eqb v (f_colors G) = Some 1)) /\
  (forall f G, f = word_of "gml" \/ (f = word_of "dot" /\ lib_dot L = true) -> k = Directed \/ k = Simple -> lib_read L f k t = Ok G ->
     readGraph L F i (type_name k) f = Ok G).
Proof.
  intros L F i t k I.
  assert (R : exists n, forall f, readGraph L F i (type_name k) f = read_stream L (Stream n) t (type_name k) f).
  { destruct I as [(n & -> & E)|(n & ->)]; [exists (Some n)|exists n]; intros f; unfold readGraph; [rewrite E|]; reflexivity. }
  destruct R as (n & R). clear I.
  assert (P : forall f, offered (lib_dot L) (type_name k) f ->
                process_graph_io_arguments (lib_dot L) (Stream n) (type_name k) f = Ok (k, f)).
  { intros f O. rewrite process_known, (not_autodetect _ _ _ O). apply offered_list, member_In in O. rewrite O. reflexivity. }
  assert (Q : forall f G, f = word_of "gml" \/ (f = word_of "dot" /\ lib_dot L = true) -> readGraph L F i (type_name k) f = Ok G <-> checked k (lib_read L f k t) = Ok G).
  { intros f G [->|(-> & D)]; rewrite R; unfold read_stream; (rewrite P; [|constructor; auto using spelled]); cbn [bind]; reflexivity. }
  split; [|split; [|split; [|split]]].
  - rewrite R. unfold read_stream. rewrite P by (constructor; apply spelled). cbn [bind]. exact (checked_kthlist k t).
  - intros K. rewrite R. unfold read_stream. rewrite P by (constructor; destruct K as [->| ->]; cbn; auto). cbn [bind].
    change (text_eqb (word_of "dimacs") (txt "dot") || text_eqb (word_of "dimacs") (txt "gml")) with false.
    change (text_eqb (word_of "dimacs") (txt "kthlist")) with false. change (text_eqb (word_of "dimacs") (txt "dimacs")) with true. cbv iota.
    destruct K as [->| ->]; cbn [is_directed]; destruct (read_dimacs_graph _ t); reflexivity.
  - intros ->. rewrite R. unfold read_stream. rewrite P by constructor. reflexivity.
  - intros f G H E. apply (Q f G H) in E. unfold checked in E. destruct (lib_read L f k t) as [G'| |]; cbn [bind] in E; try discriminate.
    assert (G' = G) as <- by (destruct k; [destruct (is_dag (to_digraph G')); [|destruct (f_sorted G')]| | |destruct (has_bipartition G')]; congruence).
    split; [reflexivity|]. split.
    + intros -> PD. destruct (is_dag (to_digraph G')) eqn:X; [|destruct (f_sorted G'); discriminate]. exact (proj1 (is_dag_ok _ PD) X).
    + intros -> v Hv. destruct (has_bipartition G') eqn:X; [|discriminate]. unfold has_bipartition in X. rewrite forallb_forall in X.
      apply X, orb_true_iff in Hv. rewrite !has_color_spec in Hv. exact Hv.
  - intros f G H K E. apply (Q f G H). unfold checked. rewrite E. destruct K as [->| ->]; reflexivity.
Qed.

(* C98: what is refused: something that is no file (ValueError), a file that is not there, an unknown type and a format that
   is not offered for the type (TypeError, where the documentation promises ValueError: the message adds a list to a string),
   no format for a file without name (ValueError) *)
Lemma p_C98_refused : forall L F ty fmt,
  readGraph L F NotAFile ty fmt = Err ValueError /\
  (forall path, F path = None -> readGraph L F (FileName path) ty fmt = Err FileNotFoundError) /\
  forall i t, (exists n, i = FileName n /\ F n = Some t) \/ (exists n, i = OpenFile n t) ->
    (~ In ty graph_types -> readGraph L F i ty fmt = Err TypeError) /\
    (In ty graph_types -> fmt <> word_of "autodetect" -> ~ offered (lib_dot L) ty fmt -> readGraph L F i ty fmt = Err TypeError) /\
    (In ty graph_types -> i = OpenFile None t -> readGraph L F i ty (word_of "autodetect") = Err ValueError).
Proof.
  intros L F ty fmt. split; [reflexivity|]. split; [intros p E; unfold readGraph; rewrite E; reflexivity|]. intros i t I.
  assert (R : exists n, forall f, readGraph L F i ty f = read_stream L (Stream n) t ty f).
  { destruct I as [(n & -> & E)|(n & ->)]; [exists (Some n)|exists n]; intros f; unfold readGraph; [rewrite E|]; reflexivity. }
  destruct R as (n & R). clear I. split; [|split].
  - intros N. rewrite R. unfold read_stream. rewrite (process_unknown _ _ _ _ N). reflexivity.
  - intros T N O. destruct (types_are _ T) as (k & ->). rewrite R. unfold read_stream. rewrite process_known.
    destruct (text_eqb_spec fmt (txt "autodetect")) as [E|_]; [contradiction|].
    destruct (member fmt (format_list (lib_dot L) k)) eqn:M; [|reflexivity]. exfalso. apply O, offered_list, member_In, M.
  - intros T ->. destruct (types_are _ T) as (k & ->). unfold readGraph, read_stream. rewrite process_known. reflexivity.
Qed.

(* C98: writing a graph to a file touches no other file; it succeeds exactly when the format, or the extension if none is
   given, is offered for the type; a refused write leaves the file empty, whatever was in it *)
Lemma p_C98_write : forall L F (path : text) g fmt r F', writeGraph L F path g fmt = (r, F') ->
  (forall other, other <> path -> F' other = F other) /\
  ((r = Ok tt /\ exists t, F' path = Some t) \/ ((r = Err ValueError \/ r = Err TypeError) /\ F' path = Some [])) /\
  (r = Ok tt <-> (offered (lib_dot L) (type_name (type_of g)) fmt \/
                  (fmt = word_of "autodetect" /\ exists ext, has_extension path ext /\ offered (lib_dot L) (type_name (type_of g)) ext))).
Proof.
  intros L F p g fmt r F' H. unfold writeGraph in H.
  assert (O : forall m t, m <> p -> put F p t m = F m) by (intros m t N; unfold put; destruct (text_eqb_spec m p); congruence).
  assert (S : forall t, put F p t p = Some t) by (intros t; unfold put; rewrite text_eqb_refl; reflexivity).
  assert (W : forall f, In f (format_list (lib_dot L) (type_of g)) ->
    exists t, (if text_eqb f (txt "dot") || text_eqb f (txt "gml") then Ok (lib_write L f g)
      else if text_eqb f (txt "kthlist")
       then Ok (match g with
                | T_dag n d | T_digraph n d => writeDigraph_kthlist n d
                | T_simple n g => writeGraph_kthlist n g
                | T_bipartite n b => writeBipartite_kthlist n b
                end)
      else if text_eqb f (txt "dimacs") then Ok (write_dimacs_graph (name_of g) (nodes_of g) (edges_in g))
      else if text_eqb f (txt "matrix") then match g with T_bipartite _ b => Ok (write_matrix b) | _ => Err KeyError end
      else Err RuntimeError) = Ok t).
  { intros f I. destruct g, (lib_dot L); cbn in I; repeat match type of I with _ \/ _ => destruct I as [<-|I] | False => destruct I end; eexists; reflexivity. }
  unfold written in H. rewrite process_known in H.
  destruct (text_eqb_spec fmt (txt "autodetect")) as [->|N].
  - destruct (member (extension p) (format_list (lib_dot L) (type_of g))) eqn:M.
    + apply member_In in M. destruct (W _ M) as (t & E). cbn [bind] in H. rewrite E in H. injection H as <- <-.
      split; [auto|]. split; [left; split; [reflexivity|eexists; apply S]|]. split; [|auto]. intros _. right. split; [reflexivity|].
      exists (extension p). apply offered_list in M. split; [|exact M]. destruct (extension_inv p) as [X|X]; [rewrite X in M; inversion M|exact X].
    + cbn [bind] in H. injection H as <- <-. split; [auto|]. split; [right; split; [auto|apply S]|]. split; [discriminate|].
      intros [X|(_ & e & X & Y)]; [inversion X|]. apply extension_some in X. subst e. apply offered_list, member_In in Y. congruence.
  - destruct (member fmt (format_list (lib_dot L) (type_of g))) eqn:M.
    + apply member_In in M. destruct (W _ M) as (t & E). cbn [bind] in H. rewrite E in H. injection H as <- <-.
      split; [auto|]. split; [left; split; [reflexivity|eexists; apply S]|]. split; [|auto]. intros _. left. apply offered_list, M.
    + cbn [bind] in H. injection H as <- <-. split; [auto|]. split; [right; split; [auto|apply S]|]. split; [discriminate|].
      intros [X|(X & _)]; [|contradiction]. apply offered_list, member_In in X. congruence.
Qed.

(* C98: an open file gets the same text after what was written to it before; its name only matters without a format, and a
   refused write adds nothing *)
Lemma p_C98_write_open : forall L F (path : text) name content g fmt,
  (fmt <> word_of "autodetect" \/ name = Some path) ->
  let '(r, F') := writeGraph L F path g fmt in
  exists t, writeGraph_open L name content g fmt = (r, content ++ t) /\ F' path = Some t.
Proof.
  intros L F p n c g fmt H. unfold writeGraph, writeGraph_open.
  assert (E : written L (Stream n) g fmt = written L (Stream (Some p)) g fmt).
  { destruct H as [H| ->]; [|reflexivity]. unfold written. rewrite !process_known. destruct (text_eqb_spec fmt (txt "autodetect")); [contradiction|reflexivity]. }
  assert (Z : forall t, put F p t p = Some t) by (intros t; unfold put; rewrite text_eqb_refl; reflexivity).
  rewrite E. destruct (written L (Stream (Some p)) g fmt) as [t|e|]; [exists t|exists []|exists []]; rewrite ?app_nil_r; auto.
Qed.

(* C98: without a format and without a name nothing is written to it *)
Lemma p_C98_write_unnamed : forall L content g, writeGraph_open L None content g (word_of "autodetect") = (Err ValueError, content).
Proof. intros L c g. unfold writeGraph_open, written. rewrite process_known. reflexivity. Qed.

(* C98: a simple graph written to a file whose extension is kthlist or dimacs and read from it, without a format, is the
   same up to the numbers of its vertices *)
Lemma p_C98_round_trip : forall L F (path : text) ext name g, one_line name -> simple_graph g ->
  has_extension path ext -> ext = word_of "kthlist" \/ ext = word_of "dimacs" ->
  exists F' f num, writeGraph L F path (T_simple name g) (word_of "autodetect") = (Ok tt, F') /\
    readGraph L F' (FileName path) (word_of "simple") (word_of "autodetect") = Ok f /\ (ext = word_of "kthlist" -> f_name f = name ++ [nl]) /\
    simple_graph (to_graph f) /\ map num (g_nodes g) = g_nodes (to_graph f) /\
    forall u v, In u (g_nodes g) -> In v (g_nodes g) -> (adjacent (to_graph f) (num u) (num v) <-> adjacent g u v).
Proof.
  intros L F p e name g O S H E.
  assert (T : In (type_name Simple) graph_types) by apply spelled.
  assert (X : offered (lib_dot L) (type_name Simple) e) by (destruct E as [->| ->]; constructor; cbn; auto).
  assert (P : forall F', readGraph L F' (FileName p) (word_of "simple") (word_of "autodetect") = readGraph L F' (FileName p) (type_name Simple) e)
    by (intros F'; exact (proj1 (proj1 (p_C98_autodetect L F' p _ T) e H X))).
  assert (Wr : writeGraph L F p (T_simple name g) (word_of "autodetect") = writeGraph L F p (T_simple name g) e)
    by (exact (proj2 (proj1 (p_C98_autodetect L F p _ T) e H X) (T_simple name g) eq_refl)).
  assert (Z : forall t, put F p t p = Some t) by (intros t; unfold put; rewrite text_eqb_refl; reflexivity).
  destruct E as [->| ->].
  - destruct (p_C84_round_trip name O) as (A & _). destruct (A g S) as (f & num & R & NM & S' & M & _ & J).
    exists (put F p (writeGraph_kthlist name g)), f, num. split.
    + rewrite Wr. unfold writeGraph, written. rewrite process_known. destruct (lib_dot L); reflexivity.
    + split; [|split; [auto|auto]]. rewrite P. rewrite <- R. apply (p_C98_formats L _ (FileName p) _ Simple). left. eexists. split; [reflexivity|apply Z].
  - destruct (p_C85_round_trip name O) as (A & _). destruct (A g S) as (f & num & R & _ & S' & M & _ & J).
    exists (put F p (write_dimacs_graph name (g_nodes g) (g_edges g))), f, num. split.
    + rewrite Wr. unfold writeGraph, written. rewrite process_known. destruct (lib_dot L); reflexivity.
    + split; [|split; [discriminate|auto]]. rewrite P. rewrite <- R. apply (p_C98_formats L _ (FileName p) (write_dimacs_graph name (g_nodes g) (g_edges g)) Simple); [|auto].
      left. eexists. split; [reflexivity|apply Z].
Qed.

(* C98: so is a digraph, or a dag, which is still one *)
Lemma p_C98_round_trip_directed : forall L F (path : text) ext name d (dag : bool), one_line name -> proper_digraph d ->
  has_extension path ext -> ext = word_of "kthlist" \/ (ext = word_of "dimacs" /\ dag = false) -> (dag = true -> acyclic d) ->
  exists F' f num,
    writeGraph L F path (if dag then T_dag name d else T_digraph name d) (word_of "autodetect") = (Ok tt, F') /\
    readGraph L F' (FileName path) (word_of (if dag then "dag" else "digraph")) (word_of "autodetect") = Ok f /\
    (ext = word_of "kthlist" -> f_name f = name ++ [nl]) /\ (dag = true -> acyclic (to_digraph f)) /\
    proper_digraph (to_digraph f) /\ map num (d_nodes d) = d_nodes (to_digraph f) /\
    forall u v, In u (d_nodes d) -> In v (d_nodes d) -> (arc (to_digraph f) (num u) (num v) <-> arc d u v).
Proof.
  intros L F p e name d dag O S H E AC. set (k := if dag then Dag else Directed). set (g := if dag then T_dag name d else T_digraph name d).
  assert (T : In (type_name k) graph_types) by apply spelled.
  assert (KG : type_name (type_of g) = type_name k) by (subst k g; destruct dag; reflexivity).
  assert (KW : word_of (if dag then "dag" else "digraph") = type_name k) by (subst k; destruct dag; reflexivity).
  assert (X : offered (lib_dot L) (type_name k) e) by (subst k; destruct E as [->|(-> & ->)]; [constructor; exact T|constructor; cbn; auto]).
  assert (P : forall F', readGraph L F' (FileName p) (type_name k) (word_of "autodetect") = readGraph L F' (FileName p) (type_name k) e)
    by (intros F'; exact (proj1 (proj1 (p_C98_autodetect L F' p _ T) e H X))).
  assert (Wr : writeGraph L F p g (word_of "autodetect") = writeGraph L F p g e) by (exact (proj2 (proj1 (p_C98_autodetect L F p _ T) e H X) g KG)).
  assert (Z : forall t, put F p t p = Some t) by (intros t; unfold put; rewrite text_eqb_refl; reflexivity).
  rewrite KW. destruct E as [->|(-> & ->)].
  - destruct (p_C84_round_trip name O) as (_ & A & _). destruct (A d S) as (f & num & R & NM & S' & M & _ & J & Q).
    exists (put F p (writeDigraph_kthlist name d)), f, num. split.
    + rewrite Wr. subst g. unfold writeGraph, written. destruct dag; cbn [type_of]; rewrite process_known; destruct (lib_dot L); reflexivity.
    + split; [|split; [auto|split; [intros D; exact (proj1 (Q (AC D)))|auto]]]. rewrite P.
      rewrite (proj1 (p_C98_formats L (put F p (writeDigraph_kthlist name d)) (FileName p) (writeDigraph_kthlist name d) k (or_introl (ex_intro _ p (conj eq_refl (Z _)))))).
      subst k. destruct dag; [exact (proj2 (Q (AC eq_refl)))|exact R].
  - destruct (p_C85_round_trip name O) as (_ & A). destruct (A d S) as (f & num & R & S' & M & _ & J).
    exists (put F p (write_dimacs_graph name (d_nodes d) (d_edges d))), f, num. split.
    + rewrite Wr. subst g. unfold writeGraph, written. cbn [type_of]. rewrite process_known. destruct (lib_dot L); reflexivity.
    + split; [|split; [discriminate|split; [discriminate|auto]]]. rewrite P.
      rewrite (proj1 (proj2 (p_C98_formats L (put F p (write_dimacs_graph name (d_nodes d) (d_edges d))) (FileName p) (write_dimacs_graph name (d_nodes d) (d_edges d)) k (or_introl (ex_intro _ p (conj eq_refl (Z _)))))) (or_introl eq_refl)).
      exact R.
Qed.

(* C98: and a bipartite graph, with its sides; a file with extension matrix has the text of the matrix *)
Lemma p_C98_round_trip_bipartite : forall L F (path : text) name b, one_line name -> bipartite_graph b ->
  (has_extension path (word_of "kthlist") -> exists F' f num,
     writeGraph L F path (T_bipartite name b) (word_of "autodetect") = (Ok tt, F') /\
     readGraph L F' (FileName path) (word_of "bipartite") (word_of "autodetect") = Ok f /\ f_name f = name ++ [nl] /\
     bipartite_graph (to_bipartite f) /\
     (forall u v, In u (b_left b ++ b_right b) -> In v (b_left b ++ b_right b) -> (num u < num v <-> u < v)) /\
     (forall i, In i (b_left (to_bipartite f)) <-> exists u, In u (b_left b) /\ i = num u) /\
     (forall i, In i (b_right (to_bipartite f)) <-> exists u, In u (b_right b) /\ i = num u) /\
     forall u v, In u (b_left b ++ b_right b) -> In v (b_left b ++ b_right b) -> (In (num u, num v) (b_edges (to_bipartite f)) <-> In (u, v) (b_edges b))) /\
  (has_extension path (word_of "matrix") -> exists F', 
     writeGraph L F path (T_bipartite name b) (word_of "autodetect") = (Ok tt, F') /\ F' path = Some (write_matrix b)).
Proof.
  intros L F p name b O S.
  assert (T : In (type_name Bipartite) graph_types) by apply spelled.
  assert (Z : forall t, put F p t p = Some t) by (intros t; unfold put; rewrite text_eqb_refl; reflexivity).
  split; intros H.
  - assert (X : offered (lib_dot L) (type_name Bipartite) (word_of "kthlist")) by (constructor; exact T).
    destruct (p_C84_round_trip name O) as (_ & _ & A). destruct (A b S) as (f & num & R & NM & S' & I & LL & RR & _ & J).
    exists (put F p (writeBipartite_kthlist name b)), f, num. split.
    + refine (eq_trans (proj2 (proj1 (p_C98_autodetect L F p _ T) _ H X) (T_bipartite name b) eq_refl) _).
      unfold writeGraph, written. rewrite process_known. destruct (lib_dot L); reflexivity.
    + split; [|auto 10]. refine (eq_trans (proj1 (proj1 (p_C98_autodetect L _ p _ T) _ H X)) _). rewrite <- R.
      apply (p_C98_formats L _ (FileName p) _ Bipartite). left. eexists. split; [reflexivity|apply Z].
  - assert (X : offered (lib_dot L) (type_name Bipartite) (word_of "matrix")) by constructor.
    exists (put F p (write_matrix b)). split; [|apply Z].
    refine (eq_trans (proj2 (proj1 (p_C98_autodetect L F p _ T) _ H X) (T_bipartite name b) eq_refl) _).
    unfold writeGraph, written. rewrite process_known. destruct (lib_dot L); reflexivity.
Qed.

(* C98: the command cnfgen reads graphs from its standard input, whose name <stdin> has no extension: a format must be given *)
Lemma p_C98_standard_input : forall L F input,
  let gets ty fmt := readGraph L F (OpenFile (Some (word_of "<stdin>")) input) (word_of ty) (word_of fmt) in
  (forall ty, In ty ["dag"; "digraph"; "simple"; "bipartite"]%string -> gets ty "autodetect"%string = Err ValueError) /\
  (read_simple F_kthlist input = (g <- gets "simple" "kthlist" ;; Ok (to_graph g))%string) /\
  (read_simple F_dimacs input = (g <- gets "simple" "dimacs" ;; Ok (to_graph g))%string) /\
  (read_bipartite F_kthlist input = (g <- gets "bipartite" "kthlist" ;; Ok (to_bipartite g))%string) /\
  (read_bipartite F_matrix input = (g <- gets "bipartite" "matrix" ;; Ok (to_bipartite g))%string) /\
  (read_dag F_kthlist input = (g <- gets "dag" "kthlist" ;; Ok (to_digraph g))%string) /\
  read_simple F_autodetect input = Err ValueError /\ read_bipartite F_autodetect input = Err ValueError /\ read_dag F_autodetect input = Err ValueError.
Proof.
  intros L F t gets.
  assert (I : forall k : graph_type, (exists n, OpenFile (Some (word_of "<stdin>")) t = FileName n /\ F n = Some t) \/ (exists n, OpenFile (Some (word_of "<stdin>")) t = OpenFile n t))
    by (intros _; right; eexists; reflexivity).
  assert (A : forall k, readGraph L F (OpenFile (Some (word_of "<stdin>")) t) (type_name k) (word_of "autodetect") = Err ValueError).
  { intros k. unfold readGraph, read_stream. rewrite process_known. destruct k, (lib_dot L); reflexivity. }
  split; [intros ty [<-|[<-|[<-|[<-|[]]]]]; [apply (A Dag)|apply (A Directed)|apply (A Simple)|apply (A Bipartite)]|].
  unfold gets.
  split; [exact (f_equal (fun r => bind r (fun g => Ok (to_graph g))) (eq_sym (proj1 (p_C98_formats L F _ t Simple (I Simple)))))|].
  split; [exact (f_equal (fun r => bind r (fun g => Ok (to_graph g))) (eq_sym (proj1 (proj2 (p_C98_formats L F _ t Simple (I Simple))) (or_intror eq_refl))))|].
  split; [exact (f_equal (fun r => bind r (fun g => Ok (to_bipartite g))) (eq_sym (proj1 (p_C98_formats L F _ t Bipartite (I Bipartite)))))|].
  split; [exact (f_equal (fun r => bind r (fun g => Ok (to_bipartite g))) (eq_sym (proj1 (proj2 (proj2 (p_C98_formats L F _ t Bipartite (I Bipartite)))) eq_refl)))|].
  split; [exact (f_equal (fun r => bind r (fun g => Ok (to_digraph g))) (eq_sym (proj1 (p_C98_formats L F _ t Dag (I Dag)))))|].
  repeat split; reflexivity.
Qed.
(*EX
Definition no_library : library := mkLibrary false (fun _ _ _ => Err ValueError) (fun _ _ => []).
Definition some_library : library := mkLibrary true (fun _ _ _ => Ok (mkFile [1; 2] [(1, 2)] [(1, 0); (2, 1)] false [])) (fun _ _ => txt "graph").
Definition path_graph : graph := mkGraph [3; 5; 9] [(3, 5); (5, 9)].
(* extensions as os.path.splitext finds them *)
Example C98_extensions :
  map extension [txt "a/b.kthlist"; txt "x.y/z"; txt ".dimacs"; txt "d/..gml"; txt "a.b.gml"; txt "plain"; txt "<stdin>"; txt "a/.b.dot"; txt "x."] =
    [txt "kthlist"; []; []; []; txt "gml"; []; []; txt "dot"; []] /\
  has_extension (txt "a/b.kthlist") (word_of "kthlist") /\ (forall e, ~ has_extension (txt ".dimacs") e).
Proof.
  split; [vm_compute; reflexivity|]. split.
  - exists (txt "a/"), (txt "b"). split; [reflexivity|]. split; [right; exists (txt "a"); reflexivity|]. split; [intros [K|[]]; discriminate|].
    split; [exists "b"%char; split; [left; reflexivity|discriminate]|]. split; intros K; cbn in K; intuition discriminate.
  - intros e H. pose proof (extension_some _ _ H) as E. change ([] = e) in E. subst e.
    destruct H as (d & b & E & D & _ & (c & I & N) & _). assert (L : (List.length (txt ".dimacs")) = List.length (d ++ b ++ ["."%char])) by (rewrite <- E; reflexivity).
    assert (X : last (txt ".dimacs") " "%char = last (d ++ b ++ ["."%char]) " "%char) by (rewrite <- E; reflexivity).
    rewrite app_assoc, last_last in X. discriminate X.
Qed.
(* written and read again by the name; a refused write empties the file *)
Example C98_holds :
  let F : files := fun n => if text_eqb n (txt "old.txt") then Some (txt "old") else None in
  let '(r, F1) := writeGraph no_library F (txt "g.dimacs") (T_simple (txt "p") path_graph) (txt "autodetect") in
  r = Ok tt /\ F1 (txt "g.dimacs") = Some (txt "c p" ++ [newline] ++ txt "p edge 3 2" ++ [newline] ++ txt "e 1 2" ++ [newline] ++ txt "e 2 3" ++ [newline]) /\
  F1 (txt "old.txt") = Some (txt "old") /\
  (exists f, readGraph no_library F1 (FileName (txt "g.dimacs")) (txt "simple") (txt "autodetect") = Ok f /\ to_graph f = mkGraph [1; 2; 3] [(1, 2); (2, 3)]) /\
  (let '(r2, F2) := writeGraph no_library F1 (txt "old.txt") (T_simple (txt "p") path_graph) (txt "autodetect") in
   r2 = Err ValueError /\ F2 (txt "old.txt") = Some []) /\
  fst (writeGraph no_library F1 (txt "x") (T_simple (txt "p") path_graph) (txt "matrix")) = Err TypeError /\
  readGraph no_library F1 (FileName (txt "g.dimacs")) (txt "graph") (txt "dimacs") = Err TypeError /\
  readGraph no_library F1 (FileName (txt "g.dimacs")) (txt "simple") (txt "dot") = Err TypeError /\
  readGraph no_library F1 (FileName (txt "missing")) (txt "simple") (txt "dot") = Err FileNotFoundError /\
  (exists f, readGraph some_library F1 (FileName (txt "g.dimacs")) (txt "bipartite") (txt "dot") = Ok f).
Proof.
  cbv zeta. destruct (writeGraph _ _ _ _ _) as [r F1] eqn:E. vm_compute in E. injection E as <- <-.
  split; [reflexivity|]. split; [vm_compute; reflexivity|]. split; [vm_compute; reflexivity|].
  split; [eexists; split; vm_compute; reflexivity|]. split; [vm_compute; split; reflexivity|].
  split; [vm_compute; reflexivity|]. split; [vm_compute; reflexivity|]. split; [vm_compute; reflexivity|]. split; [vm_compute; reflexivity|].
  eexists. vm_compute. reflexivity.
Qed.
(* standard output, named <stdout>, after a line that is there already *)
Example C98_open_holds :
  writeGraph_open no_library (Some (txt "<stdout>")) (txt "c hello" ++ [newline]) (T_simple (txt "p") path_graph) (txt "dimacs") =
    (Ok tt, txt "c hello" ++ [newline] ++ txt "c p" ++ [newline] ++ txt "p edge 3 2" ++ [newline] ++ txt "e 1 2" ++ [newline] ++ txt "e 2 3" ++ [newline]) /\
  writeGraph_open no_library (Some (txt "<stdout>")) (txt "c hello") (T_simple (txt "p") path_graph) (txt "autodetect") = (Err ValueError, txt "c hello").
Proof. split; vm_compute; reflexivity. Qed.
(* the round trips on concrete graphs: C84_applies (Properties24) shows that these are a proper, acyclic digraph and a bipartite graph *)
Example C98_round_trips :
  let d := mkDigraph [5; 3; 1] [(5, 3); (5, 1); (3, 1)] in
  let b := mkBipartite [1; 4] [2; 3] [(1, 2); (1, 3); (4, 3)] in
  let F : files := fun _ => None in
  let back n g ty := readGraph no_library (snd (writeGraph no_library F n g (txt "autodetect"))) (FileName n) ty (txt "autodetect") in
  (forall c, In c (txt "p") -> c <> nl) /\ has_extension (txt "a.kthlist") (word_of "kthlist") /\
  (exists f, back (txt "a.kthlist") (T_dag (txt "p") d) (txt "dag") = Ok f /\ f_vertices f = [1; 2; 3] /\ f_edges f = [(1, 2); (1, 3); (2, 3)] /\ f_name f = txt "p" ++ [newline]) /\
  (exists f, back (txt "a.dimacs") (T_digraph (txt "p") d) (txt "digraph") = Ok f /\ f_edges f = [(1, 2); (1, 3); (2, 3)]) /\
  (exists f, back (txt "a.kthlist") (T_bipartite (txt "p") b) (txt "bipartite") = Ok f /\ to_bipartite f = mkBipartite [1; 4] [2; 3] [(1, 2); (1, 3); (4, 3)]) /\
  back (txt "a.matrix") (T_bipartite (txt "p") b) (txt "bipartite") = Err AttributeError.
Proof.
  cbv zeta. split; [intros c [<-|[]]; discriminate|]. split.
  { exists [], (txt "a"). split; [reflexivity|]. split; [left; reflexivity|]. split; [intros [K|[]]; discriminate|].
    split; [exists "a"%char; split; [left; reflexivity|discriminate]|]. split; intros K; cbn in K; intuition discriminate. }
  split; [eexists; split; [vm_compute; reflexivity|]; vm_compute; repeat split; reflexivity|].
  split; [eexists; split; vm_compute; reflexivity|]. split; [eexists; split; vm_compute; reflexivity|]. vm_compute. reflexivity.
Qed.
EX*)
