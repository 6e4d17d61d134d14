(* Properties37.v -- generated by tools/genprops.py from PP37.v: property theorems, their
   assumptions, and examples showing that the hypotheses are met.  Proofs are in PP37.v. *)
From Coq Require Import String Ascii ZArith List Bool Lia.
From Verif Require Import Spec SpecInput SpecCnf SpecFile SpecFam SpecFam2 SpecFormat PyBase MSet MText MCnf MFam MFam2 MTrans MFile MGraph MFormat MGenCmd PLib PText PFam1 PFam15 PFile1 PFile5 PFormat PP24 PP25.
Import ListNotations.
From Verif Require Import PP37.
Open Scope Z_scope.

(* C98: without a format the extension of the file's name chooses it, for reading and for writing; a name without extension,
   or with one that is not offered for the type, is refused with ValueError *)
Theorem C98_autodetect : forall L F (path : text) ty, In ty graph_types ->
  (forall ext, has_extension path ext -> offered (lib_dot L) ty ext ->
     readGraph L F (FileName path) ty (word_of "autodetect") = readGraph L F (FileName path) ty ext /\
     forall g, type_name (type_of g) = ty -> writeGraph L F path g (word_of "autodetect") = writeGraph L F path g ext) /\
  ((forall ext, has_extension path ext -> ~ offered (lib_dot L) ty ext) ->
     (F path <> None -> readGraph L F (FileName path) ty (word_of "autodetect") = Err ValueError) /\
     forall g, type_name (type_of g) = ty -> fst (writeGraph L F path g (word_of "autodetect")) = Err ValueError).
Proof. exact p_C98_autodetect. Qed.
Print Assumptions C98_autodetect.

(* C98: a format that is offered is read by its reader, from a file given by name or open; a graph read as dag has no cycle
   and one read as bipartite has a side for every vertex, whatever networkx reads from gml and dot *)
Theorem C98_formats : forall L F i t k, (exists n, i = FileName n /\ F n = Some t) \/ (exists n, i = OpenFile n t) ->
  readGraph L F i (type_name k) (word_of "kthlist") = readGraph_kthlist k t /\
  (k = Directed \/ k = Simple -> readGraph L F i (type_name k) (word_of "dimacs") = read_dimacs_graph (is_directed k) t) /\
  (k = Bipartite -> readGraph L F i (type_name k) (word_of "matrix") = read_matrix t) /\
  (forall f G, f = word_of "gml" \/ (f = word_of "dot" /\ lib_dot L = true) -> readGraph L F i (type_name k) f = Ok G ->
     lib_read L f k t = Ok G /\ (k = Dag -> proper_digraph (to_digraph G) -> acyclic (to_digraph G)) /\
     (k = Bipartite -> forall v, In v (f_vertices G) -> dget Z.eqb v (f_colors G) = Some 0 \/ dget Z.eqb v (f_colors G) = Some 1)) /\
  (forall f G, f = word_of "gml" \/ (f = word_of "dot" /\ lib_dot L = true) -> k = Directed \/ k = Simple -> lib_read L f k t = Ok G ->
     readGraph L F i (type_name k) f = Ok G).
Proof. exact p_C98_formats. Qed.
Print Assumptions C98_formats.

(* C98: what is refused: something that is no file (ValueError), a file that is not there, an unknown type and a format that
   is not offered for the type (TypeError, where the documentation promises ValueError: the message adds a list to a string),
   no format for a file without name (ValueError) *)
Theorem C98_refused : forall L F ty fmt,
  readGraph L F NotAFile ty fmt = Err ValueError /\
  (forall path, F path = None -> readGraph L F (FileName path) ty fmt = Err FileNotFoundError) /\
  forall i t, (exists n, i = FileName n /\ F n = Some t) \/ (exists n, i = OpenFile n t) ->
    (~ In ty graph_types -> readGraph L F i ty fmt = Err TypeError) /\
    (In ty graph_types -> fmt <> word_of "autodetect" -> ~ offered (lib_dot L) ty fmt -> readGraph L F i ty fmt = Err TypeError) /\
    (In ty graph_types -> i = OpenFile None t -> readGraph L F i ty (word_of "autodetect") = Err ValueError).
Proof. exact p_C98_refused. Qed.
Print Assumptions C98_refused.

(* C98: writing a graph to a file touches no other file; it succeeds exactly when the format, or the extension if none is
   given, is offered for the type; a refused write leaves the file empty, whatever was in it *)
Theorem C98_write : forall L F (path : text) g fmt r F', writeGraph L F path g fmt = (r, F') ->
  (forall other, other <> path -> F' other = F other) /\
  ((r = Ok tt /\ exists t, F' path = Some t) \/ ((r = Err ValueError \/ r = Err TypeError) /\ F' path = Some [])) /\
  (r = Ok tt <-> (offered (lib_dot L) (type_name (type_of g)) fmt \/
                  (fmt = word_of "autodetect" /\ exists ext, has_extension path ext /\ offered (lib_dot L) (type_name (type_of g)) ext))).
Proof. exact p_C98_write. Qed.
Print Assumptions C98_write.

(* C98: an open file gets the same text after what was written to it before; its name only matters without a format, and a
   refused write adds nothing *)
Theorem C98_write_open : forall L F (path : text) name content g fmt,
  (fmt <> word_of "autodetect" \/ name = Some path) ->
  let '(r, F') := writeGraph L F path g fmt in
  exists t, writeGraph_open L name content g fmt = (r, content ++ t) /\ F' path = Some t.
Proof. exact p_C98_write_open. Qed.
Print Assumptions C98_write_open.

(* C98: without a format and without a name nothing is written to it *)
Theorem C98_write_unnamed : forall L content g, writeGraph_open L None content g (word_of "autodetect") = (Err ValueError, content).
Proof. exact p_C98_write_unnamed. Qed.
Print Assumptions C98_write_unnamed.

(* C98: a simple graph written to a file whose extension is kthlist or dimacs and read from it, without a format, is the
   same up to the numbers of its vertices *)
Theorem C98_round_trip : forall L F (path : text) ext name g, one_line name -> simple_graph g ->
  has_extension path ext -> ext = word_of "kthlist" \/ ext = word_of "dimacs" ->
  exists F' f num, writeGraph L F path (T_simple name g) (word_of "autodetect") = (Ok tt, F') /\
    readGraph L F' (FileName path) (word_of "simple") (word_of "autodetect") = Ok f /\ (ext = word_of "kthlist" -> f_name f = name ++ [nl]) /\
    simple_graph (to_graph f) /\ map num (g_nodes g) = g_nodes (to_graph f) /\
    forall u v, In u (g_nodes g) -> In v (g_nodes g) -> (adjacent (to_graph f) (num u) (num v) <-> adjacent g u v).
Proof. exact p_C98_round_trip. Qed.
Print Assumptions C98_round_trip.

(* C98: so is a digraph, or a dag, which is still one *)
Theorem C98_round_trip_directed : forall L F (path : text) ext name d (dag : bool), one_line name -> proper_digraph d ->
  has_extension path ext -> ext = word_of "kthlist" \/ (ext = word_of "dimacs" /\ dag = false) -> (dag = true -> acyclic d) ->
  exists F' f num,
    writeGraph L F path (if dag then T_dag name d else T_digraph name d) (word_of "autodetect") = (Ok tt, F') /\
    readGraph L F' (FileName path) (word_of (if dag then "dag" else "digraph")) (word_of "autodetect") = Ok f /\
    (ext = word_of "kthlist" -> f_name f = name ++ [nl]) /\ (dag = true -> acyclic (to_digraph f)) /\
    proper_digraph (to_digraph f) /\ map num (d_nodes d) = d_nodes (to_digraph f) /\
    forall u v, In u (d_nodes d) -> In v (d_nodes d) -> (arc (to_digraph f) (num u) (num v) <-> arc d u v).
Proof. exact p_C98_round_trip_directed. Qed.
Print Assumptions C98_round_trip_directed.

(* C98: and a bipartite graph, with its sides; a file with extension matrix has the text of the matrix *)
Theorem C98_round_trip_bipartite : forall L F (path : text) name b, one_line name -> bipartite_graph b ->
  (has_extension path (word_of "kthlist") -> exists F' f num,
     writeGraph L F path (T_bipartite name b) (word_of "autodetect") = (Ok tt, F') /\
     readGraph L F' (FileName path) (word_of "bipartite") (word_of "autodetect") = Ok f /\ f_name f = name ++ [nl] /\
     bipartite_graph (to_bipartite f) /\
     (forall u v, In u (b_left b ++ b_right b) -> In v (b_left b ++ b_right b) -> (num u < num v <-> u < v)) /\
     (forall i, In i (b_left (to_bipartite f)) <-> exists u, In u (b_left b) /\ i = num u) /\
     (forall i, In i (b_right (to_bipartite f)) <-> exists u, In u (b_right b) /\ i = num u) /\
     forall u v, In u (b_left b ++ b_right b) -> In v (b_left b ++ b_right b) -> (In (num u, num v) (b_edges (to_bipartite f)) <-> In (u, v) (b_edges b))) /\
  (has_extension path (word_of "matrix") -> exists F', 
     writeGraph L F path (T_bipartite name b) (word_of "autodetect") = (Ok tt, F') /\ F' path = Some (write_matrix b)).
Proof. exact p_C98_round_trip_bipartite. Qed.
Print Assumptions C98_round_trip_bipartite.

(* C98: the command cnfgen reads graphs from its standard input, whose name <stdin> has no extension: a format must be given *)
Theorem C98_standard_input : forall L F input,
  let gets ty fmt := readGraph L F (OpenFile (Some (word_of "<stdin>")) input) (word_of ty) (word_of fmt) in
  (forall ty, In ty ["dag"; "digraph"; "simple"; "bipartite"]%string -> gets ty "autodetect"%string = Err ValueError) /\
  (read_simple F_kthlist input = (g <- gets "simple" "kthlist" ;; Ok (to_graph g))%string) /\
  (read_simple F_dimacs input = (g <- gets "simple" "dimacs" ;; Ok (to_graph g))%string) /\
  (read_bipartite F_kthlist input = (g <- gets "bipartite" "kthlist" ;; Ok (to_bipartite g))%string) /\
  (read_bipartite F_matrix input = (g <- gets "bipartite" "matrix" ;; Ok (to_bipartite g))%string) /\
  (read_dag F_kthlist input = (g <- gets "dag" "kthlist" ;; Ok (to_digraph g))%string) /\
  read_simple F_autodetect input = Err ValueError /\ read_bipartite F_autodetect input = Err ValueError /\ read_dag F_autodetect input = Err ValueError.
Proof. exact p_C98_standard_input. Qed.
Print Assumptions C98_standard_input.

Definition no_library : library := mkLibrary false (fun _ _ _ => Err ValueError) (fun _ _ => []).
Definition some_library : library := mkLibrary true (fun _ _ _ => Ok (mkFile [1; 2] [(1, 2)] [(1, 0); (2, 1)] false [])) (fun _ _ => txt "graph").
Definition path_graph : graph := mkGraph [3; 5; 9] [(3, 5); (5, 9)].
(* extensions as os.path.splitext finds them *)
Example C98_extensions :
  map extension [txt "a/b.kthlist"; txt "x.y/z"; txt ".dimacs"; txt "d/..gml"; txt "a.b.gml"; txt "plain"; txt "<stdin>"; txt "a/.b.dot"; txt "x."] =
    [txt "kthlist"; []; []; []; txt "gml"; []; []; txt "dot"; []] /\
  has_extension (txt "a/b.kthlist") (word_of "kthlist") /\ (forall e, ~ has_extension (txt ".dimacs") e).
Proof.
  split; [vm_compute; reflexivity|]. split.
  - exists (txt "a/"), (txt "b"). split; [reflexivity|]. split; [right; exists (txt "a"); reflexivity|]. split; [intros [K|[]]; discriminate|].
    split; [exists "b"%char; split; [left; reflexivity|discriminate]|]. split; intros K; cbn in K; intuition discriminate.
  - intros e H. pose proof (extension_some _ _ H) as E. change ([] = e) in E. subst e.
    destruct H as (d & b & E & D & _ & (c & I & N) & _). assert (L : (List.length (txt ".dimacs")) = List.length (d ++ b ++ ["."%char])) by (rewrite <- E; reflexivity).
    assert (X : last (txt ".dimacs") " "%char = last (d ++ b ++ ["."%char]) " "%char) by (rewrite <- E; reflexivity).
    rewrite app_assoc, last_last in X. discriminate X.
Qed.
(* written and read again by the name; a refused write empties the file *)
Example C98_holds :
  let F : files := fun n => if text_eqb n (txt "old.txt") then Some (txt "old") else None in
  let '(r, F1) := writeGraph no_library F (txt "g.dimacs") (T_simple (txt "p") path_graph) (txt "autodetect") in
  r = Ok tt /\ F1 (txt "g.dimacs") = Some (txt "c p" ++ [newline] ++ txt "p edge 3 2" ++ [newline] ++ txt "e 1 2" ++ [newline] ++ txt "e 2 3" ++ [newline]) /\
  F1 (txt "old.txt") = Some (txt "old") /\
  (exists f, readGraph no_library F1 (FileName (txt "g.dimacs")) (txt "simple") (txt "autodetect") = Ok f /\ to_graph f = mkGraph [1; 2; 3] [(1, 2); (2, 3)]) /\
  (let '(r2, F2) := writeGraph no_library F1 (txt "old.txt") (T_simple (txt "p") path_graph) (txt "autodetect") in
   r2 = Err ValueError /\ F2 (txt "old.txt") = Some []) /\
  fst (writeGraph no_library F1 (txt "x") (T_simple (txt "p") path_graph) (txt "matrix")) = Err TypeError /\
  readGraph no_library F1 (FileName (txt "g.dimacs")) (txt "graph") (txt "dimacs") = Err TypeError /\
  readGraph no_library F1 (FileName (txt "g.dimacs")) (txt "simple") (txt "dot") = Err TypeError /\
  readGraph no_library F1 (FileName (txt "missing")) (txt "simple") (txt "dot") = Err FileNotFoundError /\
  (exists f, readGraph some_library F1 (FileName (txt "g.dimacs")) (txt "bipartite") (txt "dot") = Ok f).
Proof.
  cbv zeta. destruct (writeGraph _ _ _ _ _) as [r F1] eqn:E. vm_compute in E. injection E as <- <-.
  split; [reflexivity|]. split; [vm_compute; reflexivity|]. split; [vm_compute; reflexivity|].
  split; [eexists; split; vm_compute; reflexivity|]. split; [vm_compute; split; reflexivity|].
  split; [vm_compute; reflexivity|]. split; [vm_compute; reflexivity|]. split; [vm_compute; reflexivity|]. split; [vm_compute; reflexivity|].
  eexists. vm_compute. reflexivity.
Qed.
(* standard output, named <stdout>, after a line that is there already *)
Example C98_open_holds :
  writeGraph_open no_library (Some (txt "<stdout>")) (txt "c hello" ++ [newline]) (T_simple (txt "p") path_graph) (txt "dimacs") =
    (Ok tt, txt "c hello" ++ [newline] ++ txt "c p" ++ [newline] ++ txt "p edge 3 2" ++ [newline] ++ txt "e 1 2" ++ [newline] ++ txt "e 2 3" ++ [newline]) /\
  writeGraph_open no_library (Some (txt "<stdout>")) (txt "c hello") (T_simple (txt "p") path_graph) (txt "autodetect") = (Err ValueError, txt "c hello").
Proof. split; vm_compute; reflexivity. Qed.
(* the round trips on concrete graphs: C84_applies (Properties24) shows that these are a proper, acyclic digraph and a bipartite graph *)
Example C98_round_trips :
  let d := mkDigraph [5; 3; 1] [(5, 3); (5, 1); (3, 1)] in
  let b := mkBipartite [1; 4] [2; 3] [(1, 2); (1, 3); (4, 3)] in
  let F : files := fun _ => None in
  let back n g ty := readGraph no_library (snd (writeGraph no_library F n g (txt "autodetect"))) (FileName n) ty (txt "autodetect") in
  (forall c, In c (txt "p") -> c <> nl) /\ has_extension (txt "a.kthlist") (word_of "kthlist") /\
  (exists f, back (txt "a.kthlist") (T_dag (txt "p") d) (txt "dag") = Ok f /\ f_vertices f = [1; 2; 3] /\ f_edges f = [(1, 2); (1, 3); (2, 3)] /\ f_name f = txt "p" ++ [newline]) /\
  (exists f, back (txt "a.dimacs") (T_digraph (txt "p") d) (txt "digraph") = Ok f /\ f_edges f = [(1, 2); (1, 3); (2, 3)]) /\
  (exists f, back (txt "a.kthlist") (T_bipartite (txt "p") b) (txt "bipartite") = Ok f /\ to_bipartite f = mkBipartite [1; 4] [2; 3] [(1, 2); (1, 3); (4, 3)]) /\
  back (txt "a.matrix") (T_bipartite (txt "p") b) (txt "bipartite") = Err AttributeError.
Proof.
  cbv zeta. split; [intros c [<-|[]]; discriminate|]. split.
  { exists [], (txt "a"). split; [reflexivity|]. split; [left; reflexivity|]. split; [intros [K|[]]; discriminate|].
    split; [exists "a"%char; split; [left; reflexivity|discriminate]|]. split; intros K; cbn in K; intuition discriminate. }
  split; [eexists; split; [vm_compute; reflexivity|]; vm_compute; repeat split; reflexivity|].
  split; [eexists; split; vm_compute; reflexivity|]. split; [eexists; split; vm_compute; reflexivity|]. vm_compute. reflexivity.
Qed.
