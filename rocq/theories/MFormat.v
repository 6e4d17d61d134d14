(* MFormat.v -- readGraph and writeGraph of the bundled generator, software/cnfgen/cnfformula/graphs.py:22-375: which format
   is used, which arguments are refused, what happens to the file.
   Simplifications: no parallel edges (multi_edges is False); file names are texts and those of a POSIX system; a file that
   is not there is the only failure of open; networkx's readers and writers of gml and dot, and whether dot is there, are
   parameters; a graph that is written comes with its own type; messages are left out. *)
From Coq Require Import String Ascii ZArith List Bool.
From Verif Require Import PyBase MSet MText MCnf MFam MFam2 MTrans MFile MGraph.
Import ListNotations.
Open Scope Z_scope.

Definition FileNotFoundError : exn := OtherException.
(* graphs of a type, with their names *)
Inductive typed_graph :=
| T_dag (name : text) (d : digraph) | T_digraph (name : text) (d : digraph)
| T_simple (name : text) (g : graph) | T_bipartite (name : text) (b : bipartite).
Definition type_name (k : graph_type) : text :=
  match k with Dag => txt "dag" | Directed => txt "digraph" | Simple => txt "simple" | Bipartite => txt "bipartite" end.
Definition type_of (g : typed_graph) : graph_type :=
  match g with T_dag _ _ => Dag | T_digraph _ _ => Directed | T_simple _ _ => Simple | T_bipartite _ _ => Bipartite end.
(* graphs.py:53-75, networkx.read_gml, read_dot (the exceptions as readGraph raises them, 268-275), write_gml, write_dot *)
Record library := mkLibrary {
  lib_dot : bool; lib_read : text -> graph_type -> text -> result file_graph; lib_write : text -> typed_graph -> text }.

(* graphs.py:22-27, 85-90 *)
Definition all_formats : list (text * list text) :=
  [(txt "dag", [txt "kthlist"; txt "gml"; txt "dot"]);
   (txt "digraph", [txt "kthlist"; txt "gml"; txt "dot"; txt "dimacs"]);
   (txt "simple", [txt "kthlist"; txt "gml"; txt "dot"; txt "dimacs"]);
   (txt "bipartite", [txt "kthlist"; txt "matrix"; txt "gml"; txt "dot"])].
Definition graphformats (dot : bool) : list (text * list text) :=
  map (fun p => (fst p, if dot then snd p else filter (fun f => negb (text_eqb f (txt "dot"))) (snd p))) all_formats.
Definition member (t : text) (l : list text) : bool := existsb (text_eqb t) l.

(* str.rfind of one character *)
Fixpoint rfind (c : ascii) (t : text) : Z :=
  match t with
  | [] => -1
  | x :: t' => let r := rfind c t' in if 0 <=? r then r + 1 else if Ascii.eqb x c then 0 else -1
  end.
(* os.path.splitext(p)[-1] (genericpath._splitext): leading dots of the last component begin no extension *)
Definition splitext_tail (p : text) : text :=
  let sep := rfind "/" p in
  let dot := rfind "." p in
  if (sep <? dot) && existsb (fun c => negb (Ascii.eqb c ".")) (firstn (Z.to_nat (dot - (sep + 1))) (skipn (Z.to_nat (sep + 1)) p))
  then skipn (Z.to_nat dot) p else [].
(* ...[1:] *)
Definition extension (p : text) : text := tl (splitext_tail p).

(* an open file with its attribute name, if it has one; or something else *)
Inductive stream := NoStream | Stream (name : option text).
(* graphs.py:157-171 *)
Definition class_of (ty : text) : option graph_type :=
  if text_eqb ty (txt "dag") then Some Dag
  else if text_eqb ty (txt "digraph") then Some Directed
  else if text_eqb ty (txt "simple") then Some Simple
  else if text_eqb ty (txt "bipartite") then Some Bipartite else None.
(* graphs.py:144-190; the two messages that concatenate a string and a list raise TypeError *)
Definition process_graph_io_arguments (dot : bool) (io : stream) (ty fmt : text) : result (graph_type * text) :=
  match io with
  | NoStream => Err ValueError
  | Stream name =>
      match dget text_eqb ty (graphformats dot) with
      | None => Err TypeError
      | Some fs =>
          k <- of_option RuntimeError (class_of ty) ;;
          if text_eqb fmt (txt "autodetect")
          then match name with
               | None => Err ValueError
               | Some n => if member (extension n) fs then Ok (k, extension n) else Err ValueError
               end
          else if member fmt fs then Ok (k, fmt) else Err TypeError
      end
  end.

(* graphs.py:402-422 *)
Definition has_bipartition (f : file_graph) : bool := forallb (fun v => has_color f 0 v || has_color f 1 v) (f_vertices f).
(* graphs.py:259-296 *)
Definition read_stream (L : library) (io : stream) (content ty fmt : text) : result file_graph :=
  '(k, f) <- process_graph_io_arguments (lib_dot L) io ty fmt ;;
  G <- (if text_eqb f (txt "dot") || text_eqb f (txt "gml") then lib_read L f k content
        else if text_eqb f (txt "kthlist") then read_kthlist (is_directed k) (is_bipartite k) content
        else if text_eqb f (txt "dimacs") then read_dimacs_graph (is_directed k) content
        else if text_eqb f (txt "matrix") then read_matrix content
        else Err RuntimeError) ;;
  match k with
  | Dag => if is_dag (to_digraph G) then Ok G else if f_sorted G then Err AssertionError else Err ValueError
  | Bipartite => if has_bipartition G then Ok G else Err ValueError
  | _ => Ok G
  end.
(* the files by their names *)
Definition files := text -> option text.
Inductive input := FileName (n : text) | OpenFile (name : option text) (content : text) | NotAFile.
(* graphs.py:194-296 *)
Definition readGraph (L : library) (F : files) (i : input) (ty fmt : text) : result file_graph :=
  match i with
  | FileName n => match F n with None => Err FileNotFoundError | Some t => read_stream L (Stream (Some n)) t ty fmt end
  | OpenFile name t => read_stream L (Stream name) t ty fmt
  | NotAFile => read_stream L NoStream [] ty fmt
  end.

(* G.nodes() and G.edges() *)
Definition nodes_of (g : typed_graph) : list Z :=
  match g with T_dag _ d | T_digraph _ d => d_nodes d | T_simple _ g => g_nodes g | T_bipartite _ b => bip_vertices b end.
Definition edges_in (g : typed_graph) : list (Z * Z) :=
  match g with T_dag _ d | T_digraph _ d => d_edges d | T_simple _ g => g_edges g | T_bipartite _ b => b_edges b end.
Definition name_of (g : typed_graph) : text := match g with T_dag n _ | T_digraph n _ | T_simple n _ | T_bipartite n _ => n end.
(* graphs.py:346-372: the text written *)
Definition written (L : library) (io : stream) (g : typed_graph) (fmt : text) : result text :=
  '(_, f) <- process_graph_io_arguments (lib_dot L) io (type_name (type_of g)) fmt ;;
  if text_eqb f (txt "dot") || text_eqb f (txt "gml") then Ok (lib_write L f g)
  else if text_eqb f (txt "kthlist")
       then Ok (match g with
                | T_dag n d | T_digraph n d => writeDigraph_kthlist n d
                | T_simple n g => writeGraph_kthlist n g
                | T_bipartite n b => writeBipartite_kthlist n b
                end)
  else if text_eqb f (txt "dimacs") then Ok (write_dimacs_graph (name_of g) (nodes_of g) (edges_in g))
  else if text_eqb f (txt "matrix") then match g with T_bipartite _ b => Ok (write_matrix b) | _ => Err KeyError end
  else Err RuntimeError.
Definition put (F : files) (n t : text) : files := fun m => if text_eqb m n then Some t else F m.
(* graphs.py:299-372 for the name of a file, which open(...,'w') empties first *)
Definition writeGraph (L : library) (F : files) (n : text) (g : typed_graph) (fmt : text) : result unit * files :=
  match written L (Stream (Some n)) g fmt with
  | Ok t => (Ok tt, put F n t)
  | Err e => (Err e, put F n [])
  | OutOfFuel => (OutOfFuel, put F n [])
  end.
(* graphs.py:299-372 for an open file with the text written to it before (print and write of kthlist and dimacs write to the
   file as they go, but never fail half-way) *)
Definition writeGraph_open (L : library) (name : option text) (content : text) (g : typed_graph) (fmt : text) : result unit * text :=
  match written L (Stream name) g fmt with
  | Ok t => (Ok tt, content ++ t)
  | Err e => (Err e, content)
  | OutOfFuel => (OutOfFuel, content)
  end.
