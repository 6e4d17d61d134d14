(* MFile.v -- files read and written by the bundled generator: DIMACS formulas (utils/__init__.py), graphs in the
   kthlist and DIMACS edge formats and bipartite graphs as matrices (graphs.py).
   Simplifications: a file is its text, lines end with newline characters; graphs without parallel edges; the formats
   gml and dot, which networkx reads, are left out; messages of exceptions are left out. *)
From Coq Require Import String Ascii ZArith List Bool.
From Verif Require Import PyBase MSet MText MCnf MFam MFam2 MTrans.
Import ListNotations.
Open Scope Z_scope.

(* file.readlines(): every line with its newline; the last one may lack it *)
Fixpoint readlines (t : text) : list text :=
  match t with
  | [] => []
  | x :: t' =>
      if Ascii.eqb x newline then [x] :: readlines t'
      else match readlines t' with [] => [[x]] | l :: ls => (x :: l) :: ls end
  end.
(* [int(x) for x in words] *)
Definition integers (words : list text) : result (list Z) := of_option ValueError (mapO py_int words).

(* ---- utils/__init__.py:11-83 ---- *)
Record parsed := mkParsed { p_header : text; p_n : Z; p_m : Z; p_clauses : list (list Z); p_buffer : list Z }.
(* utils/__init__.py:66-71 *)
Fixpoint read_literals (lits : list Z) (clauses : list (list Z)) (buffer : list Z) : list (list Z) * list Z :=
  match lits with
  | [] => (clauses, buffer)
  | lv :: t => if lv =? 0 then read_literals t (clauses ++ [buffer]) [] else read_literals t clauses (buffer ++ [lv])
  end.
(* utils/__init__.py:32-71: one line *)
Definition read_line (s : parsed) (l : text) : result parsed :=
  match l with
  | [] => Err IndexError
  | c0 :: rest =>
      if Ascii.eqb c0 "c" then
        match rest with
        | [] => Err IndexError
        | c1 :: rest' =>
            let piece := if Ascii.eqb c1 " " then match rest' with [] => [newline] | _ => rest' end else rest in
            Ok (mkParsed (p_header s ++ piece) (p_n s) (p_m s) (p_clauses s) (p_buffer s))
        end
      else if Ascii.eqb c0 "p" then
        if 0 <=? p_n s then Err ValueError
        else match split_ws l with
             | [_; _; nstr; mstr] =>
                 n <- of_option ValueError (py_int nstr) ;;
                 m <- of_option ValueError (py_int mstr) ;;
                 Ok (mkParsed (p_header s) n m (p_clauses s) (p_buffer s))
             | _ => Err ValueError
             end
      else
        lits <- integers (split_ws l) ;;
        let '(cls, buf) := read_literals lits (p_clauses s) (p_buffer s) in
        Ok (mkParsed (p_header s) (p_n s) (p_m s) cls buf)
  end.
Fixpoint read_lines (ls : list text) (s : parsed) : result parsed :=
  match ls with [] => Ok s | l :: t => s' <- read_line s l ;; read_lines t s' end.
(* utils/__init__.py:11-83; the comparison m=='-1' of a number with a string is never true *)
Definition dimacs2compressed_clauses (t : text) : result (text * Z * list (list Z)) :=
  s <- read_lines (readlines t) (mkParsed [] (-1) (-1) [] []) ;;
  match p_buffer s with
  | _ :: _ => Err ValueError
  | [] => if p_m s =? Z.of_nat (List.length (p_clauses s)) then Ok (p_header s, p_n s, p_clauses s) else Err ValueError
  end.
(* utils/__init__.py:88-107: the variables are the numbers, here their decimal forms.  _check_coherence (cnf.py:262-305)
   only records its verdict, the second component *)
Definition coherent (n : Z) (cls : list (list Z)) : bool := forallb (forallb (fun l => (0 <? Z.abs l) && (Z.abs l <=? n))) cls.
Definition dimacs2cnf (t : text) : result (text * cnf * bool) :=
  '(h, n, cls) <- dimacs2compressed_clauses t ;;
  let c := add_variables (map str_Z (range 1 (n + 1))) empty_cnf in
  Ok (h, mkCnf (cn_names c) cls, coherent (Z.of_nat (List.length (cn_names c))) cls).

(* ---- graphs.py: the graph a file describes ---- *)
(* vertices in the order they were added, edges (from, to) as they were added, each once; attribute 'bipartite';
   attribute topologically_sorted; name *)
Record file_graph := mkFile {
  f_vertices : list Z; f_edges : list (Z * Z); f_colors : list (Z * Z); f_sorted : bool; f_name : text }.
(* G.add_edge(u,v): nothing for an edge that is there, in an undirected graph in either direction *)
Definition same_edge (directed : bool) (e e' : Z * Z) : bool :=
  ((fst e =? fst e') && (snd e =? snd e')) || (negb directed && (fst e =? snd e') && (snd e =? fst e')).
Definition add_edge (directed : bool) (es : list (Z * Z)) (e : Z * Z) : list (Z * Z) :=
  if existsb (same_edge directed e) es then es else es ++ [e].
(* as undirected, directed and bipartite graph (graphs.py:402-477) *)
Definition to_graph (f : file_graph) : graph := mkGraph (sort_by Z.ltb (f_vertices f)) (sort_by edge_ltb (map sorted_pair (f_edges f))).
Definition to_digraph (f : file_graph) : digraph := mkDigraph (sort_by Z.ltb (f_vertices f)) (f_edges f).
Definition has_color (f : file_graph) (k v : Z) : bool := match dget Z.eqb v (f_colors f) with Some c => c =? k | None => false end.
Definition to_bipartite (f : file_graph) : bipartite :=
  mkBipartite (sort_by Z.ltb (filter (has_color f 0) (f_vertices f))) (sort_by Z.ltb (filter (has_color f 1) (f_vertices f)))
    (map (fun e => if has_color f 0 (fst e) then e else (snd e, fst e)) (f_edges f)).

(* ---- kthlist, graphs.py:480-610 ---- *)
Record kth_state := mkKth { k_n : Z; k_edges : list (Z * Z); k_colors : list (Z * Z); k_topo : bool; k_name : text }.
(* graphs.py:575-589: the colour of the target, then of the sources *)
Definition bicolor (target : Z) (sources : list Z) (colors : list (Z * Z)) : result (list (Z * Z)) :=
  let cs := flat_map (fun s => match dget Z.eqb s colors with Some c => [c] | None => [] end) sources ++
            match dget Z.eqb target colors with Some c => [1 - c] | None => [] end in
  match cs with
  | [] => Ok (fold_left (fun d s => dset Z.eqb s 1 d) sources (dset Z.eqb target 0 colors))
  | c :: t => if forallb (Z.eqb c) t
              then Ok (fold_left (fun d s => dset Z.eqb s c d) sources (dset Z.eqb target (1 - c) colors))
              else Err ValueError
  end.
Definition in_vertices (n v : Z) : bool := (1 <=? v) && (v <=? n).
(* graphs.py:525-594: one line *)
Definition kth_line (directed bipartition : bool) (s : kth_state) (l : text) : result kth_state :=
  match l with
  | [] => Err IndexError
  | c0 :: rest =>
      if Ascii.eqb c0 "c" then Ok (mkKth (k_n s) (k_edges s) (k_colors s) (k_topo s) (k_name s ++ tl rest))
      else match strip is_uspace l with
      | [] => Ok s
      | _ =>
          match split_on ":" l with
          | [_] =>
              if 0 <=? k_n s then Err ValueError
              else n <- of_option ValueError (py_int (strip is_uspace l)) ;;
                   if n <? 0 then Err ValueError else Ok (mkKth n (k_edges s) (k_colors s) (k_topo s) (k_name s))
          | [t; ss] =>
              target <- of_option ValueError (py_int (strip is_uspace t)) ;;
              sources <- integers (split_ws ss) ;;
              if (List.length sources =? 0)%nat || negb (List.last sources 1 =? 0) then Err ValueError
              else if negb (in_vertices (k_n s) target) then Err ValueError
              else
                let sources := removelast sources in
                if negb (forallb (in_vertices (k_n s)) sources) then Err ValueError
                else
                  colors <- (if bipartition then bicolor target sources (k_colors s) else Ok (k_colors s)) ;;
                  Ok (mkKth (k_n s) (fold_left (fun es x => add_edge directed es (x, target)) sources (k_edges s)) colors
                            (k_topo s && forallb (fun x => target <? x) sources) (k_name s))
          | _ => Err ValueError
          end
      end
  end.
Fixpoint kth_lines (directed bipartition : bool) (ls : list text) (s : kth_state) : result kth_state :=
  match ls with [] => Ok s | l :: t => s' <- kth_line directed bipartition s l ;; kth_lines directed bipartition t s' end.
(* graphs.py:596-610: without a line giving the number of vertices it is -1 *)
Definition read_kthlist (directed bipartition : bool) (t : text) : result file_graph :=
  s <- kth_lines directed bipartition (readlines t) (mkKth (-1) [] [] true []) ;;
  if k_n s <? 0 then Err ValueError
  else let V := range 1 (k_n s + 1) in
       let colors := if bipartition then fold_left (fun d v => match dget Z.eqb v d with Some _ => d | None => dset Z.eqb v 1 d end) V (k_colors s)
                     else k_colors s in
       Ok (mkFile V (k_edges s) colors (k_topo s) (k_name s)).

(* graphs.py:194-296 for kthlist: type of graph, test for cycles.  Of a graph marked topologically_sorted is_dag
   (graphs.py:390-396) asserts the same *)
Inductive graph_type := Dag | Directed | Simple | Bipartite.
Definition is_directed (k : graph_type) : bool := match k with Dag | Directed => true | _ => false end.
Definition is_bipartite (k : graph_type) : bool := match k with Bipartite => true | _ => false end.
Definition readGraph_kthlist (k : graph_type) (t : text) : result file_graph :=
  f <- read_kthlist (is_directed k) (is_bipartite k) t ;;
  match k with
  | Dag => if is_dag (to_digraph f) then Ok f else if f_sorted f then Err AssertionError else Err ValueError
  | _ => Ok f
  end.

(* graphs.py:769-812: name, vertices as enumerate_vertices lists them, the lines to be written: vertices and their
   (preceding) neighbours.  print adds a newline *)
Definition write_kthlist (name : text) (V : list Z) (lines : list Z) (nbrs : Z -> list Z) : text :=
  txt "c " ++ name ++ [newline] ++ str_Z (Z.of_nat (List.length V)) ++ [newline] ++
  concat (map (fun v => str_Z (rank_of v V 1) ++ txt " : " ++
                        join (txt " ") (map str_Z (sort_by Z.ltb (map (fun w => rank_of w V 1) (nbrs v)))) ++ txt " 0" ++ [newline]) lines) ++
  [newline].
Definition writeGraph_kthlist (name : text) (g : graph) : text := write_kthlist name (enumerate_vertices g) (enumerate_vertices g) (neighbors g).
Definition writeDigraph_kthlist (name : text) (d : digraph) : text := write_kthlist name (d_nodes d) (d_nodes d) (predecessors d).
(* the vertices of a bipartite graph are those of both sides, sorted *)
Definition bip_vertices (b : bipartite) : list Z := sort_by Z.ltb (b_left b ++ b_right b).
Definition writeBipartite_kthlist (name : text) (b : bipartite) : text := write_kthlist name (bip_vertices b) (b_left b) (left_neighbors b).

(* ---- DIMACS edge format, graphs.py:612-669 ---- *)
Record edge_state := mkEdges { e_n : Z; e_m : Z; e_count : Z; e_vertices : list Z; e_edges : list (Z * Z); e_name : text }.
Definition add_vertex (V : list Z) (v : Z) : list Z := if zmem v V then V else V ++ [v].
Definition edge_line (directed : bool) (s : edge_state) (l : text) : result edge_state :=
  match l with
  | [] => Err IndexError
  | c0 :: rest =>
      if Ascii.eqb c0 "c" then Ok (mkEdges (e_n s) (e_m s) (e_count s) (e_vertices s) (e_edges s) (e_name s ++ tl rest))
      else if Ascii.eqb c0 "p" then
        if 0 <=? e_n s then Err ValueError
        else match split_ws l with
             | [_; fmt; nstr; mstr] =>
                 if negb (text_eqb fmt (txt "edge")) then Err ValueError
                 else n <- of_option ValueError (py_int nstr) ;;
                      m <- of_option ValueError (py_int mstr) ;;
                      Ok (mkEdges n m (e_count s) (fold_left add_vertex (range 1 (n + 1)) (e_vertices s)) (e_edges s) (e_name s))
             | _ => Err ValueError
             end
      else if Ascii.eqb c0 "e" then
        match split_ws l with
        | [_; vs; ws] =>
            v <- of_option ValueError (py_int vs) ;;
            w <- of_option ValueError (py_int ws) ;;
            Ok (mkEdges (e_n s) (e_m s) (e_count s + 1) (add_vertex (add_vertex (e_vertices s) v) w) (add_edge directed (e_edges s) (v, w)) (e_name s))
        | _ => Err ValueError
        end
      else Ok s
  end.
Fixpoint edge_lines (directed : bool) (ls : list text) (s : edge_state) : result edge_state :=
  match ls with [] => Ok s | l :: t => s' <- edge_line directed s l ;; edge_lines directed t s' end.
Definition read_dimacs_graph (directed : bool) (t : text) : result file_graph :=
  s <- edge_lines directed (readlines t) (mkEdges (-1) (-1) 0 [] [] []) ;;
  if e_m s =? e_count s then Ok (mkFile (e_vertices s) (e_edges s) [] false (e_name s)) else Err ValueError.
(* graphs.py:815-833; V and E are G.nodes() and G.edges() *)
Definition write_dimacs_graph (name : text) (V : list Z) (E : list (Z * Z)) : text :=
  strip is_uspace (txt "c " ++ name) ++ [newline] ++
  txt "p edge " ++ str_Z (Z.of_nat (List.length V)) ++ txt " " ++ str_Z (Z.of_nat (List.length E)) ++ [newline] ++
  concat (map (fun e => txt "e " ++ str_Z (rank_of (fst e) V 1) ++ txt " " ++ str_Z (rank_of (snd e) V 1) ++ [newline]) E).

(* ---- matrices, graphs.py:836-857 ---- *)
Definition write_matrix (b : bipartite) : text :=
  str_Z (Z.of_nat (List.length (b_left b))) ++ txt " " ++ str_Z (Z.of_nat (List.length (b_right b))) ++ [newline] ++
  concat (map (fun u => join (txt " ") (map (fun v => if existsb (fun e => (fst e =? u) && (snd e =? v)) (b_edges b) then txt "1" else txt "0") (b_right b)) ++ [newline])
              (b_left b)).
(* graphs.py:671-763: scanner.next() (lines 732, 733), a method that generators of Python 3 do not have *)
Definition read_matrix (t : text) : result file_graph := Err AttributeError.
