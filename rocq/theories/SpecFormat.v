(* SpecFormat.v -- the formats of graph files, independently of the program.  Definitions only. *)
From Coq Require Import String Ascii ZArith List Bool.
Import ListNotations.

Definition word_of (s : string) : list ascii := list_ascii_of_string s.
Definition graph_types : list (list ascii) := map word_of ["dag"; "digraph"; "simple"; "bipartite"]%string.
(* which formats are offered for which types of graphs; dot only when there is a library for it *)
Inductive offered (dot : bool) : list ascii -> list ascii -> Prop :=
| offered_kthlist ty : In ty graph_types -> offered dot ty (word_of "kthlist")
| offered_gml ty : In ty graph_types -> offered dot ty (word_of "gml")
| offered_dot ty : dot = true -> In ty graph_types -> offered dot ty (word_of "dot")
| offered_dimacs ty : In ty (map word_of ["digraph"; "simple"]%string) -> offered dot ty (word_of "dimacs")
| offered_matrix : offered dot (word_of "bipartite") (word_of "matrix").
(* the path ends with .ext, and before that dot its last component is not empty and not made of dots only *)
Definition has_extension (path ext : list ascii) : Prop :=
  exists dir base, path = dir ++ base ++ "."%char :: ext /\ (dir = [] \/ exists d, dir = d ++ ["/"%char]) /\
    ~ In "/"%char base /\ (exists c, In c base /\ c <> "."%char) /\ ~ In "/"%char ext /\ ~ In "."%char ext.
