(* SpecFam2.v -- vocabulary of the properties about subgraph formulas, pebbling formulas and random formulas.
   Definitions only. *)
From Coq Require Import String Ascii ZArith List Bool.
From Verif Require Import PyBase MText MCnf MFam MFam2 SpecFam.
Import ListNotations.
Open Scope Z_scope.

(* ---- subgraphs ---- *)
(* k different vertices of g, written as a list; ordered: as g lists them *)
Record placement (g : graph) (k : Z) (ordered : bool) (W : list Z) : Prop := mkPlacement {
  pl_length : Z.of_nat (List.length W) = k;
  pl_different : NoDup W;
  pl_vertices : incl W (g_nodes g);
  pl_ordered : ordered = true -> forall u v, comes_before W u v -> comes_before (g_nodes g) u v
}.
(* the first vertices in W are connected in g exactly as the vertices of t, in this order *)
Definition matches (t g : graph) (W : list Z) : Prop :=
  forall i i' u u' w w', i <> i' ->
    nth_error (g_nodes t) i = Some u -> nth_error (g_nodes t) i' = Some u' ->
    nth_error W i = Some w -> nth_error W i' = Some w' -> (adjacent t u u' <-> adjacent g w w').
(* which templates the code makes match, by their number: the only one; of two the one the selector c picks; of more
   than two all but the one whose selector is true *)
Definition active (a : text -> bool) (ts : list graph) (g : graph) (W : list Z) : Prop :=
  match ts with
  | [] => True
  | [t] => matches t g W
  | [t0; t1] => matches (if a (txt "c") then t1 else t0) g W
  | _ => exists chosen, (chosen < List.length ts)%nat /\
           (forall i, (i < List.length ts)%nat -> (a (name1 (txt "c_{") (Z.of_nat i)) = true <-> i = chosen)) /\
           forall i t, nth_error ts i = Some t -> i <> chosen -> matches t g W
  end.
(* the same without the selectors *)
Definition chosen_match (ts : list graph) (g : graph) (W : list Z) : Prop :=
  match ts with
  | [] => True
  | [t] => matches t g W
  | [t0; t1] => matches t0 g W \/ matches t1 g W
  | _ => exists chosen, (chosen < List.length ts)%nat /\ forall i t, nth_error ts i = Some t -> i <> chosen -> matches t g W
  end.
(* f finds a copy of t in g as an induced subgraph *)
Definition induced_copy (t g : graph) (f : Z -> Z) : Prop :=
  (forall u, In u (g_nodes t) -> In (f u) (g_nodes g)) /\
  (forall u u', In u (g_nodes t) -> In u' (g_nodes t) -> f u = f u' -> u = u') /\
  (forall u u', In u (g_nodes t) -> In u' (g_nodes t) -> (adjacent t u u' <-> adjacent g (f u) (f u'))).
Definition clique (g : graph) (S : list Z) : Prop :=
  NoDup S /\ incl S (g_nodes g) /\ forall u v, In u S -> In v S -> u <> v -> adjacent g u v.
Definition independent (g : graph) (S : list Z) : Prop :=
  NoDup S /\ incl S (g_nodes g) /\ forall u v, In u S -> In v S -> ~ adjacent g u v.

(* ---- directed graphs ---- *)
Record proper_digraph (d : digraph) : Prop := mkProper {
  pd_nodes : NoDup (d_nodes d);
  pd_ends : forall u v, In (u, v) (d_edges d) -> In u (d_nodes d) /\ In v (d_nodes d)
}.
Definition arc (d : digraph) (u v : Z) : Prop := In (u, v) (d_edges d).
Inductive walk (d : digraph) : Z -> Z -> Prop :=
| walk_arc u v : arc d u v -> walk d u v
| walk_step u v w : arc d u v -> walk d v w -> walk d u w.
Definition acyclic (d : digraph) : Prop := forall v, ~ walk d v v.
Definition sink (d : digraph) (v : Z) : Prop := forall w, ~ arc d v w.
(* stones on vertices, some of them red *)
Record stones_fit (d : digraph) (may : Z -> Z -> Prop) (on : Z -> Z -> Prop) (red : Z -> Prop) : Prop := mkStones {
  sf_some : forall v, In v (d_nodes d) -> exists j, may v j /\ on v j;
  sf_spread : forall v j, In v (d_nodes d) -> may v j -> on v j ->
    (forall u, arc d u v -> exists s, may u s /\ s <> j /\ on u s /\ red s) -> red j;
  sf_sink : forall v j, In v (d_nodes d) -> sink d v -> may v j -> on v j -> ~ red j
}.
(* stone j may lie on v according to b: the left side of b stands for the vertices of d, the right side for the stones 1, 2, ... *)
Definition stone_allowed (d : digraph) (b : bipartite) (v j : Z) : Prop :=
  exists i k u s, nth_error (d_nodes d) i = Some v /\ nth_error (b_left b) i = Some u /\
    nth_error (b_right b) k = Some s /\ j = Z.of_nat k + 1 /\ In (u, s) (b_edges b).
