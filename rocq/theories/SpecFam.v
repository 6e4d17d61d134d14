(* SpecFam.v -- vocabulary of the properties about the formula families of the bundled generator.  Definitions only. *)
From Coq Require Import String Ascii ZArith List Bool.
From Verif Require Import PyBase MText MCnf MFam.
Import ListNotations.
Open Scope Z_scope.

(* ---- graphs: what networkx guarantees about the graphs it hands out ---- *)
(* simple: no vertex or edge twice (in either direction), no loop *)
Record simple_graph (g : graph) : Prop := mkSimple {
  sg_nodes : NoDup (g_nodes g);
  sg_edges : NoDup (g_edges g);
  sg_once : forall u v, In (u, v) (g_edges g) -> ~ In (v, u) (g_edges g);
  sg_ends : forall u v, In (u, v) (g_edges g) -> In u (g_nodes g) /\ In v (g_nodes g)
}.
Definition adjacent (g : graph) (u v : Z) : Prop := In (u, v) (g_edges g) \/ In (v, u) (g_edges g).
Record bipartite_graph (b : bipartite) : Prop := mkBip {
  bg_left : NoDup (b_left b);
  bg_right : NoDup (b_right b);
  bg_edges : NoDup (b_edges b);
  bg_ends : forall u v, In (u, v) (b_edges b) -> In u (b_left b) /\ In v (b_right b);
  bg_apart : forall v, In v (b_left b) -> ~ In v (b_right b)
}.

(* a relation between two finite sets: every d has a partner; no e has two; if asked for, no d has two and
   every e has one.  Only the pairs in [may] count *)
Record assigns (D R : Z -> Prop) (may : Z -> Z -> Prop) (functional onto : bool) (r : Z -> Z -> Prop) : Prop := mkAssigns {
  as_total : forall d, D d -> exists e, R e /\ may d e /\ r d e;
  as_injective : forall d d' e, D d -> D d' -> R e -> may d e -> may d' e -> r d e -> r d' e -> d = d';
  as_functional : functional = true -> forall d e e', D d -> R e -> R e' -> may d e -> may d e' -> r d e -> r d e' -> e = e';
  as_onto : onto = true -> forall e, R e -> exists d, D d /\ may d e /\ r d e
}.

(* ---- paths and orders ---- *)
Inductive linked (g : graph) : Z -> Z -> Prop :=
| linked_refl v : linked g v v
| linked_step u v w : adjacent g u v -> linked g v w -> linked g u w.
Definition comes_before {A} (l : list A) (u v : A) : Prop :=
  exists i j, (i < j)%nat /\ nth_error l i = Some u /\ nth_error l j = Some v.
(* the relation 'u less than v' an assignment to the x_{u,v} stands for; in the compact form only x_{u,v} with
   u listed before v exists *)
Definition ordered_by (compact : bool) (V : list Z) (a : text -> bool) (u v : Z) : Prop :=
  if compact
  then (comes_before V u v /\ a (name2 (txt "x_{") u v) = true) \/ (comes_before V v u /\ a (name2 (txt "x_{") v u) = false)
  else a (name2 (txt "x_{") u v) = true.

(* ---- isomorphisms, charges ---- *)
Definition isomorphism (G1 G2 : graph) (f : Z -> Z) : Prop :=
  (forall u, In u (g_nodes G1) -> In (f u) (g_nodes G2)) /\
  (forall u u', In u (g_nodes G1) -> In u' (g_nodes G1) -> f u = f u' -> u = u') /\
  (forall v, In v (g_nodes G2) -> exists u, In u (g_nodes G1) /\ f u = v) /\
  (forall u u', In u (g_nodes G1) -> In u' (g_nodes G1) -> (adjacent G1 u u' <-> adjacent G2 (f u) (f u'))).
(* the charge of the vertex at position i *)
Definition charge_at (charges : option (list Z)) (i : nat) : bool :=
  match charges with None => Nat.eqb i 0 | Some l => negb (nth i l 0 =? 0) end.
Definition odd_vertex (g : graph) (charges : option (list Z)) (v : Z) : Prop :=
  exists i, nth_error (g_nodes g) i = Some v /\ charge_at charges i = true.
