(* SpecGraph.v -- vocabulary of the properties about the graphs constructed by the bundled generator.  Definitions only. *)
From Coq Require Import String ZArith List Bool.
From Verif Require Import PyBase MText MCnf MFam MFam2 MGraph SpecFam.
Import ListNotations.
Open Scope Z_scope.

(* ---- what the random module promises ---- *)
(* random.sample(population, m): m distinct elements *)
Definition sampled {A} (population : list A) (m : nat) (outcome : list A) : Prop :=
  NoDup outcome /\ incl outcome population /\ List.length outcome = m.
(* random.randint(lo, hi) *)
Definition fair_randint (randint : nat -> nat -> nat -> nat) : Prop :=
  forall t lo hi, (lo <= hi)%nat -> (lo <= randint t lo hi <= hi)%nat.

(* ---- degrees in a bipartite graph ---- *)
Definition left_degree (b : bipartite) (u : Z) : Z := Z.of_nat (List.length (filter (fun e => fst e =? u) (b_edges b))).
Definition right_degree (b : bipartite) (v : Z) : Z := Z.of_nat (List.length (filter (fun e => snd e =? v) (b_edges b))).

(* ---- directed graphs whose vertices are names ---- *)
Definition named_arc (g : named_digraph) (u v : list Ascii.ascii) : Prop := In (u, v) (n_arcs g).
Inductive named_walk (g : named_digraph) : list Ascii.ascii -> list Ascii.ascii -> Prop :=
| named_walk_arc u v : named_arc g u v -> named_walk g u v
| named_walk_step u v w : named_arc g u v -> named_walk g v w -> named_walk g u w.
(* u is listed before v *)
Definition listed_before {A} (l : list A) (u v : A) : Prop := exists a b c, l = a ++ u :: b ++ v :: c.
(* no vertex or arc twice; the vertices are listed in a topological order *)
Record ordered_dag (g : named_digraph) : Prop := mkOrdered {
  od_nodes : NoDup (n_vertices g);
  od_arcs : NoDup (n_arcs g);
  od_order : forall u v, named_arc g u v -> listed_before (n_vertices g) u v
}.
(* no successors *)
Definition named_sink (g : named_digraph) (v : list Ascii.ascii) : Prop := In v (n_vertices g) /\ forall w, ~ named_arc g v w.
(* x_{h,i} and v_i *)
Definition x_name (h i : Z) : list Ascii.ascii := txt "x_{" ++ str_Z h ++ txt "," ++ str_Z i ++ txt "}".
Definition v_name (i : Z) : list Ascii.ascii := txt "v_" ++ str_Z i.

(* ---- missing edges ---- *)
(* pairs of vertices that are not joined, none twice, in whatever direction *)
Definition missing_edges (g : graph) (es : list (Z * Z)) : Prop :=
  NoDup es /\ forall u v, In (u, v) es -> In u (g_nodes g) /\ In v (g_nodes g) /\ u <> v /\ ~ adjacent g u v /\ ~ In (v, u) es.
Definition missing_between (b : bipartite) (es : list (Z * Z)) : Prop :=
  NoDup es /\ forall u v, In (u, v) es -> In u (b_left b) /\ In v (b_right b) /\ ~ In (u, v) (b_edges b).
(* there are so many of them *)
Definition can_add (g : graph) (m : Z) : Prop := exists es, missing_edges g es /\ m <= Z.of_nat (List.length es).
Definition can_add_between (b : bipartite) (m : Z) : Prop := exists es, missing_between b es /\ m <= Z.of_nat (List.length es).
(* the outcomes of random: two distinct vertices; a vertex on the left and one on the right; samples *)
Definition fair_pairs (g : graph) (o : pair_outcomes) : Prop :=
  (forall t, In (fst (o_pair o t)) (g_nodes g) /\ In (snd (o_pair o t)) (g_nodes g) /\ fst (o_pair o t) <> snd (o_pair o t)) /\
  (forall l m, NoDup l -> (m <= List.length l)%nat -> sampled l m (o_sample o l m)).
Definition fair_pairs_between (b : bipartite) (o : pair_outcomes) : Prop :=
  (forall t, In (fst (o_pair o t)) (b_left b) /\ In (snd (o_pair o t)) (b_right b)) /\
  (forall l m, NoDup l -> (m <= List.length l)%nat -> sampled l m (o_sample o l m)).
