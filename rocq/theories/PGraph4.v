(* PGraph4.v -- missing edges *)
From Coq Require Import String Ascii ZArith NArith List Bool Lia Arith Sorted Permutation.
From Verif Require Import PyBase MSet MText MCnf MFam MFam2 MTrans MFile MGraph SpecCnf SpecFam SpecFam2 SpecGraph PLib PFam1 PFam2 PFam3 PFam4 PFam5 PFam8 PFile3 PNames PTrans1 PGraph1 PGraph2 PGraph3.
Import ListNotations.
Open Scope Z_scope.

(* ---- adding edges ---- *)
Lemma add_all_joined d es' : forall es u v, joined d (fold_left (add_edge d) es' es) u v <-> joined d es u v \/ joined d es' u v.
Proof.
  induction es' as [|x es' IH]; intros es u v; cbn [fold_left].
  - split; auto. intros [H|[H|[_ H]]]; auto; destruct H.
  - rewrite IH, add_edge_joined. unfold joined. cbn [In]. intuition.
Qed.
Lemma add_all_once d es' : forall es, once d es -> once d (fold_left (add_edge d) es' es).
Proof. induction es' as [|x es' IH]; intros es H; cbn [fold_left]; auto. apply IH, add_edge_once; auto. Qed.
Lemma add_all_keeps d es' : forall es e, In e es -> In e (fold_left (add_edge d) es' es).
Proof.
  induction es' as [|x es' IH]; intros es e H; cbn [fold_left]; auto. apply IH. unfold add_edge. destruct (existsb _ es); auto. apply in_app_iff. auto.
Qed.
Lemma add_all_from d es' : forall es e, In e (fold_left (add_edge d) es' es) -> In e es \/ In e es'.
Proof.
  induction es' as [|x es' IH]; intros es e H; cbn [fold_left] in H; auto. apply IH in H as [H|H]; [|right; right; auto].
  unfold add_edge in H. destruct (existsb _ es); auto. apply in_app_iff in H as [H|[H|[]]]; auto. right. left. auto.
Qed.
Lemma add_all_fresh d es' : forall es, (forall u v, In (u, v) es' -> ~ joined d es u v /\ (d = false -> ~ In (v, u) es')) -> NoDup es' ->
  fold_left (add_edge d) es' es = es ++ es'.
Proof.
  induction es' as [|[a b] es' IH]; intros es F N; cbn [fold_left]; [now rewrite app_nil_r|].
  assert (E : add_edge d es (a, b) = es ++ [(a, b)]).
  { unfold add_edge. destruct (existsb (same_edge d (a, b)) es) eqn:E; auto. exfalso. apply existsb_exists in E as (e & H & E). apply same_edge_spec in E.
    destruct (F a b ltac:(left; auto)) as [K _]. apply K. unfold joined. destruct e as [x y]. cbn [fst snd] in E. destruct E as [E|[D E]]; inversion E; subst; auto. }
  inversion N as [|? ? N1 N2]; subst. rewrite E, IH; auto; [rewrite <- app_assoc; reflexivity|].
  intros u v H. destruct (F u v ltac:(right; auto)) as [K L]. split.
  - intros Q. unfold joined in Q. rewrite !in_app_iff in Q. cbn [In] in Q. destruct Q as [[Q|[Q|[]]]|[D [Q|[Q|[]]]]].
    + apply K. left. auto.
    + inversion Q; subst. contradiction.
    + apply K. right. auto.
    + inversion Q; subst. apply (L eq_refl). left. auto.
  - intros D Q. apply (L D). right. auto.
Qed.
Lemma simple_once g : simple_graph g -> once false (g_edges g).
Proof. intros [_ N O _]. split; auto. Qed.
Lemma simple_no_loop g u : simple_graph g -> ~ In (u, u) (g_edges g).
Proof. intros G H. apply (sg_once g G u u H H). Qed.
Lemma adjacent_joined g u v : adjacent g u v <-> joined false (g_edges g) u v.
Proof. unfold adjacent, joined. tauto. Qed.
Lemma add_edges_simple g es : simple_graph g -> (forall u v, In (u, v) es -> In u (g_nodes g) /\ In v (g_nodes g) /\ u <> v) -> simple_graph (add_edges_from g es).
Proof.
  intros G H. destruct (add_all_once false es (g_edges g) (simple_once g G)) as [N O]. unfold add_edges_from.
  assert (L : forall u, ~ In (u, u) (fold_left (add_edge false) es (g_edges g))).
  { intros u K. apply add_all_from in K as [K|K]; [apply (simple_no_loop g u G K)|]. apply H in K as (_ & _ & K). congruence. }
  constructor; cbn [g_nodes g_edges]; auto.
  - apply G.
  - intros u v K K'. destruct (Z.eq_dec u v) as [->|D]; [apply (L v K)|apply (O eq_refl u v D K K')].
  - intros u v K. apply add_all_from in K as [K|K]; [apply G; auto|apply H in K; tauto].
Qed.
Lemma add_edges_adjacent g es u v : adjacent (add_edges_from g es) u v <-> adjacent g u v \/ In (u, v) es \/ In (v, u) es.
Proof. rewrite adjacent_joined. unfold add_edges_from. cbn [g_edges]. rewrite add_all_joined, <- adjacent_joined. unfold joined. tauto. Qed.
Lemma add_bipartite_ok b es : bipartite_graph b -> (forall u v, In (u, v) es -> In u (b_left b) /\ In v (b_right b)) -> bipartite_graph (add_bipartite_edges b es).
Proof.
  intros B H. unfold add_bipartite_edges. constructor; cbn [b_left b_right b_edges]; try apply B.
  - apply add_arcs_NoDup, B.
  - intros u v K. apply add_arcs_In in K as [K|K]; [apply B; auto|auto].
Qed.

(* ---- how many edges are missing ---- *)
Lemma has_edge_adjacent g u v : has_edge g u v = true <-> adjacent g u v.
Proof. apply has_edge_ok. Qed.
Lemma pairs_length {A} (l : list A) : 2 * Z.of_nat (List.length (pairs l)) = Z.of_nat (List.length l) * (Z.of_nat (List.length l) - 1).
Proof. induction l as [|x l IH]; [reflexivity|]. cbn [pairs List.length]. rewrite app_length, map_length. lia. Qed.
Lemma filter_split {A} (p : A -> bool) l : (List.length (filter p l) + List.length (filter (fun x => negb (p x)) l) = List.length l)%nat.
Proof. induction l as [|x l IH]; auto. cbn [filter]. destruct (p x); cbn [negb List.length]; lia. Qed.
Definition oriented (ps : list (Z * Z)) (e : Z * Z) : Z * Z := if existsb (fun p => (fst p =? fst e) && (snd p =? snd e)) ps then e else (snd e, fst e).
Lemma oriented_spec ps e : oriented ps e = e /\ In e ps \/ oriented ps e = (snd e, fst e) /\ ~ In e ps.
Proof.
  unfold oriented. destruct (existsb _ ps) eqn:E; [left|right]; split; auto.
  - apply existsb_exists in E as ([a b] & H & E). cbn [fst snd] in E. apply andb_true_iff in E as [E1 E2]. apply Z.eqb_eq in E1, E2. destruct e; cbn [fst snd] in *; subst; auto.
  - intros H. assert (existsb (fun p => (fst p =? fst e) && (snd p =? snd e)) ps = true); [|congruence]. apply existsb_exists. exists e. rewrite !Z.eqb_refl. auto.
Qed.
Lemma joined_pairs_count g : simple_graph g -> List.length (filter (fun e => has_edge g (fst e) (snd e)) (pairs (g_nodes g))) = List.length (g_edges g).
Proof.
  intros G. set (ps := pairs (g_nodes g)). rewrite <- (map_length (oriented ps) (g_edges g)). apply Permutation_length, NoDup_Permutation.
  - apply NoDup_filter, PFam6.pairs_NoDup, G.
  - apply NoDup_map_in; [apply G|]. intros [a b] [c d] H K E.
    destruct (oriented_spec ps (a, b)) as [[E1 I1]|[E1 I1]], (oriented_spec ps (c, d)) as [[E2 I2]|[E2 I2]]; rewrite E1, E2 in E; cbn [fst snd] in E; inversion E; subst; auto; exfalso.
    + apply (sg_once g G c d K); auto.
    + apply (sg_once g G c d K); auto.
  - intros [u v]. rewrite filter_In, in_map_iff. cbn [fst snd]. rewrite has_edge_adjacent. split.
    + intros [H [K|K]].
      * exists (u, v). split; auto. destruct (oriented_spec ps (u, v)) as [[E _]|[_ E]]; [auto|contradiction].
      * exists (v, u). split; auto. destruct (oriented_spec ps (v, u)) as [[_ I]|[E _]]; [|auto]. exfalso. apply (pairs_one_way _ _ _ (sg_nodes g G) H I).
    + intros ([a b] & E & H). pose proof (sg_ends g G a b H) as [Ha Hb].
      assert (D : a <> b) by (intros ->; apply (simple_no_loop g b G H)).
      destruct (oriented_spec ps (a, b)) as [[E1 I1]|[E1 I1]]; rewrite E1 in E; cbn [fst snd] in E; inversion E; subst.
      * split; auto. left. auto.
      * split; [|right; auto]. destruct (pairs_total (g_nodes g) v u Ha Hb D) as [Q|Q]; [contradiction|auto].
Qed.
Definition available (g : graph) : list (Z * Z) := filter (fun e => negb (has_edge g (fst e) (snd e))) (pairs (g_nodes g)).
Lemma available_count g : simple_graph g -> 2 * Z.of_nat (List.length (available g)) = length_Z (g_nodes g) * (length_Z (g_nodes g) - 1) - 2 * length_Z (g_edges g).
Proof.
  intros G. unfold length_Z. rewrite <- pairs_length. pose proof (filter_split (fun e => has_edge g (fst e) (snd e)) (pairs (g_nodes g))) as F.
  rewrite (joined_pairs_count g G) in F. unfold available. lia.
Qed.
Lemma available_missing g : simple_graph g -> missing_edges g (available g).
Proof.
  intros G. split; [apply NoDup_filter, PFam6.pairs_NoDup, G|]. intros u v H. unfold available in H. apply filter_In in H as [H K]. cbn [fst snd] in K. apply negb_true_iff in K.
  destruct (pairs_In _ _ _ H) as [Hu Hv]. split; auto. split; auto. split; [apply (pairs_neq _ _ _ (sg_nodes g G) H)|]. split.
  - intros A. apply has_edge_adjacent in A. congruence.
  - intros Q. apply filter_In in Q as [Q _]. apply (pairs_one_way _ _ _ (sg_nodes g G) H Q).
Qed.
Lemma missing_le g es : simple_graph g -> missing_edges g es -> (List.length es <= List.length (available g))%nat.
Proof.
  intros G [N M]. set (ps := pairs (g_nodes g)). rewrite <- (map_length (oriented ps) es). apply NoDup_incl_length.
  - apply NoDup_map_in; auto. intros [a b] [c d] H K E.
    destruct (oriented_spec ps (a, b)) as [[E1 I1]|[E1 I1]], (oriented_spec ps (c, d)) as [[E2 I2]|[E2 I2]]; rewrite E1, E2 in E; cbn [fst snd] in E; inversion E; subst; auto; exfalso.
    + apply (M c d K) in H; auto.
    + apply (M c d K) in H; auto.
  - intros e H. apply in_map_iff in H as ([a b] & <- & H). destruct (M a b H) as (Ha & Hb & D & A & _). unfold available. apply filter_In.
    destruct (oriented_spec ps (a, b)) as [[E1 I1]|[E1 I1]]; rewrite E1; cbn [fst snd].
    + split; auto. apply negb_true_iff, not_true_iff_false. intros Q. apply has_edge_adjacent in Q. contradiction.
    + split; [destruct (pairs_total (g_nodes g) a b Ha Hb D) as [Q|Q]; [contradiction|auto]|]. apply negb_true_iff, not_true_iff_false. intros Q. apply has_edge_adjacent in Q. apply A. unfold adjacent in *. tauto.
Qed.
Lemma can_add_count g m : simple_graph g -> (can_add g m <-> 2 * m <= length_Z (g_nodes g) * (length_Z (g_nodes g) - 1) - 2 * length_Z (g_edges g)).
Proof.
  intros G. rewrite <- (available_count g G). split.
  - intros (es & M & L). pose proof (missing_le g es G M). lia.
  - intros L. exists (available g). split; [apply available_missing; auto|lia].
Qed.

(* ---- between the two sides ---- *)
Definition available_between (b : bipartite) : list (Z * Z) :=
  flat_map (fun u => map (pair u) (filter (fun v => negb (joined_pair (b_edges b) u v)) (b_right b))) (b_left b).
Lemma available_between_In b u v : In (u, v) (available_between b) <-> In u (b_left b) /\ In v (b_right b) /\ ~ In (u, v) (b_edges b).
Proof.
  unfold available_between. rewrite in_flat_map. split.
  - intros (w & H & K). apply in_map_iff in K as (x & E & K). inversion E; subst. apply filter_In in K as [K L]. apply negb_true_iff in L.
    split; auto. split; auto. intros Q. apply joined_pair_In in Q. congruence.
  - intros (H & K & L). exists u. split; auto. apply in_map. apply filter_In. split; auto. apply negb_true_iff, not_true_iff_false. intros Q. apply joined_pair_In in Q. auto.
Qed.
Lemma available_between_NoDup b : bipartite_graph b -> NoDup (available_between b).
Proof.
  intros B. apply flat_map_NoDup; [apply B| |].
  - intros u _. apply FinFun.Injective_map_NoDup; [intros x y E; congruence|]. apply NoDup_filter, B.
  - intros u u' e _ _ H K. apply in_map_iff in H as (v & <- & _). apply in_map_iff in K as (v' & E & _). congruence.
Qed.
Lemma product_length {A B} (l : list A) (r : list B) : List.length (flat_map (fun u => map (pair u) r) l) = (List.length l * List.length r)%nat.
Proof. induction l as [|x l IH]; auto. cbn [flat_map List.length]. rewrite app_length, map_length, IH. lia. Qed.
Lemma available_between_count b : bipartite_graph b -> Z.of_nat (List.length (available_between b)) = length_Z (b_left b) * length_Z (b_right b) - length_Z (b_edges b).
Proof.
  intros B. assert (P : Permutation (b_edges b ++ available_between b) (flat_map (fun u => map (pair u) (b_right b)) (b_left b))).
  { apply NoDup_Permutation.
    - apply NoDup_app_intro; [apply B|apply available_between_NoDup; auto|]. intros [u v] H K. apply available_between_In in K. tauto.
    - apply flat_map_NoDup; [apply B| |].
      + intros u _. apply FinFun.Injective_map_NoDup; [intros x y E; congruence|]. apply B.
      + intros u u' e _ _ H K. apply in_map_iff in H as (v & <- & _). apply in_map_iff in K as (v' & E & _). congruence.
    - intros [u v]. rewrite in_app_iff, available_between_In, in_flat_map. split.
      + intros [H|(H & K & _)]; [apply (bg_ends b B) in H as [H K]|]; exists u; (split; [auto|apply in_map; auto]).
      + intros (w & H & K). apply in_map_iff in K as (x & E & K). inversion E; subst.
        destruct (in_dec (fun p q : Z * Z => ltac:(decide equality; apply Z.eq_dec)) (u, v) (b_edges b)); auto. }
  apply Permutation_length in P. rewrite app_length, product_length in P. unfold length_Z. lia.
Qed.
Lemma can_add_between_count b m : bipartite_graph b -> (can_add_between b m <-> m <= length_Z (b_left b) * length_Z (b_right b) - length_Z (b_edges b)).
Proof.
  intros B. rewrite <- (available_between_count b B). split.
  - intros (es & [N M] & L). assert ((List.length es <= List.length (available_between b))%nat); [|lia]. apply NoDup_incl_length; auto.
    intros [u v] H. apply available_between_In, M; auto.
  - intros L. exists (available_between b). split; [|lia]. split; [apply available_between_NoDup; auto|]. intros u v H. apply available_between_In; auto.
Qed.
