(* PGraph1.v -- bipartite graphs with a fixed pattern and with fixed left degree *)
From Coq Require Import String Ascii ZArith NArith List Bool Lia Arith Sorted Permutation.
From Verif Require Import PyBase MSet MText MCnf MFam MFam2 MTrans MFile MGraph SpecCnf SpecFam SpecFam2 SpecGraph PLib PFam1 PFam2 PFam4 PFam8 PFile3.
Import ListNotations.
Open Scope Z_scope.

Lemma add_arcs_In es' : forall es e, In e (fold_left (add_edge true) es' es) <-> In e es \/ In e es'.
Proof.
  induction es' as [|x es' IH]; intros es e; cbn [fold_left In]; [tauto|]. rewrite IH. destruct e as [u v].
  pose proof (add_edge_joined true es x u v) as J. unfold joined in J. cbn [In] in J.
  assert (K : In (u, v) (add_edge true es x) <-> In (u, v) es \/ x = (u, v)).
  { split; intros H.
    - destruct (proj1 J (or_introl H)) as [[K|[K _]]|[[K|[]]|[K _]]]; auto; discriminate.
    - destruct (proj2 J) as [K|[K _]]; auto; [destruct H as [H|H]; auto|discriminate]. }
  rewrite K. split; [intros [[H|H]|H]|intros [H|[H|H]]]; auto.
Qed.
Lemma add_arcs_NoDup es' : forall es, NoDup es -> NoDup (fold_left (add_edge true) es' es).
Proof.
  induction es' as [|x es' IH]; intros es N; cbn [fold_left]; auto. apply IH.
  apply (add_edge_once true es x). split; auto. discriminate.
Qed.
Lemma add_arcs_fresh es' : forall es, NoDup es' -> (forall e, In e es -> ~ In e es') -> fold_left (add_edge true) es' es = es ++ es'.
Proof.
  induction es' as [|x es' IH]; intros es N F; cbn [fold_left]; [now rewrite app_nil_r|].
  assert (E : add_edge true es x = es ++ [x]).
  { unfold add_edge. destruct (existsb (same_edge true x) es) eqn:E; auto. apply existsb_exists in E as (e & H & E). apply same_edge_spec in E as [E|[E _]]; [|discriminate].
    subst e. exfalso. apply (F x H). left. reflexivity. }
  inversion N; subst. rewrite E, IH; auto; [rewrite <- app_assoc; reflexivity|].
  intros e H K. apply in_app_iff in H as [H|[H|[]]]; [apply (F e H); right; auto|subst; contradiction].
Qed.
(* the edges of a left vertex are as many as its neighbours *)
Lemma degree_of b u (ns : list Z) : NoDup (b_edges b) -> NoDup ns -> (forall v, In (u, v) (b_edges b) <-> In v ns) -> left_degree b u = Z.of_nat (List.length ns).
Proof.
  intros N M E. unfold left_degree. f_equal. rewrite <- (map_length (pair u) ns). apply Permutation_length, NoDup_Permutation.
  - apply NoDup_filter; auto.
  - apply FinFun.Injective_map_NoDup; auto. intros x y H. congruence.
  - intros [a c]. rewrite filter_In, in_map_iff. cbn [fst]. rewrite Z.eqb_eq. split.
    + intros [H ->]. exists c. split; auto. apply E; auto.
    + intros (v & H & K). inversion H; subst. split; auto. apply E; auto.
Qed.
Lemma degree_right_of b v (ns : list Z) : NoDup (b_edges b) -> NoDup ns -> (forall u, In (u, v) (b_edges b) <-> In u ns) -> right_degree b v = Z.of_nat (List.length ns).
Proof.
  intros N M E. unfold right_degree. f_equal. rewrite <- (map_length (fun u => (u, v)) ns). apply Permutation_length, NoDup_Permutation.
  - apply NoDup_filter; auto.
  - apply FinFun.Injective_map_NoDup; auto. intros x y H. congruence.
  - intros [a c]. rewrite filter_In, in_map_iff. cbn [snd]. rewrite Z.eqb_eq. split.
    + intros [H ->]. exists a. split; auto. apply E; auto.
    + intros (u & H & K). inversion H; subst. split; auto. apply E; auto.
Qed.

(* ---- shift ---- *)
Lemma shift_refused N M pattern : N < 1 \/ M < 1 \/ (exists x, In x pattern /\ ~ 1 <= x <= M) -> bipartite_shift N M pattern = Err ValueError.
Proof.
  intros H. unfold bipartite_shift. destruct ((N <? 1) || (M <? 1)) eqn:E; auto. apply orb_false_iff in E as [E1 E2].
  destruct (existsb _ pattern) eqn:X; auto. destruct H as [H|[H|(x & H & K)]]; try (exfalso; lia).
  exfalso. apply (proj2 (not_true_iff_false _) X). apply existsb_exists. exists x. split; auto. lia.
Qed.
Lemma shift_edges N M pattern : 1 <= N -> 1 <= M -> (forall x, In x pattern -> 1 <= x <= M) ->
  exists b, bipartite_shift N M pattern = Ok b /\ b_left b = range 1 (N + 1) /\ b_right b = range (N + 1) (N + M + 1) /\ bipartite_graph b /\
    forall u v, In (u, v) (b_edges b) <-> 1 <= u <= N /\ exists i, In i pattern /\ v = N + 1 + (i + u - 2) mod M.
Proof.
  intros HN HM HP. unfold bipartite_shift. replace ((N <? 1) || (M <? 1)) with false by (symmetry; lia).
  replace (existsb _ pattern) with false.
  2:{ symmetry. apply not_true_iff_false. intros X. apply existsb_exists in X as (x & H & X). apply HP in H. lia. }
  eexists. split; [reflexivity|]. cbn [b_left b_right b_edges]. split; auto. split; auto.
  assert (E : forall u v, In (u, v) (fold_left (add_edge true) (flat_map (fun u => map (fun i => (u, N + 1 + (i + u - 2) mod M)) (sort_by Z.ltb pattern)) (range 1 (N + 1))) []) <->
                          1 <= u <= N /\ exists i, In i pattern /\ v = N + 1 + (i + u - 2) mod M).
  { intros u v. rewrite add_arcs_In, in_flat_map. cbn [In]. split.
    - intros [[]|(w & H & K)]. apply in_map_iff in K as (i & K & L). inversion K; subst. apply range_In in H. split; [lia|]. exists i. split; auto.
      apply (Permutation_in _ (sort_by_Perm Z.ltb pattern) L).
    - intros (H & i & K & ->). right. exists u. split; [apply range_In; lia|]. apply in_map_iff. exists i. split; auto.
      apply (Permutation_in _ (Permutation_sym (sort_by_Perm Z.ltb pattern)) K). }
  split; auto. constructor; cbn [b_left b_right b_edges]; try apply range_NoDup.
  - apply add_arcs_NoDup. constructor.
  - intros u v H. apply E in H as (H & i & K & ->). rewrite !range_In. pose proof (Z.mod_pos_bound (i + u - 2) M). lia.
  - intros v H K. rewrite range_In in H, K. lia.
Qed.
Lemma shift_degree N M pattern b : bipartite_shift N M pattern = Ok b -> forall u, 1 <= u <= N -> left_degree b u = Z.of_nat (List.length (nodup Z.eq_dec pattern)).
Proof.
  intros H u Hu.
  assert (P : 1 <= N /\ 1 <= M /\ forall x, In x pattern -> 1 <= x <= M).
  { destruct (Z_lt_le_dec N 1); [rewrite shift_refused in H; [discriminate|auto]|]. destruct (Z_lt_le_dec M 1); [rewrite shift_refused in H; [discriminate|auto]|].
    split; [lia|]. split; [lia|]. intros x K. destruct (Z_lt_le_dec x 1); [|destruct (Z_lt_le_dec M x); [|lia]].
    all: rewrite shift_refused in H; [discriminate|]; right; right; exists x; split; auto; lia. }
  destruct P as (HN & HM & HP). destruct (shift_edges N M pattern HN HM HP) as (b' & H' & _ & _ & B & E). rewrite H in H'. inversion H'; subst b'. clear H'.
  rewrite <- (map_length (fun i => N + 1 + (i + u - 2) mod M) (nodup Z.eq_dec pattern)). apply degree_of.
  - apply B.
  - apply NoDup_map_in; [apply NoDup_nodup|]. intros x y Hx Hy Q. apply nodup_In in Hx, Hy. apply HP in Hx, Hy.
    assert (Q' : (x + u - 2) mod M = (y + u - 2) mod M) by lia. clear Q.
    pose proof (Z.div_mod (x + u - 2) M ltac:(lia)) as D1. pose proof (Z.div_mod (y + u - 2) M ltac:(lia)) as D2. rewrite Q' in D1.
    assert (x - y = M * ((x + u - 2) / M - (y + u - 2) / M)) by lia. set (q := (x + u - 2) / M - (y + u - 2) / M) in *. assert (q = 0) by nia. nia.
  - intros v. rewrite E, in_map_iff. split.
    + intros (_ & i & K & ->). exists i. split; auto. apply nodup_In; auto.
    + intros (i & <- & K). apply nodup_In in K. split; auto. exists i. auto.
Qed.

(* ---- left regular ---- *)
Lemma left_regular_refused sample l r d : l < 0 \/ r < 0 \/ d < 0 -> bipartite_random_left_regular sample l r d = Err ValueError.
Proof. intros H. unfold bipartite_random_left_regular. replace ((l <? 0) || (r <? 0) || (d <? 0)) with true; auto. symmetry. lia. Qed.
Lemma left_regular_edges sample l r d : 0 <= l -> 0 <= r -> 0 <= d ->
  (forall u, 0 <= u < l -> sampled (range l (l + r)) (Z.to_nat (Z.min r d)) (sample u (range l (l + r)) (Z.min r d))) ->
  exists b, bipartite_random_left_regular sample l r d = Ok b /\ b_left b = range 0 l /\ b_right b = range l (l + r) /\ bipartite_graph b /\
    (forall u v, In (u, v) (b_edges b) <-> 0 <= u < l /\ In v (sample u (range l (l + r)) (Z.min r d))) /\
    (forall u, 0 <= u < l -> left_degree b u = Z.min r d).
Proof.
  intros Hl Hr Hd S. unfold bipartite_random_left_regular. replace ((l <? 0) || (r <? 0) || (d <? 0)) with false by (symmetry; lia).
  eexists. split; [reflexivity|]. cbn [b_left b_right b_edges]. split; auto. split; auto.
  set (es := fold_left _ _ _).
  assert (E : forall u v, In (u, v) es <-> 0 <= u < l /\ In v (sample u (range l (l + r)) (Z.min r d))).
  { intros u v. unfold es. rewrite add_arcs_In, in_flat_map. cbn [In]. split.
    - intros [[]|(w & H & K)]. apply in_map_iff in K as (i & K & L). inversion K; subst. apply range_In in H. split; [lia|].
      apply (Permutation_in _ (sort_by_Perm Z.ltb _) L).
    - intros (H & K). right. exists u. split; [apply range_In; lia|]. apply in_map_iff. exists v. split; auto.
      apply (Permutation_in _ (Permutation_sym (sort_by_Perm Z.ltb _)) K). }
  assert (N : NoDup es) by (apply add_arcs_NoDup; constructor).
  split; [|split; [exact E|]].
  - constructor; cbn [b_left b_right b_edges]; try apply range_NoDup; auto.
    + intros u v H. apply E in H as [H K]. split; [apply range_In; lia|]. apply (S u H); auto.
    + intros v H K. rewrite range_In in H, K. lia.
  - intros u H. destruct (S u H) as (A & B & C). rewrite (degree_of _ u (sample u (range l (l + r)) (Z.min r d))); auto; [rewrite C; lia|].
    intros v. cbn [b_edges]. rewrite E. tauto.
Qed.

Lemma firstn_sampled {A} (l : list A) m : NoDup l -> (m <= List.length l)%nat -> sampled l m (firstn m l).
Proof.
  intros N H. split; [|split].
  - rewrite <- (firstn_skipn m l) in N. clear H. revert N. generalize (skipn m l). induction (firstn m l) as [|x k IH]; intros s N; [constructor|].
    cbn [app] in N. inversion N as [|? ? N1 N2]; subst. constructor; [|apply (IH s N2)]. intros Q. apply N1, in_app_iff. auto.
  - intros x K. rewrite <- (firstn_skipn m l). apply in_app_iff. auto.
  - apply firstn_length_le; auto.
Qed.
