(* PGraph2.v -- bipartite graphs with bounded degrees on both sides *)
From Coq Require Import String Ascii ZArith NArith List Bool Lia Arith Sorted Permutation.
From Verif Require Import PyBase MSet MText MCnf MFam MFam2 MTrans MFile MGraph SpecCnf SpecFam SpecFam2 SpecGraph PLib PFam1 PFam2 PFam4 PFam8 PFile3 PGraph1.
Import ListNotations.
Open Scope Z_scope.

(* ---- swaps ---- *)
Lemma update_length l : forall i x, List.length (update l i x) = List.length l.
Proof. induction l; intros [|i] x; cbn; auto. Qed.
Lemma nth_update l : forall i j x, (i < List.length l)%nat -> nth j (update l i x) 0 = if (j =? i)%nat then x else nth j l 0.
Proof.
  induction l as [|y l IH]; intros i j x H; [cbn in H; lia|]. destruct i as [|i], j as [|j]; cbn [update nth Nat.eqb]; auto. apply IH. cbn in H. lia.
Qed.
Lemma swap_length l i j : List.length (swap l i j) = List.length l.
Proof. unfold swap. now rewrite !update_length. Qed.
Lemma nth_swap l i j k : (i < List.length l)%nat -> (j < List.length l)%nat ->
  nth k (swap l i j) 0 = if (k =? j)%nat then nth i l 0 else if (k =? i)%nat then nth j l 0 else nth k l 0.
Proof. intros Hi Hj. unfold swap. rewrite nth_update by (rewrite update_length; auto). rewrite nth_update by auto. reflexivity. Qed.
Lemma swap_Perm l i j : (i < List.length l)%nat -> (j < List.length l)%nat -> Permutation (swap l i j) l.
Proof.
  intros Hi Hj. apply Permutation_sym, (Permutation_nth l (swap l i j) 0). rewrite swap_length. split; auto.
  exists (fun k => if (k =? j)%nat then i else if (k =? i)%nat then j else k). split; [|split].
  - intros k Hk. cbn beta. destruct (k =? j)%nat; [auto|]. destruct (k =? i)%nat; auto.
  - intros x y Hx Hy E. cbn beta in E.
    destruct (Nat.eqb_spec x j), (Nat.eqb_spec y j), (Nat.eqb_spec x i), (Nat.eqb_spec y i); subst; auto; try congruence; try lia.
  - intros k Hk. rewrite nth_swap by auto. destruct (k =? j)%nat; [reflexivity|]. destruct (k =? i)%nat; reflexivity.
Qed.

(* ---- the slots in use ---- *)
Definition edges_at (A B : list Z) (J : list nat) : list (Z * Z) := map (fun j => (nth j A 0, nth j B 0)) J.
Record slots_ok (A0 B0 : list Z) (i : nat) (s : slots) : Prop := mkSlotsOk {
  so_A : Permutation (s_A s) A0;
  so_B : Permutation (s_B s) B0;
  so_once : NoDup (s_edges s);
  so_J : exists J, NoDup J /\ (forall j, In j J -> (j < i)%nat) /\ s_edges s = edges_at (s_A s) (s_B s) J
}.
Lemma slots_next A0 B0 i s : slots_ok A0 B0 i s -> slots_ok A0 B0 (S i) s.
Proof. intros [A B N (J & H & K & E)]. constructor; auto. exists J. split; auto. split; auto. intros j Hj. apply K in Hj. lia. Qed.
Lemma joined_pair_In es u v : joined_pair es u v = true <-> In (u, v) es.
Proof.
  unfold joined_pair. rewrite existsb_exists. split.
  - intros (e & H & K). apply same_edge_spec in K as [K|[K _]]; [now subst|discriminate].
  - intros H. exists (u, v). split; auto. apply same_edge_spec. auto.
Qed.
Lemma try_edges_ok randint A0 B0 n i : fair_randint randint -> List.length A0 = n -> List.length B0 = n -> (i < n)%nat -> forall retries s s' f,
  slots_ok A0 B0 i s -> try_edges randint retries i (n - 1) s = (s', f) -> slots_ok A0 B0 (S i) s' /\ (f = true -> List.length (s_edges s') = S (List.length (s_edges s))) /\ (f = false -> s_edges s' = s_edges s).
Proof.
  intros R LA LB Hi. induction retries as [|k IH]; intros s s' f I E; cbn [try_edges] in E.
  - inversion E; subst. split; [apply slots_next; auto|]. split; [discriminate|auto].
  - pose proof (R (s_time s) i (n - 1)%nat ltac:(lia)) as Ra. pose proof (R (S (s_time s)) i (n - 1)%nat ltac:(lia)) as Rb.
    set (ea := randint (s_time s) i (n - 1)%nat) in *. set (eb := randint (S (s_time s)) i (n - 1)%nat) in *.
    destruct I as [PA PB N (J & NJ & KJ & EJ)].
    assert (A : List.length (s_A s) = n) by (rewrite (Permutation_length PA); auto). assert (B : List.length (s_B s) = n) by (rewrite (Permutation_length PB); auto).
    destruct (negb (joined_pair (s_edges s) (nth ea (s_A s) 0) (nth eb (s_B s) 0))) eqn:X.
    + inversion E; subst s' f. clear E. apply negb_true_iff in X.
      assert (F : ~ In (nth ea (s_A s) 0, nth eb (s_B s) 0) (s_edges s)) by (intros F; apply joined_pair_In in F; congruence).
      split; [|split; [intros _; cbn [s_edges]; rewrite app_length; cbn; lia|discriminate]].
      constructor; cbn [s_A s_B s_edges].
      * apply Permutation_trans with (s_A s); auto. apply swap_Perm; lia.
      * apply Permutation_trans with (s_B s); auto. apply swap_Perm; lia.
      * apply (Permutation_NoDup (Permutation_cons_append _ _)). constructor; auto.
      * exists (J ++ [i]). split; [|split].
        -- apply (Permutation_NoDup (Permutation_cons_append _ _)). constructor; auto. intros Q. apply KJ in Q. lia.
        -- intros j Hj. apply in_app_iff in Hj as [Hj|[Hj|[]]]; [apply KJ in Hj; lia|lia].
        -- unfold edges_at. rewrite map_app. f_equal.
           ++ rewrite EJ. unfold edges_at. apply map_ext_in. intros j Hj. apply KJ in Hj. rewrite !nth_swap by lia.
              destruct (Nat.eqb_spec j ea); [lia|]. destruct (Nat.eqb_spec j eb); [lia|]. destruct (Nat.eqb_spec j i); [lia|]. reflexivity.
           ++ cbn [map]. rewrite !nth_swap by lia. rewrite Nat.eqb_refl. destruct (Nat.eqb_spec i ea), (Nat.eqb_spec i eb); repeat f_equal; auto.
    + apply IH in E; [exact E|]. constructor; cbn [s_A s_B s_edges]; auto. exists J. auto.
Qed.
Lemma fill_slots_ok randint A0 B0 retries n : fair_randint randint -> List.length A0 = n -> List.length B0 = n -> forall k i s s' f,
  (i + k = n)%nat -> slots_ok A0 B0 i s -> fill_slots randint retries n (seq i k) s = (s', f) -> f = true -> slots_ok A0 B0 n s'.
Proof.
  intros R LA LB. induction k as [|k IH]; intros i s s' f H I E F; cbn [seq fill_slots] in E.
  - inversion E; subst. replace (List.length A0) with i by lia. auto.
  - destruct (try_edges randint retries i (n - 1) s) as [s1 b] eqn:T. destruct (try_edges_ok randint A0 B0 n i R LA LB ltac:(lia) _ _ _ _ I T) as (I1 & _ & _).
    destruct b; [apply (IH (S i) _ _ _ ltac:(lia) I1 E F)|]. destruct (existsb _ _); [apply (IH (S i) _ _ _ ltac:(lia) I1 E F)|]. inversion E; subst. discriminate.
Qed.

(* ---- degrees ---- *)
Definition occurs (u : Z) (l : list Z) : nat := List.length (filter (fun x => x =? u) l).
Lemma filter_map {A B} (f : A -> B) p l : filter p (map f l) = map f (filter (fun x => p (f x)) l).
Proof. induction l as [|x l IH]; cbn; auto. destruct (p (f x)); cbn; congruence. Qed.
Lemma map_nth_seq (l : list Z) : map (fun j => nth j l 0) (seq 0 (List.length l)) = l.
Proof.
  induction l as [|x l IH]; auto. cbn [List.length seq map nth]. f_equal. rewrite <- seq_shift, map_map. exact IH.
Qed.
Lemma occurs_J (l : list Z) u J : NoDup J -> (forall j, In j J -> (j < List.length l)%nat) -> (List.length (filter (fun j => (nth j l 0 =? u)%Z) J) <= occurs u l)%nat.
Proof.
  intros N H. unfold occurs. replace (filter (fun x => x =? u) l) with (filter (fun x => x =? u) (map (fun j => nth j l 0) (seq 0 (List.length l)))) by (rewrite map_nth_seq; reflexivity). rewrite filter_map, map_length. apply NoDup_incl_length; [apply NoDup_filter; auto|].
  intros j Hj. apply filter_In in Hj as [Hj K]. apply filter_In. split; auto. apply in_seq. apply H in Hj. lia.
Qed.
Lemma occurs_full (l : list Z) u J : NoDup J -> (forall j, In j J -> (j < List.length l)%nat) -> List.length J = List.length l -> List.length (filter (fun j => (nth j l 0 =? u)%Z) J) = occurs u l.
Proof.
  intros N H L. unfold occurs. replace (filter (fun x => x =? u) l) with (filter (fun x => x =? u) (map (fun j => nth j l 0) (seq 0 (List.length l)))) by (rewrite map_nth_seq; reflexivity). rewrite filter_map, map_length. apply Permutation_length.
  assert (P : Permutation J (seq 0 (List.length l))).
  { apply NoDup_Permutation_bis; auto; [rewrite seq_length; lia|]. intros j Hj. apply in_seq. apply H in Hj. lia. }
  clear - P. induction P; cbn; auto.
  - destruct (nth x l 0 =? u); auto.
  - destruct (nth y l 0 =? u), (nth x l 0 =? u); auto. apply perm_swap.
  - apply Permutation_trans with (filter (fun j => nth j l 0 =? u) l'); auto.
Qed.
Lemma filter_Perm {A} (p : A -> bool) l l' : Permutation l l' -> Permutation (filter p l) (filter p l').
Proof.
  induction 1; cbn; auto.
  - destruct (p x); auto.
  - destruct (p y), (p x); auto. apply perm_swap.
  - apply Permutation_trans with (filter p l'); auto.
Qed.
Lemma occurs_Perm u l l' : Permutation l l' -> occurs u l = occurs u l'.
Proof. intros P. unfold occurs. apply Permutation_length, filter_Perm; auto. Qed.
Lemma occurs_app u l l' : occurs u (l ++ l') = (occurs u l + occurs u l')%nat.
Proof. unfold occurs. now rewrite filter_app, app_length. Qed.
Lemma occurs_once u l : NoDup l -> occurs u l = if in_dec Z.eq_dec u l then 1%nat else 0%nat.
Proof.
  induction 1 as [|x l H N IH]; auto. change (x :: l) with ([x] ++ l). rewrite occurs_app, IH. unfold occurs. cbn [filter].
  destruct (Z.eqb_spec x u).
  - subst. destruct (in_dec Z.eq_dec u l); [contradiction|]. cbn [List.length]. destruct (in_dec Z.eq_dec u ([u] ++ l)) as [|Q]; [reflexivity|]. destruct Q. left. reflexivity.
  - cbn [List.length]. destruct (in_dec Z.eq_dec u l) as [Q|Q], (in_dec Z.eq_dec u ([x] ++ l)) as [Q'|Q']; auto.
    + destruct Q'. right. auto.
    + destruct Q' as [Q'|Q']; contradiction.
Qed.
Lemma occurs_repeat u l k : NoDup l -> In u l -> occurs u (concat (repeat l k)) = k.
Proof.
  intros N H. induction k as [|k IH]; auto. cbn [repeat concat]. rewrite occurs_app, IH, (occurs_once u l N). destruct (in_dec Z.eq_dec u l); [reflexivity|contradiction].
Qed.
Lemma length_repeat {A} (l : list A) k : List.length (concat (repeat l k)) = (k * List.length l)%nat.
Proof. induction k as [|k IH]; auto. cbn [repeat concat]. rewrite app_length, IH. lia. Qed.
Lemma In_repeat {A} (l : list A) k x : In x (concat (repeat l k)) -> In x l.
Proof. induction k as [|k IH]; cbn; [tauto|]. intros H. apply in_app_iff in H as [H|H]; auto. Qed.

(* ---- the result ---- *)
Record regular_result (l r d : Z) (b : bipartite) : Prop := mkRegular {
  rr_left : b_left b = range 0 l;
  rr_right : b_right b = range l (l + r);
  rr_graph : bipartite_graph b;
  rr_left_degree : forall u, In u (b_left b) -> left_degree b u <= d;
  rr_right_degree : forall v, In v (b_right b) -> right_degree b v <= l * d / r;
  rr_size : Z.of_nat (List.length (b_edges b)) <= l * d;
  rr_full : Z.of_nat (List.length (b_edges b)) = l * d ->
    (forall u, In u (b_left b) -> left_degree b u = d) /\ (forall v, In v (b_right b) -> right_degree b v = l * d / r)
}.
Lemma regular_attempts_ok randint l r d b : fair_randint randint -> 0 <= l -> 0 < r -> 0 <= d -> (l * d) mod r = 0 -> forall fuel time,
  regular_attempts randint fuel l r d time = Ok b -> regular_result l r d b.
Proof.
  intros R Hl Hr Hd D. induction fuel as [|k IH]; intros time E; [discriminate|]. cbn [regular_attempts] in E.
  set (A0 := concat (repeat (range 0 l) (Z.to_nat d))) in *. set (B0 := concat (repeat (range l (l + r)) (Z.to_nat (l * d / r)))) in *. set (n := Z.to_nat (l * d)) in *.
  pose proof (Z.div_mod (l * d) r ltac:(lia)) as DM. rewrite D, Z.add_0_r in DM. assert (Q : 0 <= l * d / r) by (apply Z.div_pos; nia).
  assert (LA : List.length A0 = n). { unfold A0, n. rewrite length_repeat, range_length. replace (l - 0) with l by lia. rewrite <- Z2Nat.inj_mul by lia. f_equal. lia. }
  assert (LB : List.length B0 = n). { unfold B0, n. rewrite length_repeat, range_length. replace (l + r - l) with r by lia. rewrite <- Z2Nat.inj_mul by lia. f_equal. lia. }
  destruct (fill_slots randint (Z.to_nat (3 * d * d)) n (seq 0 n) (mkSlots [] A0 B0 time)) as [s c] eqn:F. destruct c; [|apply (IH _ E)].
  inversion E; subst b. clear E IH.
  assert (I0 : slots_ok A0 B0 0 (mkSlots [] A0 B0 time)).
  { constructor; cbn [s_A s_B s_edges]; auto; [constructor|]. exists []. split; [constructor|]. split; [intros j []|reflexivity]. }
  pose proof (fill_slots_ok randint A0 B0 _ n R LA LB n 0 _ _ _ eq_refl I0 F eq_refl) as [PA PB N (J & NJ & KJ & EJ)].
  assert (A : List.length (s_A s) = n) by (rewrite (Permutation_length PA); auto). assert (B : List.length (s_B s) = n) by (rewrite (Permutation_length PB); auto).
  assert (KA : forall j, In j J -> (j < List.length (s_A s))%nat) by (rewrite A; auto).
  assert (KB : forall j, In j J -> (j < List.length (s_B s))%nat) by (rewrite B; auto).
  assert (OA : forall u, In u (range 0 l) -> occurs u (s_A s) = Z.to_nat d). { intros u H. rewrite (occurs_Perm u _ _ PA). apply occurs_repeat; auto. apply range_NoDup. }
  assert (OB : forall v, In v (range l (l + r)) -> occurs v (s_B s) = Z.to_nat (l * d / r)). { intros u H. rewrite (occurs_Perm u _ _ PB). apply occurs_repeat; auto. apply range_NoDup. }
  assert (DA : forall u, List.length (filter (fun e => fst e =? u) (s_edges s)) = List.length (filter (fun j => nth j (s_A s) 0 =? u) J)).
  { intros u. rewrite EJ. unfold edges_at. rewrite filter_map, map_length. reflexivity. }
  assert (DB : forall u, List.length (filter (fun e => snd e =? u) (s_edges s)) = List.length (filter (fun j => nth j (s_B s) 0 =? u) J)).
  { intros u. rewrite EJ. unfold edges_at. rewrite filter_map, map_length. reflexivity. }
  assert (LJ : List.length (s_edges s) = List.length J) by (rewrite EJ; apply map_length).
  assert (LE : (List.length J <= n)%nat). { rewrite <- (seq_length n 0). apply NoDup_incl_length; auto. intros j Hj. apply in_seq. apply KJ in Hj. lia. }
  constructor; cbn [b_left b_right b_edges]; auto.
  - constructor; cbn [b_left b_right b_edges]; try apply range_NoDup; auto.
    + intros u v H. rewrite EJ in H. apply in_map_iff in H as (j & H & Hj). inversion H; subst. split.
      * apply (In_repeat _ (Z.to_nat d)). apply (Permutation_in _ PA). apply nth_In. auto.
      * apply (In_repeat _ (Z.to_nat (l * d / r))). apply (Permutation_in _ PB). apply nth_In. auto.
    + intros v H K. rewrite range_In in H, K. lia.
  - intros u H. unfold left_degree. cbn [b_edges]. rewrite DA. pose proof (occurs_J (s_A s) u J NJ KA). rewrite (OA u H) in *. lia.
  - intros u H. unfold right_degree. cbn [b_edges]. rewrite DB. pose proof (occurs_J (s_B s) u J NJ KB). rewrite (OB u H) in *. lia.
  - rewrite LJ. unfold n in *. lia.
  - intros X. rewrite LJ in X. split.
    + intros u H. unfold left_degree. cbn [b_edges]. rewrite DA. rewrite (occurs_full (s_A s) u J NJ KA) by lia. rewrite (OA u H). lia.
    + intros u H. unfold right_degree. cbn [b_edges]. rewrite DB. rewrite (occurs_full (s_B s) u J NJ KB) by lia. rewrite (OB u H). lia.
Qed.
Lemma random_regular_ok randint fuel l r d b : fair_randint randint -> bipartite_random_regular randint fuel l r d = Ok b ->
  0 <= l /\ 0 < r /\ 0 <= d /\ (l * d) mod r = 0 /\ regular_result l r d b.
Proof.
  intros R E. unfold bipartite_random_regular in E. destruct ((l <? 0) || (r <? 0) || (d <? 0)) eqn:X; [discriminate|].
  destruct (r =? 0) eqn:Y; [discriminate|]. destruct ((l * d) mod r =? 0) eqn:W; [|discriminate]. cbn [negb] in E.
  apply Z.eqb_eq in W. assert (0 <= l /\ 0 < r /\ 0 <= d) as (Hl & Hr & Hd) by lia. split; auto. split; auto. split; auto. split; auto. apply (regular_attempts_ok randint l r d b R Hl Hr Hd W fuel _ E).
Qed.
(* never another exception *)
Lemma random_regular_errors randint fuel l r d : 
  (l < 0 \/ r < 0 \/ d < 0 -> bipartite_random_regular randint fuel l r d = Err ValueError) /\
  (0 <= l -> 0 <= d -> r = 0 -> bipartite_random_regular randint fuel l r d = Err ZeroDivisionError) /\
  (0 <= l -> 0 < r -> 0 <= d -> (l * d) mod r <> 0 -> bipartite_random_regular randint fuel l r d = Err ValueError) /\
  (0 <= l -> 0 < r -> 0 <= d -> (l * d) mod r = 0 -> forall e, bipartite_random_regular randint fuel l r d <> Err e).
Proof.
  unfold bipartite_random_regular. split; [|split; [|split]].
  - intros H. replace ((l <? 0) || (r <? 0) || (d <? 0)) with true by (symmetry; lia). reflexivity.
  - intros Hl Hd ->. replace ((l <? 0) || (0 <? 0) || (d <? 0)) with false by (symmetry; lia). reflexivity.
  - intros Hl Hr Hd D. replace ((l <? 0) || (r <? 0) || (d <? 0)) with false by (symmetry; lia). replace (r =? 0) with false by (symmetry; lia).
    replace ((l * d) mod r =? 0) with false by (symmetry; lia). reflexivity.
  - intros Hl Hr Hd D e. replace ((l <? 0) || (r <? 0) || (d <? 0)) with false by (symmetry; lia). replace (r =? 0) with false by (symmetry; lia).
    replace ((l * d) mod r =? 0) with true by (symmetry; lia). cbn [negb]. generalize 0%nat as time. induction fuel as [|k IH]; intros time; cbn [regular_attempts]; [discriminate|].
    destruct (fill_slots _ _ _ _ _) as [s c]. destruct c; [discriminate|]. apply IH.
Qed.
