(* PGenCmd8.v -- outcomes of networkx, random and math as the properties of the command line assume them: they exist. *)
From Coq Require Import String Ascii ZArith List Bool Lia Arith Sorted Permutation.
From Verif Require Import Spec SpecInput SpecFile SpecSat PyBase MSet MText MCnf MFam MFam2 MFile MTrans MTool MGraph MGenCmd SpecCnf SpecFam SpecFam2 SpecTrans SpecTool SpecGraph SpecGenCmd.
From Verif Require Import PLib PCnf1 PCnf2 PFam1 PFam2 PFam4 PFam5 PFam6 PGraph1 PGraph4 PP21 PP25 PP26 PGenCmd1 PGenCmd2.
Import ListNotations.
Open Scope Z_scope.

(* ---- regular graphs: vertices at certain distances on a circle ---- *)
Definition distances (d n : Z) : list Z := range 1 (d / 2 + 1) ++ range (n - d / 2) n ++ (if Z.odd d then [n / 2] else []).
Definition circulant (d n : Z) : graph := mkGraph (range 0 n) (filter (fun e => zmem (snd e - fst e) (distances d n)) (pairs (range 0 n))).
Lemma distances_facts d n : 0 <= d < n -> Z.Even (n * d) ->
  NoDup (distances d n) /\ count (distances d n) = d /\ (forall k, In k (distances d n) -> 1 <= k <= n - 1 /\ In (n - k) (distances d n)).
Proof.
  intros D E. pose proof (Z.div_mod d 2 ltac:(lia)) as H. pose proof (Z.mod_pos_bound d 2 ltac:(lia)) as H'. set (h := d / 2) in *.
  assert (O : Z.odd d = true -> d = 2 * h + 1 /\ n = 2 * (n / 2)).
  { intros O. split; [rewrite Zmod_odd, O in H; lia|]. apply Z.odd_spec in O. destruct (Z.Even_or_Odd n) as [N|N]; [destruct N as (q & ->); rewrite (Z.mul_comm 2 q), Z.div_mul; lia|].
    exfalso. destruct O as (a & A), N as (b & B), E as (c & C). rewrite A, B in C. lia. }
  assert (NO : Z.odd d = false -> d = 2 * h) by (intros N; rewrite Zmod_odd, N in H; lia).
  unfold distances. fold h. split; [|split].
  - assert (X : forall x, In x (range 1 (h + 1)) -> ~ In x (range (n - h) n ++ (if Z.odd d then [n / 2] else []))).
    { intros x I J. apply range_In in I. apply in_app_iff in J as [J|J]; [apply range_In in J; destruct (Z.odd d); lia|]. destruct (Z.odd d); [|contradiction]. destruct J as [<-|[]]. destruct (O eq_refl). lia. }
    assert (Y : forall x, In x (range (n - h) n) -> ~ In x (if Z.odd d then [n / 2] else [])).
    { intros x I J. apply range_In in I. destruct (Z.odd d); [|contradiction]. destruct J as [<-|[]]. destruct (O eq_refl). lia. }
    apply NoDup_app_intro; [apply range_NoDup| |exact X]. apply NoDup_app_intro; [apply range_NoDup| |exact Y]. destruct (Z.odd d); repeat constructor; intros [].
  - unfold count. rewrite !app_length, !range_length. destruct (Z.odd d) eqn:Od; cbn [List.length]; [destruct (O eq_refl)|pose proof (NO eq_refl)]; lia.
  - intros k I. rewrite !in_app_iff, !range_In in *. destruct (Z.odd d) eqn:Od.
    + destruct (O eq_refl) as (O1 & O2). cbn [In] in *. destruct I as [I|[I|[I|[]]]]; [split; [lia|right; left; lia]|split; [lia|left; lia]|split; [lia|right; right; left; lia]].
    + pose proof (NO eq_refl). destruct I as [I|[I|[]]]; [split; [lia|right; left; lia]|split; [lia|left; lia]].
Qed.
Lemma circulant_edge d n u v : In (u, v) (g_edges (circulant d n)) <-> 0 <= u < v /\ v < n /\ In (v - u) (distances d n).
Proof.
  unfold circulant. cbn [g_edges]. rewrite filter_In. cbn [fst snd]. rewrite zmem_In. rewrite (pairs_sorted (range 0 n) u v (range_sorted 0 n)), !range_In. intuition lia.
Qed.
Lemma circulant_simple d n : simple_graph (circulant d n).
Proof.
  constructor.
  - apply range_NoDup.
  - apply NoDup_filter, pairs_NoDup, range_NoDup.
  - intros u v A B. apply circulant_edge in A, B. lia.
  - intros u v A. apply circulant_edge in A. unfold circulant. cbn [g_nodes]. rewrite !range_In. lia.
Qed.
Lemma circulant_degree d n v : 0 <= d < n -> Z.Even (n * d) -> 0 <= v < n -> degree (circulant d n) v = d.
Proof.
  intros D E V. destruct (distances_facts d n D E) as (N & C & S). unfold degree.
  assert (P : Permutation (neighbors (circulant d n) v) (map (fun k => (v + k) mod n) (distances d n))).
  { apply NoDup_Permutation; [apply neighbors_NoDup, circulant_simple| |].
    - assert (J : forall k k', In k (distances d n) -> In k' (distances d n) -> (v + k) mod n = (v + k') mod n -> k = k').
      { intros k k' I I' Q. apply S in I as (I & _). apply S in I' as (I' & _). pose proof (Z.div_mod (v + k) n ltac:(lia)) as M. pose proof (Z.div_mod (v + k') n ltac:(lia)) as M'. rewrite Q in M.
        assert ((v + k) / n = 0 \/ (v + k) / n = 1) by (pose proof (Z.mod_pos_bound (v + k) n ltac:(lia)); nia). assert ((v + k') / n = 0 \/ (v + k') / n = 1) by (pose proof (Z.mod_pos_bound (v + k') n ltac:(lia)); nia). nia. }
      clear S C. induction N as [|k K NI N IH]; [constructor|]. cbn [map]. constructor.
      + intros I. apply in_map_iff in I as (k' & Q & I). apply NI. rewrite (J k k'); auto; [left|right]; auto.
      + apply IH. intros a b A B. apply J; right; auto.
    - intros u. rewrite (neighbors_In _ u v (circulant_simple d n)). unfold adjacent. rewrite !circulant_edge, in_map_iff. split.
      + intros [(A & B & I)|(A & B & I)]; [exists (u - v)|exists (n - (v - u))]; split; auto; try (apply S; auto).
        * replace (v + (u - v)) with u by lia. apply Z.mod_small. lia.
        * replace (v + (n - (v - u))) with (u + 1 * n) by lia. rewrite Z.mod_add by lia. apply Z.mod_small. lia.
      + intros (k & <- & I). destruct (S k I) as (B & I'). destruct (Z_lt_le_dec (v + k) n) as [L|L].
        * left. rewrite Z.mod_small by lia. replace (v + k - v) with k by lia. split; [lia|]. split; [lia|]. exact I.
        * right. replace (v + k) with (v + k - n + 1 * n) by lia. rewrite Z.mod_add by lia. rewrite Z.mod_small by lia. replace (v - (v + k - n)) with (n - k) by lia. split; [lia|]. split; [lia|]. exact I'. }
  rewrite (Permutation_length P), map_length. exact C.
Qed.

(* ---- the rest ---- *)
Definition first_pair (l : list Z) : Z * Z := match l with x :: y :: _ => (x, y) | _ => (0, 0) end.
Definition some_chance : chance := mkChance
  circulant complete_graph (fun n m => mkGraph (range 0 n) (firstn (Z.to_nat m) (pairs (range 0 n))))
  complete_bipartite (fun l r m => mkBipartite (range 0 l) (range l (l + r)) (firstn (Z.to_nat m) (b_edges (complete_bipartite l r))))
  (fun _ R k => firstn (Z.to_nat k) R) (fun _ lo _ => lo) 1 (fun l k => firstn k l)
  (fun g => mkOutcomes (fun _ => first_pair (g_nodes g)) (fun l m => firstn m l))
  (fun b => mkOutcomes (fun _ => (hd 0 (b_left b), hd 0 (b_right b))) (fun l m => firstn m l))
  (fun _ => 1)
  (mkRandom (fun _ l k => firstn k l) (fun _ _ => true) (fun l => l) (fun l m => firstn m l))
  (fun n => Z.to_nat (Z.log2_up n)).
Lemma firstn_count {A} m (l : list A) : 0 <= m -> count (firstn (Z.to_nat m) l) = Z.min m (count l).
Proof. intros H. unfold count. rewrite firstn_length. lia. Qed.
Lemma firstn_In {A} m (l : list A) x : In x (firstn m l) -> In x l.
Proof. intros I. rewrite <- (firstn_skipn m l). apply in_app_iff. auto. Qed.
Lemma firstn_once {A} m (l : list A) : NoDup l -> NoDup (firstn m l).
Proof. intros N. rewrite <- (firstn_skipn m l) in N. apply NoDup_app_remove_r in N. auto. Qed.
Lemma product_count {A B} (f : list A) (g : list B) : count (flat_map (fun u => map (pair u) g) f) = count f * count g.
Proof.
  unfold count. induction f as [|x f IH]; [reflexivity|]. cbn [flat_map List.length]. rewrite app_length, map_length, !Nat2Z.inj_add, IH. lia.
Qed.
Lemma some_chance_fair : fair some_chance.
Proof.
  constructor; cbn [ch_regular ch_gnp ch_gnm ch_bp ch_bm ch_left ch_randint ch_steps ch_vertices ch_new ch_new_between ch_bit ch_clauses ch_bits some_chance].
  - intros n d D E. split; [apply circulant_simple|]. split; [intros v; unfold circulant; cbn [g_nodes]; rewrite range_In; lia|]. intros v V. apply circulant_degree; auto.
  - intros n P. split; [apply complete_simple|]. intros v. cbn [g_nodes complete_graph]. rewrite range_In. lia.
  - intros n m Pn Pm. split; [|split].
    + destruct (complete_simple n) as [C1 C2 C3 C4]. cbn [complete_graph g_nodes g_edges] in *. constructor; cbn [g_nodes g_edges]; auto.
      * apply firstn_once. auto.
      * intros u v A B. apply firstn_In in A, B. apply (C3 u v); auto.
      * intros u v A. apply firstn_In in A. apply C4; auto.
    + intros v. cbn [g_nodes]. rewrite range_In. lia.
    + cbn [g_edges]. rewrite firstn_count by lia. f_equal. unfold count. pose proof (pairs_length (range 0 n)) as L. rewrite range_length in L.
      replace (Z.of_nat (Z.to_nat (n - 0))) with n in L by lia. rewrite <- L, (Z.mul_comm 2), Z.div_mul by lia. reflexivity.
  - intros l r Pl Pr. destruct (complete_between l r) as (B & S & _). auto.
  - intros l r m Pl Pr Pm. destruct (complete_between l r) as (B & S & _). split; [|split].
    + destruct B as [B1 B2 B3 B4 B5]. constructor; cbn [b_left b_right b_edges]; auto; [apply firstn_once; auto|]. intros u v I. apply firstn_In in I. apply B4 in I. exact I.
    + exact S.
    + intros _ _ L. cbn [b_edges]. rewrite firstn_count by lia. unfold complete_bipartite. cbn [b_edges]. rewrite product_count. unfold count. rewrite !range_length. lia.
  - intros u R k N L. apply firstn_sampled; auto. unfold count in L. lia.
  - intros t lo hi L. lia.
  - intros l k N L. apply firstn_sampled; auto.
  - intros g G L. split; [|intros l m; apply firstn_sampled]. intros tm. cbn [o_pair]. destruct G as [N _ _ _]. unfold count in L. unfold first_pair.
    destruct (g_nodes g) as [|x [|y t]]; cbn [List.length] in L; try lia. cbn [fst snd]. inversion N as [|a b N1 N2]; subst. split; [left; auto|]. split; [right; left; auto|].
    intros Q. apply N1. left. symmetry. exact Q.
  - intros b B L R. split; [|intros l m; apply firstn_sampled]. intros tm. cbn [o_pair fst snd]. destruct (b_left b); [congruence|]. destruct (b_right b); [congruence|]. cbn. auto.
  - auto.
  - constructor; cbn [rnd_sample rnd_order rnd_clauses].
    + intros t l k L N. destruct (firstn_sampled l k N L) as (A & B & C). auto.
    + intros s. reflexivity.
    + intros l m L. split; [apply firstn_length_le; auto|]. exists (skipn m l). rewrite firstn_skipn. reflexivity.
  - intros n P. rewrite Z2Nat.id by apply Z.log2_up_nonneg. destruct (Z.eq_dec n 1) as [->|]; [reflexivity|]. apply Z.log2_up_spec. lia.
Qed.
