(* PFam14.v -- binary clique formulas *)
From Coq Require Import String Ascii ZArith List Bool Lia Arith Permutation Sorted.
From Verif Require Import Spec PyBase MSet MText MCnf MFam MFam2 SpecCnf SpecFam SpecFam2 PText PLib PCnf1 PCnf2 PFam1 PFam2 PFam3 PFam4 PFam5 PFam6 PFam7 PFam10 PFam12 PFam13.
Import ListNotations.
Open Scope Z_scope.

Definition bc_map (bits : nat) (g : graph) (k : Z) : binary_mapping := mkBinary (range 1 (k + 1)) (g_nodes g) bits binary_name true true.
Definition bc_edges (m : binary_mapping) (g : graph) : list (list (bool * text)) :=
  flat_map (fun ii => flat_map (fun vv =>
           if has_edge g (fst (fst vv)) (fst (snd vv)) then []
           else [forbid_image m (fst ii) (snd (fst vv)) ++ forbid_image m (snd ii) (snd (snd vv))])
           (pairs (coded_range m))) (pairs (bm_domain m)).
Definition bc_clauses (bits : nat) (g : graph) (k : Z) : list (list (bool * text)) := bm_clauses (bc_map bits g k) ++ bc_edges (bc_map bits g k) g.

Lemma forbid_names m i bs : map snd (forbid_bitstring m i bs) = map (fun bv => bm_name m i (Z.of_nat (snd bv))) (combine bs (rev (seq 0 (bm_bits m)))).
Proof. unfold forbid_bitstring. rewrite map_map. reflexivity. Qed.
Lemma combine_snd_NoDup {A B} (l : list A) (l' : list B) : NoDup l' -> NoDup (map snd (combine l l')).
Proof.
  revert l'. induction l as [|x l IH]; intros [|y l'] N; cbn [combine map]; try constructor; inversion N as [|? ? N1 N2]; subst; auto.
  cbn [snd]. intros H. apply in_map_iff in H as ([u v] & <- & H). apply in_combine_r in H. auto.
Qed.
Lemma bnames_NoDup i bits bs : NoDup (map (fun bv : bool * nat => binary_name i (Z.of_nat (snd bv))) (combine bs (rev (seq 0 bits)))).
Proof.
  replace (map (fun bv : bool * nat => binary_name i (Z.of_nat (snd bv))) (combine bs (rev (seq 0 bits))))
    with (map (fun b => binary_name i (Z.of_nat b)) (map snd (combine bs (rev (seq 0 bits))))) by (rewrite map_map; reflexivity).
  apply FinFun.Injective_map_NoDup; [intros x y E; apply name2_inj in E as [_ E]; lia|]. apply combine_snd_NoDup. apply NoDup_rev. apply seq_NoDup.
Qed.
Lemma two_forbid_clean bits g k i i' bs bs' : i <> i' -> clean (forbid_image (bc_map bits g k) i bs ++ forbid_image (bc_map bits g k) i' bs').
Proof.
  intros NE. apply clean_vars. rewrite map_app. unfold forbid_image. rewrite !forbid_names. cbn [bc_map bm_name bm_bits].
  apply NoDup_app_intro; try apply bnames_NoDup. intros x Hx Hy. apply in_map_iff in Hx as (u & <- & _). apply in_map_iff in Hy as (v & E & _). apply name2_inj in E as [E _]. congruence.
Qed.
Lemma bc_built bits g k : g_nodes g <> [] -> exists c, BinaryCliqueFormula bits g k = Ok c /\ made c /\ cnf_clauses c = bc_clauses bits g k.
Proof.
  intros NE. unfold BinaryCliqueFormula. destruct (g_nodes g) as [|v0 V0] eqn:EV; [congruence|]. rewrite <- EV. cbv zeta.
  fold (bc_map bits g k). fold (bc_edges (bc_map bits g k) g). fold (bc_clauses bits g k). set (m := bc_map bits g k).
  assert (DV : forall i bs v, In i (bm_domain m) -> In v (map snd (forbid_bitstring m i bs)) -> In v (bm_variables m)).
  { intros i bs w Hi Hw. rewrite forbid_names in Hw. apply in_map_iff in Hw as ([x b] & <- & Hb).
    apply in_combine_r in Hb. apply in_rev in Hb. unfold bm_variables. apply in_flat_map. exists i. split; auto. cbn [snd].
    apply (in_map (fun b => bm_name m i (Z.of_nat b))). auto. }
  assert (EDGE : forall cl, In cl (bc_edges m g) -> exists i i' bs bs', In (i, i') (pairs (bm_domain m)) /\ cl = forbid_image m i bs ++ forbid_image m i' bs').
  { intros cl H. unfold bc_edges in H. apply in_flat_map in H as ([i i'] & Hp & H). apply in_flat_map in H as ([v v'] & _ & H). cbn [fst snd] in H.
    destruct (has_edge g (fst v) (fst v')); [destruct H|]. destruct H as [<-|[]]. exists i, i', (snd v), (snd v'). auto. }
  assert (ND : NoDup (bm_domain m)) by apply range_NoDup.
  destruct (build_strict (bm_variables m) (bc_clauses bits g k)) as (c & A & B & C & _); [| |eauto].
  - intros cl H. unfold bc_clauses in H. apply in_app_iff in H as [H|H].
    + unfold bm_clauses in H. repeat apply in_app_iff in H as [H|H].
      * apply in_flat_map in H as (i & Hi & H). apply in_map_iff in H as (bs & <- & _). apply clean_vars. rewrite forbid_names. apply bnames_NoDup.
      * cbn [bc_map bm_injective] in H. apply in_flat_map in H as (x & _ & H). apply in_map_iff in H as ([i i'] & <- & Hp). apply two_forbid_clean. eapply pairs_neq; eauto.
      * cbn [bc_map bm_nondecreasing] in H. apply in_flat_map in H as ([i i'] & Hp & H). apply in_map_iff in H as (x & <- & _). apply two_forbid_clean. eapply pairs_neq; eauto.
    + apply EDGE in H as (i & i' & bs & bs' & Hp & ->). apply two_forbid_clean. eapply pairs_neq; eauto.
  - intros cl v H Hv. unfold bc_clauses in H. apply in_app_iff in H as [H|H]; [eapply binary_vars; eauto|].
    apply EDGE in H as (i & i' & bs & bs' & Hp & ->). apply pairs_In in Hp as [H1 H2]. rewrite map_app in Hv. apply in_app_iff in Hv as [Hv|Hv]; eauto.
Qed.
Lemma pairs_between k i i' : In (i, i') (pairs (range 1 (k + 1))) <-> 1 <= i < i' /\ i' <= k.
Proof. rewrite pairs_sorted by apply range_sorted. rewrite !range_In. lia. Qed.
Lemma bc_models bits g k a : simple_graph g -> order g <= 2 ^ Z.of_nat bits -> let m := bc_map bits g k in
  (all_hold a (bc_clauses bits g k) <->
   (forall i, 1 <= i <= k -> code m a i < order g) /\
   (forall i j, 1 <= i < j -> j <= k -> code m a i < code m a j /\ adjacent g (vertex g (code m a i)) (vertex g (code m a j)))).
Proof.
  intros G HB m. assert (HE : 2 ^ Z.of_nat bits = Z.of_nat (2 ^ bits)) by (rewrite Nat2Z.inj_pow; auto). pose proof (sg_nodes _ G) as N.
  unfold bc_clauses. fold m. rewrite all_hold_app, binary_models by (unfold order in HB; cbn; lia). cbn [m bc_map bm_domain bm_injective bm_nondecreasing bm_range]. fold m.
  change (Z.of_nat (List.length (g_nodes g))) with (order g).
  assert (CR : forall p u bs, nth_error (coded_range m) p = Some (u, bs) -> nth_error (g_nodes g) p = Some u /\ bits_value (rev bs) = Z.of_nat p /\ List.length bs = bits).
  { intros p u bs H. unfold coded_range in H. apply nth_error_combine in H as [H1 H2]. cbn in H1, H2. split; auto. split; [eapply string_value; eauto|].
    apply (bitstrings_len bits). eapply nth_error_In; eauto. }
  assert (RC : forall p, 0 <= p < order g -> exists bs, nth_error (coded_range m) (Z.to_nat p) = Some (vertex g p, bs) /\ bits_value (rev bs) = p /\ List.length bs = bits).
  { intros p Hp. destruct (value_string bits p) as (bs & E1 & E2); [lia|]. exists bs. split; [|split; auto].
    - unfold coded_range. apply nth_error_combine. split; [apply vertex_In; auto|auto].
    - apply (bitstrings_len bits). eapply nth_error_In; eauto. }
  assert (ED : all_hold a (bc_edges m g) <-> forall i j p q, 1 <= i < j -> j <= k -> 0 <= p < q -> q < order g -> code m a i = p -> code m a j = q -> adjacent g (vertex g p) (vertex g q)).
  { unfold bc_edges. rewrite all_hold_flat_map. cbn [m bc_map bm_domain]. fold m. split.
    - intros H i j p q Hi Hj Hp Hq E1 E2. specialize (H (i, j) (proj2 (pairs_between k i j) (conj Hi Hj))). rewrite all_hold_flat_map in H.
      destruct (RC p) as (bs & R1 & R2 & R3); [lia|]. destruct (RC q) as (bs' & R4 & R5 & R6); [lia|].
      specialize (H ((vertex g p, bs), (vertex g q, bs'))). cbn [fst snd] in H. apply has_edge_ok. destruct (has_edge g (vertex g p) (vertex g q)); auto. exfalso.
      assert (K : all_hold a [forbid_image m i bs ++ forbid_image m j bs']).
      { apply H. apply pairs_nth. exists (Z.to_nat p), (Z.to_nat q). split; [lia|auto]. }
      apply all_one in K. unfold forbid_image in K. rewrite holds_app, !forbid_holds in K by auto. destruct K; congruence.
    - intros H [i j] Hp. apply pairs_between in Hp as [Hi Hj]. rewrite all_hold_flat_map. intros [[u bs] [v bs']] Hq. cbn [fst snd].
      destruct (has_edge g u v) eqn:E; [intros c []|]. apply all_one. unfold forbid_image. rewrite holds_app. 
      apply pairs_nth in Hq as (p & q & L & Q1 & Q2). apply CR in Q1 as (Q1 & Q3 & Q4), Q2 as (Q2 & Q5 & Q6). rewrite !forbid_holds by auto. rewrite Q3, Q5.
      destruct (Z.eq_dec (code m a i) (Z.of_nat p)) as [E1|]; auto. destruct (Z.eq_dec (code m a j) (Z.of_nat q)) as [E2|]; auto. exfalso.
      assert (K : adjacent g (vertex g (Z.of_nat p)) (vertex g (Z.of_nat q))).
      { apply (H i j); auto; try lia. pose proof (nth_error_Some_length _ _ _ Q2). unfold order. lia. }
      rewrite (vertex_nth g p u), (vertex_nth g q v) in K by auto. apply has_edge_ok in K. congruence. }
  rewrite ED. split.
  - intros ((A & B & C) & D). split; [intros i Hi; apply A; apply range_In; lia|]. intros i j Hi Hj. pose proof (proj2 (pairs_between k i j) (conj Hi Hj)) as P.
    specialize (B eq_refl i j P). specialize (C eq_refl i j P). pose proof (code_bounds m a i) as Bd. assert (LT : code m a i < code m a j) by lia. split; auto.
    apply (D i j); auto; try lia. apply A. apply range_In. lia.
  - intros (A & B). split; [split; [|split]|].
    + intros i Hi. apply range_In in Hi. apply A. lia.
    + intros _ i j P. apply pairs_between in P as [P1 P2]. destruct (B i j P1 P2). lia.
    + intros _ i j P. apply pairs_between in P as [P1 P2]. destruct (B i j P1 P2). lia.
    + intros i j p q Hi Hj _ _ <- <-. apply B; auto.
Qed.
Lemma code_any bits g k (f : Z -> Z) : (forall i, 1 <= i <= k -> 0 <= f i < 2 ^ Z.of_nat bits) ->
  exists a, forall i, 1 <= i <= k -> code (bc_map bits g k) a i = f i.
Proof.
  intros F. set (dom := flat_map (fun i => map (pair i) (seq 0 bits)) (range 1 (k + 1))).
  exists (values (fun q => binary_name (fst q) (Z.of_nat (snd q))) dom (fun q => nth (snd q) (bits_of bits (f (fst q))) false)).
  set (a := values _ _ _). assert (V : forall i b, 1 <= i <= k -> (b < bits)%nat -> a (binary_name i (Z.of_nat b)) = nth b (bits_of bits (f i)) false).
  { intros i b Hi Hb. apply (values_at (fun q => binary_name (fst q) (Z.of_nat (snd q))) dom (fun q => nth (snd q) (bits_of bits (f (fst q))) false) (i, b)).
    - intros [i' b'] _ K. cbn [fst snd] in *. apply name2_inj in K as [-> K]. apply Nat2Z.inj in K as ->. auto.
    - unfold dom. apply in_flat_map. exists i. split; [apply range_In; lia|]. apply in_map. apply in_seq. lia. }
  intros i Hi. unfold code. cbn [bm_bits bm_name bc_map]. transitivity (bits_value (bits_of bits (f i))); [|apply bits_of_value; auto].
  f_equal. apply (nth_ext _ _ false false); [rewrite map_length, seq_length, bits_of_length; auto|].
  intros n Hn. rewrite map_length, seq_length in Hn. rewrite (nth_indep _ false (a (binary_name i (Z.of_nat 0)))) by (rewrite map_length, seq_length; auto).
  rewrite (map_nth (fun b => a (binary_name i (Z.of_nat b)))). rewrite seq_nth by auto. cbn [Nat.add]. apply V; auto.
Qed.
Lemma bc_satisfiable bits g k : simple_graph g -> 0 <= k -> order g <= 2 ^ Z.of_nat bits ->
  (has_model (bc_clauses bits g k) <-> exists S, clique g S /\ Z.of_nat (List.length S) = k).
Proof.
  intros G Hk HB. pose proof (sg_nodes _ G) as N. split.
  - intros (a & H). apply bc_models in H as [A B]; auto. set (m := bc_map bits g k) in *.
    assert (LT : forall i j, 1 <= i <= k -> 1 <= j <= k -> i <> j -> code m a i <> code m a j /\ adjacent g (vertex g (code m a i)) (vertex g (code m a j))).
    { intros i j Hi Hj NE. destruct (Z.lt_total i j) as [X|[X|X]]; [destruct (B i j) as [B1 B2]; [lia..|]; split; [lia|auto]|congruence|].
      destruct (B j i) as [B1 B2]; [lia..|]. split; [lia|apply adjacent_sym; auto]. }
    exists (map (fun i => vertex g (code m a i)) (range 1 (k + 1))). split; [|rewrite map_length, range_length; lia]. split; [|split].
    + apply NoDup_map_in; [apply range_NoDup|]. intros i j Hi Hj E. apply range_In in Hi, Hj. destruct (Z.eq_dec i j) as [|NE]; auto. exfalso.
      destruct (LT i j) as [_ K]; [lia..|auto|]. rewrite E in K. apply (adjacent_neq _ _ _ G K). auto.
    + intros v Hv. apply in_map_iff in Hv as (i & <- & Hi). apply range_In in Hi. eapply nth_error_In. apply vertex_In. pose proof (code_bounds m a i). specialize (A i). lia.
    + intros u v Hu Hv NE. apply in_map_iff in Hu as (i & <- & Hi), Hv as (j & <- & Hj). apply range_In in Hi, Hj. apply LT; try lia. congruence.
  - intros (S & (NS & I & C) & L). destruct (sorted_placement g S G NS I) as (W & [P1 P2 P3 P4] & E). rewrite L in P1.
    assert (IX : forall i, 1 <= i <= k -> exists j, 0 <= j < order g /\ nth_error W (Z.to_nat (i - 1)) = Some (vertex g j)).
    { intros i Hi. destruct (nth_error W (Z.to_nat (i - 1))) as [v|] eqn:X; [|apply nth_error_None in X; lia].
      assert (Hv : In v (g_nodes g)) by (apply P3; eapply nth_error_In; eauto). apply In_nth_error in Hv as (j & Hj). exists (Z.of_nat j).
      pose proof (nth_error_Some_length _ _ _ Hj). unfold order. split; [lia|]. rewrite (vertex_nth g j v); auto. }
    destruct (choose_function (range 1 (k + 1)) (fun i j => 0 <= j < order g /\ nth_error W (Z.to_nat (i - 1)) = Some (vertex g j)) (range_NoDup 1 (k + 1))) as (f & Hf).
    { intros i Hi. apply IX. apply range_In in Hi. lia. }
    assert (F : forall i, 1 <= i <= k -> 0 <= f i < order g /\ nth_error W (Z.to_nat (i - 1)) = Some (vertex g (f i))) by (intros; apply Hf; apply range_In; lia).
    destruct (code_any bits g k f) as (a & Ha); [intros i Hi; destruct (F i Hi); lia|]. exists a. apply bc_models; auto. split.
    + intros i Hi. rewrite Ha by auto. apply F. auto.
    + intros i j Hi Hj. rewrite !Ha by lia. destruct (F i) as [F1 F2]; [lia|]. destruct (F j) as [F3 F4]; [lia|]. split.
      * destruct (P4 eq_refl (vertex g (f i)) (vertex g (f j))) as (x & y & Lx & E1 & E2); [exists (Z.to_nat (i - 1)), (Z.to_nat (j - 1)); split; [lia|auto]|].
        assert (x = Z.to_nat (f i)). { apply (proj1 (NoDup_nth_error _) N); [eapply nth_error_Some_length; eauto|]. rewrite vertex_In by auto. auto. }
        assert (y = Z.to_nat (f j)). { apply (proj1 (NoDup_nth_error _) N); [eapply nth_error_Some_length; eauto|]. rewrite vertex_In by auto. auto. }
        lia.
      * apply C; [apply E; eapply nth_error_In; eauto..|]. intros X. assert (Z.to_nat (i - 1) = Z.to_nat (j - 1)); [|lia].
        apply (proj1 (NoDup_nth_error W) P2); [eapply nth_error_Some_length; eauto|congruence].
Qed.
