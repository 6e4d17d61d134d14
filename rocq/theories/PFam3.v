(* PFam3.v -- binary mappings, binary pigeonhole principle *)
From Coq Require Import String Ascii ZArith NArith List Bool Lia Arith Permutation.
From Verif Require Import Spec PyBase MText MCnf MFam SpecCnf SpecFam PText PLib PCnf1 PCnf2 PFam1 PFam2.
Import ListNotations.
Open Scope Z_scope.

Lemma bitstrings_S n : bitstrings (S n) = map (cons false) (bitstrings n) ++ map (cons true) (bitstrings n).
Proof. unfold bitstrings. cbn [repeat products flat_map]. rewrite app_nil_r. auto. Qed.
Lemma bitstrings_len n bs : In bs (bitstrings n) -> List.length bs = n.
Proof.
  revert bs. induction n as [|n IH]; intros bs H; [destruct H as [<-|[]]; auto|]. rewrite bitstrings_S in H.
  apply in_app_iff in H as [H|H]; apply in_map_iff in H as (u & <- & Hu); cbn [List.length]; rewrite (IH u); auto.
Qed.
Lemma bits_value_app l b : bits_value (l ++ [b]) = bits_value l + (if b then 1 else 0) * 2 ^ Z.of_nat (List.length l).
Proof.
  induction l as [|x l IH]; [cbn; destruct b; lia|]. cbn [app bits_value List.length]. rewrite IH, Nat2Z.inj_succ, Z.pow_succ_r by lia. lia.
Qed.
Lemma bits_value_bounds l : 0 <= bits_value l < 2 ^ Z.of_nat (List.length l).
Proof.
  induction l as [|x l IH]; [cbn; lia|]. cbn [bits_value List.length]. rewrite Nat2Z.inj_succ, Z.pow_succ_r by lia. destruct x; lia.
Qed.
Lemma bits_value_inj l l' : List.length l = List.length l' -> bits_value l = bits_value l' -> l = l'.
Proof.
  revert l'. induction l as [|x l IH]; intros [|y l'] L E; cbn [List.length] in L; try discriminate; auto. cbn [bits_value] in E.
  assert (x = y) by (destruct x, y; auto; lia). subst. f_equal. apply IH; [lia|]. destruct y; lia.
Qed.
(* the strings in order are the numbers in order, most significant bit first *)
Lemma bitstrings_values n : map (fun bs => bits_value (rev bs)) (bitstrings n) = map Z.of_nat (seq 0 (2 ^ n)).
Proof.
  induction n as [|n IH]; [reflexivity|]. rewrite bitstrings_S, map_app, !map_map. cbn [rev].
  assert (E : 2 ^ Z.of_nat n = Z.of_nat (2 ^ n)) by (rewrite Nat2Z.inj_pow; auto).
  replace (2 ^ S n)%nat with (2 ^ n + 2 ^ n)%nat by (cbn; lia). rewrite seq_app, map_app. f_equal.
  - rewrite <- IH. apply map_ext_in. intros bs Hb. rewrite bits_value_app. lia.
  - transitivity (map (fun z => z + Z.of_nat (2 ^ n)) (map (fun bs => bits_value (rev bs)) (bitstrings n))).
    + rewrite map_map. apply map_ext_in. intros bs Hb. rewrite bits_value_app, rev_length, (bitstrings_len n bs Hb), E. lia.
    + rewrite IH, map_map. change (0 + 2 ^ n)%nat with (2 ^ n)%nat.
      assert (G : forall q k s, map (fun x => Z.of_nat x + Z.of_nat q) (seq s k) = map Z.of_nat (seq (q + s) k)).
      { clear. intros q. induction k as [|k IH]; intros s; auto. cbn [seq map]. f_equal; [lia|]. rewrite IH. f_equal. f_equal. lia. }
      rewrite G, Nat.add_0_r. auto.
Qed.
Lemma bitstrings_number n : List.length (bitstrings n) = (2 ^ n)%nat.
Proof. pose proof (f_equal (@List.length Z) (bitstrings_values n)) as H. rewrite !map_length, seq_length in H. auto. Qed.

(* the number the variables of i stand for *)
Definition code (m : binary_mapping) (a : text -> bool) (i : Z) : Z :=
  bits_value (map (fun b => a (bm_name m i (Z.of_nat b))) (seq 0 (bm_bits m))).
Lemma code_bounds m a i : 0 <= code m a i < 2 ^ Z.of_nat (bm_bits m).
Proof. unfold code. pose proof (bits_value_bounds (map (fun b => a (bm_name m i (Z.of_nat b))) (seq 0 (bm_bits m)))) as H. rewrite map_length, seq_length in H. auto. Qed.
Lemma forbid_agree (a : text -> bool) (nm : nat -> text) bs vs : List.length bs = List.length vs ->
  (clause_holds a (map (fun bv => (negb (fst bv), nm (snd bv))) (combine bs vs)) <-> bs <> map (fun b => a (nm b)) vs).
Proof.
  revert vs. induction bs as [|x bs IH]; intros [|v vs] L; cbn [List.length] in L; try discriminate.
  - split; [intros H; destruct (holds_nil _ H)|intros H; exfalso; auto].
  - cbn [combine map fst snd]. rewrite holds_cons, IH by lia. split.
    + intros [H|H] E; injection E as E1 E2; auto. rewrite E1 in H. destruct (a (nm v)); discriminate.
    + intros H. destruct (Bool.bool_dec (a (nm v)) (negb x)); auto. right. intros E. apply H. f_equal; auto. destruct x, (a (nm v)); auto; exfalso; auto.
Qed.
Lemma forbid_holds m a i bs : List.length bs = bm_bits m ->
  (clause_holds a (forbid_bitstring m i bs) <-> code m a i <> bits_value (rev bs)).
Proof.
  intros L. unfold forbid_bitstring. rewrite (forbid_agree a (fun b => bm_name m i (Z.of_nat b))) by (rewrite rev_length, seq_length; auto).
  rewrite map_rev. split.
  - intros H E. apply H. unfold code in E. apply bits_value_inj in E; [rewrite E, rev_involutive; auto|]. rewrite rev_length, map_length, seq_length. auto.
  - intros H E. apply H. rewrite E, rev_involutive. reflexivity.
Qed.
Lemma value_string n c : 0 <= c < 2 ^ Z.of_nat n -> exists bs, nth_error (bitstrings n) (Z.to_nat c) = Some bs /\ bits_value (rev bs) = c.
Proof.
  intros H. assert (E : 2 ^ Z.of_nat n = Z.of_nat (2 ^ n)) by (rewrite Nat2Z.inj_pow; auto).
  destruct (nth_error (bitstrings n) (Z.to_nat c)) as [bs|] eqn:N.
  - exists bs. split; auto. apply (map_nth_error (fun bs => bits_value (rev bs))) in N. rewrite bitstrings_values in N.
    assert (S0 : nth_error (seq 0 (2 ^ n)) (Z.to_nat c) = Some (Z.to_nat c)).
    { rewrite (nth_error_nth' _ 0%nat) by (rewrite seq_length; lia). rewrite seq_nth by lia. auto. }
    apply (map_nth_error Z.of_nat) in S0. rewrite S0 in N. injection N as <-. lia.
  - apply nth_error_None in N. rewrite bitstrings_number in N. lia.
Qed.
Lemma string_value n k bs : nth_error (bitstrings n) k = Some bs -> bits_value (rev bs) = Z.of_nat k.
Proof.
  intros N. assert (L : (k < 2 ^ n)%nat) by (rewrite <- bitstrings_number; apply nth_error_Some; congruence).
  apply (map_nth_error (fun bs => bits_value (rev bs))) in N. rewrite bitstrings_values in N.
  assert (S0 : nth_error (seq 0 (2 ^ n)) k = Some k).
  { rewrite (nth_error_nth' _ 0%nat) by (rewrite seq_length; lia). rewrite seq_nth by lia. auto. }
  apply (map_nth_error Z.of_nat) in S0. congruence.
Qed.
Lemma nth_error_skipn {A} (l : list A) k j : nth_error (skipn k l) j = nth_error l (k + j).
Proof. revert l. induction k as [|k IH]; intros [|x l]; cbn [skipn Nat.add]; auto. - destruct j; auto. - cbn [nth_error]. apply IH. Qed.
Lemma nth_error_combine {A B} (l : list A) (l' : list B) j p : nth_error (combine l l') j = Some p <->
  nth_error l j = Some (fst p) /\ nth_error l' j = Some (snd p).
Proof.
  revert l l'. induction j as [|j IH]; intros [|x l] [|y l']; cbn [combine nth_error]; try (split; [discriminate|intros [? ?]; discriminate]).
  - destruct p; cbn [fst snd]. split; [intros E; injection E as <- <-; auto|intros [E1 E2]; congruence].
  - apply IH.
Qed.
Lemma pairs_nth {A} (l : list A) x y : In (x, y) (pairs l) <-> exists i j, (i < j)%nat /\ nth_error l i = Some x /\ nth_error l j = Some y.
Proof.
  induction l as [|z l IH]; cbn [pairs].
  - split; [intros []|intros (i & j & _ & H & _); destruct i; discriminate].
  - rewrite in_app_iff, IH. split.
    + intros [H|(i & j & L & H1 & H2)].
      * apply in_map_iff in H as (w & E & Hw). injection E as <- <-. apply In_nth_error in Hw as (j & Hj). exists 0%nat, (S j). split; [lia|]. auto.
      * exists (S i), (S j). split; [lia|auto].
    + intros (i & j & L & H1 & H2). destruct j as [|j]; [lia|]. destruct i as [|i].
      * left. injection H1 as ->. apply in_map. cbn in H2. eapply nth_error_In; eauto.
      * right. exists i, j. split; [lia|auto].
Qed.

Lemma binary_models m a : (List.length (bm_range m) <= 2 ^ bm_bits m)%nat ->
  (all_hold a (bm_clauses m) <->
   (forall i, In i (bm_domain m) -> code m a i < Z.of_nat (List.length (bm_range m))) /\
   (bm_injective m = true -> forall i i', In (i, i') (pairs (bm_domain m)) -> code m a i <> code m a i') /\
   (bm_nondecreasing m = true -> forall i i', In (i, i') (pairs (bm_domain m)) -> code m a i <= code m a i')).
Proof.
  intros HR. unfold bm_clauses. rewrite !all_hold_app, !all_hold_if, !all_hold_flat_map.
  assert (HE : 2 ^ Z.of_nat (bm_bits m) = Z.of_nat (2 ^ bm_bits m)) by (rewrite Nat2Z.inj_pow; auto).
  set (n := bm_bits m) in *. set (k := List.length (bm_range m)) in *.
  assert (E1 : (forall i, In i (bm_domain m) -> all_hold a (map (forbid_bitstring m i) (skipn k (bitstrings n)))) <->
               (forall i, In i (bm_domain m) -> code m a i < Z.of_nat k)).
  { assert (G : forall i, all_hold a (map (forbid_bitstring m i) (skipn k (bitstrings n))) <-> code m a i < Z.of_nat k).
    { intros i. rewrite all_hold_map. pose proof (code_bounds m a i) as CB. fold n in CB. split.
      - intros H. destruct (Z_lt_ge_dec (code m a i) (Z.of_nat k)); auto. exfalso.
        destruct (value_string n (code m a i) CB) as (bs & N & V).
        assert (Hb : In bs (skipn k (bitstrings n))).
        { apply (nth_error_In _ (Z.to_nat (code m a i) - k)). rewrite nth_error_skipn. rewrite <- N. f_equal. lia. }
        specialize (H bs Hb). apply forbid_holds in H; [|apply (bitstrings_len n); eapply nth_error_In; eauto]. auto.
      - intros H bs Hb. apply In_nth_error in Hb as (j & Hj). rewrite nth_error_skipn in Hj. apply forbid_holds.
        + apply (bitstrings_len n). eapply nth_error_In; eauto.
        + rewrite (string_value _ _ _ Hj). lia. }
    split; intros H i Hi; apply G; auto. }
  rewrite E1. clear E1.
  assert (CS : forall j bs, In (j, bs) (coded_range m) -> List.length bs = n).
  { intros j bs H. apply in_combine_r in H. apply (bitstrings_len n). auto. }
  assert (CV : forall c, 0 <= c < Z.of_nat k -> exists j bs, nth_error (coded_range m) (Z.to_nat c) = Some (j, bs) /\ bits_value (rev bs) = c).
  { intros c Hc. destruct (value_string n c) as (bs & N & V); [lia|].
    destruct (nth_error (bm_range m) (Z.to_nat c)) as [j|] eqn:Nj; [|apply nth_error_None in Nj; fold k in Nj; lia].
    exists j, bs. split; auto. unfold coded_range. apply nth_error_combine. auto. }
  assert (E2 : (forall i, In i (bm_domain m) -> code m a i < Z.of_nat k) ->
    ((forall x, In x (coded_range m) -> all_hold a (map (fun ii => forbid_image m (fst ii) (snd x) ++ forbid_image m (snd ii) (snd x)) (pairs (bm_domain m)))) <->
     forall i i', In (i, i') (pairs (bm_domain m)) -> code m a i <> code m a i')).
  { intros HC. split.
    - intros H i i' Hp E. pose proof (pairs_In _ _ _ Hp) as [D1 D2]. pose proof (code_bounds m a i). pose proof (HC i D1).
      destruct (CV (code m a i)) as (j & bs & N & V); [lia|]. apply nth_error_In in N. pose proof (CS _ _ N).
      specialize (H (j, bs) N). rewrite all_hold_map in H. specialize (H (i, i') Hp). cbn [fst snd] in H. unfold forbid_image in H.
      rewrite holds_app, !forbid_holds in H by auto. destruct H; congruence.
    - intros H [j bs] N. pose proof (CS _ _ N). rewrite all_hold_map. intros [i i'] Hp. cbn [fst snd]. unfold forbid_image.
      rewrite holds_app, !forbid_holds by auto. specialize (H i i' Hp). destruct (Z.eq_dec (code m a i) (bits_value (rev bs))); auto. right. congruence. }
  assert (E3 : (forall i, In i (bm_domain m) -> code m a i < Z.of_nat k) ->
    ((forall x, In x (pairs (bm_domain m)) -> all_hold a (map (fun jj => forbid_image m (fst x) (snd (snd jj)) ++ forbid_image m (snd x) (snd (fst jj))) (pairs (coded_range m)))) <->
     forall i i', In (i, i') (pairs (bm_domain m)) -> code m a i <= code m a i')).
  { intros HC. split.
    - intros H i i' Hp. destruct (Z_le_gt_dec (code m a i) (code m a i')) as [|GT]; auto. exfalso.
      pose proof (pairs_In _ _ _ Hp) as [D1 D2]. pose proof (code_bounds m a i). pose proof (HC i D1). pose proof (code_bounds m a i').
      destruct (CV (code m a i)) as (j & bs & N & V); [lia|]. destruct (CV (code m a i')) as (j' & bs' & N' & V'); [lia|].
      assert (P : In ((j', bs'), (j, bs)) (pairs (coded_range m))).
      { apply pairs_nth. exists (Z.to_nat (code m a i')), (Z.to_nat (code m a i)). split; [lia|auto]. }
      apply nth_error_In in N. apply nth_error_In in N'. pose proof (CS _ _ N). pose proof (CS _ _ N').
      specialize (H (i, i') Hp). rewrite all_hold_map in H. specialize (H _ P). cbn [fst snd] in H. unfold forbid_image in H.
      rewrite holds_app, !forbid_holds in H by auto. destruct H; congruence.
    - intros H [i i'] Hp. rewrite all_hold_map. intros [[j bs] [j' bs']] P. cbn [fst snd]. unfold forbid_image.
      apply pairs_nth in P as (x & y & L & N & N'). pose proof N as N0. pose proof N' as N0'. apply nth_error_In in N. apply nth_error_In in N'. pose proof (CS _ _ N). pose proof (CS _ _ N').
      unfold coded_range in N0, N0'. apply nth_error_combine in N0 as [_ N0]. apply nth_error_combine in N0' as [_ N0']. cbn [snd] in *.
      rewrite holds_app, !forbid_holds by auto. rewrite (string_value _ _ _ N0), (string_value _ _ _ N0'). specialize (H i i' Hp). lia. }
  tauto.
Qed.
Lemma binary_vars m cl v : In cl (bm_clauses m) -> In v (map snd cl) -> In v (bm_variables m).
Proof.
  assert (G : forall i bs v, In i (bm_domain m) -> In v (map snd (forbid_bitstring m i bs)) -> In v (bm_variables m)).
  { intros i bs w Hi Hw. unfold forbid_bitstring in Hw. rewrite map_map in Hw. apply in_map_iff in Hw as ([x b] & <- & Hb).
    apply in_combine_r in Hb. apply in_rev in Hb. unfold bm_variables. apply in_flat_map. exists i. split; auto. cbn [snd].
    apply (in_map (fun b => bm_name m i (Z.of_nat b))). auto. }
  unfold bm_clauses. intros Hc Hv. repeat apply in_app_iff in Hc as [Hc|Hc].
  - apply in_flat_map in Hc as (i & Hi & Hc). apply in_map_iff in Hc as (bs & <- & Hb). eauto.
  - destruct (bm_injective m); [|destruct Hc]. apply in_flat_map in Hc as ([j bs] & Hj & Hc). apply in_map_iff in Hc as ([i i'] & <- & Hp).
    apply pairs_In in Hp as [? ?]. rewrite map_app in Hv. apply in_app_iff in Hv as [Hv|Hv]; eauto.
  - destruct (bm_nondecreasing m); [|destruct Hc]. apply in_flat_map in Hc as ([i i'] & Hp & Hc). apply in_map_iff in Hc as (jj & <- & Hj).
    apply pairs_In in Hp as [? ?]. rewrite map_app in Hv. apply in_app_iff in Hv as [Hv|Hv]; eauto.
Qed.
Lemma bphp_built bits p h : 1 <= h -> exists c, BinaryPigeonholePrinciple bits p h = Ok c /\ made c /\
  cnf_clauses c = bm_clauses (mkBinary (range 1 (p + 1)) (range 1 (h + 1)) bits binary_name true false).
Proof.
  intros H. unfold BinaryPigeonholePrinciple. destruct (Z.ltb_spec h 1); [lia|].
  destruct (build_unsafe (bm_variables (mkBinary (range 1 (p + 1)) (range 1 (h + 1)) bits binary_name true false))
    (bm_clauses (mkBinary (range 1 (p + 1)) (range 1 (h + 1)) bits binary_name true false))) as (c & A & B & C & _); [|eauto].
  intros cl v Hc Hv. eapply binary_vars; eauto.
Qed.
(* the bits of a number *)
Fixpoint bits_of (n : nat) (z : Z) : list bool := match n with O => [] | S n' => Z.odd z :: bits_of n' (z / 2) end.
Lemma bits_of_value n z : 0 <= z < 2 ^ Z.of_nat n -> bits_value (bits_of n z) = z.
Proof.
  revert z. induction n as [|n IH]; intros z H; [cbn in *; lia|]. cbn [bits_of bits_value]. rewrite Nat2Z.inj_succ, Z.pow_succ_r in H by lia.
  rewrite IH by (split; [apply Z.div_pos; lia|apply Z.div_lt_upper_bound; lia]).
  rewrite (Z.div_mod z 2) at 3 by lia. rewrite Zmod_odd. destruct (Z.odd z); lia.
Qed.
Lemma bits_of_length n z : List.length (bits_of n z) = n.
Proof. revert z. induction n; intros; cbn [bits_of List.length]; auto. Qed.
Lemma bphp_models bits p h a : 0 <= p -> 1 <= h <= 2 ^ Z.of_nat bits ->
  let m := mkBinary (range 1 (p + 1)) (range 1 (h + 1)) bits binary_name true false in
  (all_hold a (bm_clauses m) <->
   (forall i, 1 <= i <= p -> code m a i < h) /\ (forall i j, 1 <= i <= p -> 1 <= j <= p -> i <> j -> code m a i <> code m a j)).
Proof.
  intros Hp Hh m. assert (HE : 2 ^ Z.of_nat bits = Z.of_nat (2 ^ bits)) by (rewrite Nat2Z.inj_pow; auto).
  assert (L : Z.of_nat (List.length (bm_range m)) = h) by (cbn; apply between_length; lia).
  rewrite binary_models by (cbn [bm_bits m]; lia). rewrite L. cbn [bm_domain bm_injective bm_nondecreasing m].
  assert (D : forall i, In i (range 1 (p + 1)) <-> 1 <= i <= p) by (intros; rewrite range_In; lia).
  split.
  - intros (A & B & _). split; [intros i Hi; apply A, D; auto|]. intros i j Hi Hj N.
    destruct (pairs_total (range 1 (p + 1)) i j) as [P|P]; try apply D; auto. specialize (B eq_refl j i P). auto.
  - intros (A & B). split; [intros i Hi; apply A, D; auto|]. split; [|discriminate]. intros _ i j P. pose proof (pairs_In _ _ _ P) as [Hi Hj].
    apply D in Hi. apply D in Hj. apply B; auto. eapply pairs_neq; eauto. apply range_NoDup.
Qed.
Lemma bphp_satisfiable bits p h : 0 <= p -> 1 <= h <= 2 ^ Z.of_nat bits ->
  (has_model (bm_clauses (mkBinary (range 1 (p + 1)) (range 1 (h + 1)) bits binary_name true false)) <-> p <= h).
Proof.
  intros Hp Hh. set (m := mkBinary (range 1 (p + 1)) (range 1 (h + 1)) bits binary_name true false). split.
  - intros (a & Ha). apply bphp_models in Ha as [A B]; auto.
    rewrite <- (between_length p Hp), <- (between_length h) by lia. apply Nat2Z.inj_le.
    apply (injective_length _ _ (fun i e => code m a i = e - 1)); [apply range_NoDup| |].
    + intros i Hi. apply range_In in Hi. exists (code m a i + 1). split; [|lia]. apply range_In.
      pose proof (code_bounds m a i). specialize (A i). fold m in A. lia.
    + intros i j e Hi Hj _ E1 E2. apply range_In in Hi. apply range_In in Hj. destruct (Z.eq_dec i j); auto. exfalso.
      apply (B i j); try lia. fold m. congruence.
  - intros L. set (dom := flat_map (fun i => map (pair i) (seq 0 bits)) (range 1 (p + 1))).
    exists (values (fun q => binary_name (fst q) (Z.of_nat (snd q))) dom (fun q => nth (snd q) (bits_of bits (fst q - 1)) false)).
    set (a := values _ _ _). assert (V : forall i b, 1 <= i <= p -> (b < bits)%nat -> a (binary_name i (Z.of_nat b)) = nth b (bits_of bits (i - 1)) false).
    { intros i b Hi Hb. apply (values_at (fun q => binary_name (fst q) (Z.of_nat (snd q))) dom (fun q => nth (snd q) (bits_of bits (fst q - 1)) false) (i, b)).
      - intros [i' b'] _ K. cbn [fst snd] in *. apply name2_inj in K as [-> K]. apply Nat2Z.inj in K as ->. auto.
      - unfold dom. apply in_flat_map. exists i. split; [apply range_In; lia|]. apply in_map. apply in_seq. lia. }
    assert (C : forall i, 1 <= i <= p -> code m a i = i - 1).
    { intros i Hi. unfold code. cbn [bm_bits bm_name m]. transitivity (bits_value (bits_of bits (i - 1))); [|apply bits_of_value; lia].
      f_equal. apply (nth_ext _ _ false false); [rewrite map_length, seq_length, bits_of_length; auto|].
      intros k Hk. rewrite map_length, seq_length in Hk. rewrite (nth_indep _ false (a (binary_name i (Z.of_nat 0)))) by (rewrite map_length, seq_length; auto).
      rewrite (map_nth (fun b => a (binary_name i (Z.of_nat b)))). rewrite seq_nth by auto. cbn [Nat.add]. apply V; auto. }
    apply bphp_models; auto. fold m. split.
    + intros i Hi. rewrite C; lia.
    + intros i j Hi Hj N. rewrite !C by auto. lia.
Qed.
