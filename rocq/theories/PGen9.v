(* PGen9.v -- the generated formula as the factoring and multiplying preprocessors see it. *)
From Coq Require Import ZArith List Bool Lia Arith Sorted.
From Verif Require Import Spec SpecInput MGen SpecGen PGen1 PGen2 PGen4 PGen5 PGen7 PGen8.
Import ListNotations.
Open Scope Z_scope.

(* ---- reading keeps the unit clauses ---- *)
Definition two_vars (c : list Z) : Prop := exists x y, In x c /\ In y c /\ Z.abs x <> Z.abs y.
Lemma reads_first i c F G : reads i (c :: F) G -> ~ complementary c -> distinct_vars c -> sorted_clause c ->
  exists G', map snd G = c :: G'.
Proof.
  intros H Hc D S. inversion H as [|? ? ? ? T|? ? d ? ? N E D' S' H']; subst; [tauto|]. exists (map snd G0). cbn [map snd]. f_equal.
  clear -E D D' S S'. unfold distinct_vars, sorted_clause, cvars in *. revert d E D' S'.
  induction c as [|x c IH]; intros [|y d] E D' S'; auto.
  - destruct (proj1 (E y) (or_introl eq_refl)).
  - destruct (proj2 (E x) (or_introl eq_refl)).
  - cbn [map] in *. inversion D; subst. inversion D'; subst. inversion S; subst. inversion S'; subst.
    assert (Exy : x = y).
    { destruct (proj1 (E y) (or_introl eq_refl)) as [|Hy]; auto. destruct (proj2 (E x) (or_introl eq_refl)) as [|Hx]; auto.
      exfalso. rewrite Forall_forall in *. assert (Z.abs x <= Z.abs y) by (apply H6; apply in_map; auto).
      assert (Z.abs y <= Z.abs x) by (apply H8; apply in_map; auto). apply H1. replace (Z.abs x) with (Z.abs y) by lia. apply in_map; auto. }
    subst y. f_equal. apply IH; auto. intros l. split; intros Hl.
    + destruct (proj1 (E l) (or_intror Hl)) as [<-|]; auto. exfalso. apply H3. apply in_map; auto.
    + destruct (proj2 (E l) (or_intror Hl)) as [<-|]; auto. exfalso. apply H1. apply in_map; auto.
Qed.
Lemma reads_split i F G : reads i F G -> (forall c, In c F -> (exists l, c = [l] /\ l <> 0) \/ two_vars c) ->
  unit_literals (map snd G) = unit_literals F /\
  (forall d, In d (map snd G) -> exists c, In c F /\ ~ complementary c /\ (forall l, In l d <-> In l c)) /\
  (forall c, In c F -> complementary c \/ exists d, In d (map snd G) /\ (forall l, In l d <-> In l c)) /\
  (forall asg, cnf_true asg (non_units (map snd G)) <-> cnf_true asg (non_units F)).
Proof.
  assert (CT : forall asg c, complementary c -> clause_true asg c).
  { intros asg c (v & Hv & H1 & H2). destruct (lit_true asg v) eqn:E; [exists v; auto|]. exists (- v). split; auto.
    unfold lit_true in *. destruct (Z.ltb_spec v 0), (Z.ltb_spec (- v) 0); try lia; rewrite ?Z.opp_involutive in *; try rewrite E; auto.
    destruct (asg (- v)); auto; discriminate. }
  assert (CC : forall asg F0 c, cnf_true asg (c :: F0) <-> clause_true asg c /\ cnf_true asg F0).
  { intros asg F0 c. unfold cnf_true. split; [intros H; split; [apply H; left; auto|intros; apply H; right; auto]|intros [H1 H2] d [<-|Hd]; auto]. }
  induction 1 as [i|i c F G Hc _ IH|i c d F G Hc E D S _ IH]; intros HF.
  - repeat split; auto; try (intros ? []).
  - destruct IH as (I1 & I2 & I3 & I4). { intros; apply HF; right; auto. }
    destruct (HF c (or_introl eq_refl)) as [(l & -> & Hl)|(x & y & Hx & Hy & Hxy)].
    { exfalso. destruct Hc as (v & Hv & [A|[]] & [B|[]]). lia. }
    assert (L : (length c =? 1)%nat = false).
    { destruct c as [|u [|w c]]; auto. exfalso. destruct Hx as [<-|[]], Hy as [<-|[]]. auto. }
    split; [|split; [|split]].
    + rewrite I1. unfold unit_literals. cbn [flat_map]. destruct c as [|u [|w c]]; auto; discriminate.
    + intros e He. destruct (I2 e He) as (c' & A & B). exists c'. split; auto. right; auto.
    + intros c' [<-|Hc']; auto. 
    + intros asg. rewrite I4. unfold non_units. cbn [filter]. rewrite L. cbn [negb]. rewrite CC. split; [|tauto]. intros; split; auto.
  - destruct IH as (I1 & I2 & I3 & I4). { intros; apply HF; right; auto. }
    assert (CE : forall asg, clause_true asg d <-> clause_true asg c).
    { intros asg. split; intros (l & Hl & T); exists l; split; auto; apply E; auto. }
    assert (X : match d with [l] => [l] | _ => [] end = match c with [l] => [l] | _ => [] end /\ (length d =? 1)%nat = (length c =? 1)%nat).
    { destruct (HF c (or_introl eq_refl)) as [(l & -> & Hl)|(x & y & Hx & Hy & Hxy)].
      - assert (d = [l]) as ->; auto. destruct d as [|u d]; [destruct (proj2 (E l) (or_introl eq_refl))|].
        assert (Eu : u = l) by (destruct (proj1 (E u) (or_introl eq_refl)) as [|[]]; auto). subst u. f_equal.
        destruct d as [|w d]; auto. exfalso. assert (Ew : w = l) by (destruct (proj1 (E w) (or_intror (or_introl eq_refl))) as [|[]]; auto).
        subst w. unfold distinct_vars in D. cbn in D. inversion D as [|? ? N]; subst. apply N. left; auto.
      - assert (Ld : match d with [l] => False | _ => True end).
        { destruct d as [|u [|w d]]; auto. pose proof (proj2 (E x) Hx) as [<-|[]]. pose proof (proj2 (E y) Hy) as [<-|[]]. auto. }
        assert (Lc : match c with [l] => False | _ => True end).
        { destruct c as [|u [|w c]]; auto. destruct Hx as [<-|[]], Hy as [<-|[]]. auto. }
        destruct d as [|u [|w d]], c as [|u' [|w' c]]; try destruct Ld; try destruct Lc; auto. }
    destruct X as [X1 X2]. split; [|split; [|split]].
    + cbn [map snd]. unfold unit_literals in *. cbn [flat_map]. rewrite X1, I1. auto.
    + intros e [<-|He]; [exists c; split; [left; auto|auto]|]. destruct (I2 e He) as (c' & A & B). exists c'. split; auto. right; auto.
    + intros c' [<-|Hc']; [right; exists d; split; [left; auto|auto]|]. destruct (I3 c' Hc') as [|(e & A & B)]; auto. right. exists e. split; auto. right; auto.
    + intros asg. unfold non_units in *. cbn [map snd filter]. rewrite X2. destruct (length c =? 1)%nat; cbn [negb]; [apply I4|].
      rewrite !CC, CE, I4. tauto.
Qed.

(* ---- the asserted literals ---- *)
Fixpoint asserted (cs : list bit) (vs : list bool) : list Z :=
  match cs with [] => [] | c :: t => (if hd false vs then lit_of c else lit_of (notBit c)) :: asserted t (tl vs) end.
Lemma asserted_units : forall cs vs, unit_literals (ints (clauses_of (assert_gates cs vs))) = asserted cs vs /\
  ints (clauses_of (assert_gates cs vs)) = map (fun l => [l]) (asserted cs vs).
Proof.
  induction cs as [|c cs IH]; intros vs; [split; auto|]. destruct (IH (tl vs)) as [I1 I2]. cbn [assert_gates asserted].
  change (clauses_of (GAssert c (hd false vs) :: assert_gates cs (tl vs))) with (gate_clauses (GAssert c (hd false vs)) ++ clauses_of (assert_gates cs (tl vs))).
  unfold ints in *. rewrite map_app. unfold unit_literals in *. rewrite flat_map_app, I1, I2.
  destruct (hd false vs); auto.
Qed.
Definition posvar (c : bit) : Prop := match c with BitVar v => 1 <= v | _ => False end.
Lemma asserted_abs : forall cs vs, Forall posvar cs -> map Z.abs (asserted cs vs) = map var_of cs.
Proof.
  induction cs as [|c cs IH]; intros vs H; auto. inversion H; subst. cbn [asserted map]. rewrite IH by auto. f_equal.
  destruct c; cbn in *; try tauto. destruct (hd false vs); cbn; lia.
Qed.
Lemma asserted_signs : forall cs vs t, Forall posvar cs -> (t < length cs)%nat ->
  exists u, nth_error (asserted cs vs) t = Some u /\ Z.abs u = var_of (nth t cs low) /\ (0 <? u) = nth t vs false.
Proof.
  induction cs as [|c cs IH]; intros vs t H L; [simpl in L; lia|]. inversion H; subst. cbn [asserted]. destruct t as [|t].
  - eexists. split; [reflexivity|]. cbn [nth]. destruct c as [|v|]; cbn in *; try tauto.
    replace (nth 0 vs false) with (hd false vs) by (destruct vs; auto). destruct (hd false vs); cbn; split; lia.
  - destruct (IH (tl vs) t) as (u & A & B & D); auto; [simpl in L; lia|]. exists u. cbn [nth_error nth]. repeat split; auto. rewrite D.
    destruct vs; auto. destruct t; auto.
Qed.
Lemma asserted_length : forall cs vs, length (asserted cs vs) = length cs.
Proof. induction cs as [|c cs IH]; intros vs; cbn [asserted length]; auto. Qed.
Lemma asserted_number : forall cs vs, Forall posvar cs -> (length vs <= length cs)%nat ->
  bits_value (map (Z.ltb 0) (asserted cs vs)) = bits_value vs.
Proof.
  induction cs as [|c cs IH]; intros vs H L.
  - destruct vs; [auto|simpl in L; lia].
  - inversion H; subst. cbn [asserted map bits_value]. rewrite IH; auto.
    + destruct c as [|v|]; cbn in H2; try tauto. destruct vs as [|x vs]; cbn [hd tl bits_value lit_of notBit].
      * rewrite (proj2 (Z.ltb_ge 0 (- v))) by lia. lia.
      * destruct x; [rewrite (proj2 (Z.ltb_lt 0 v)) by lia|rewrite (proj2 (Z.ltb_ge 0 (- v))) by lia]; lia.
    + destruct vs; cbn in *; lia.
Qed.
Lemma int2bits_number n : 0 <= n -> bits_value (map bit_value (int2bits n)) = n.
Proof.
  intros Hn. destruct n as [|p|p]; auto; [|lia]. cbn [int2bits]. induction p as [p IH|p IH|]; cbn [pos2bits map bits_value]; try rewrite IH by lia; cbn [bit_value high low]; try lia.
Qed.

Section Sabry.
Variables (a : adder_arg) (m : multiplier_arg) (n : Z) (cs' : list bit) (v1 : Z) (ds : list gate).
Hypothesis Hn : 4 <= n.
Hypothesis GR : gen_run a m n cs' v1 ds.
Hypothesis arr : array_multiplier m (n1 n) (n2 n).
Let cs := filter keepBitVar cs'.
Let vs := map bit_value (int2bits n).
Let asserts := assert_gates cs vs.
Let C : core a m (n1 n) (n2 n) cs' v1 ds := gr_core _ _ _ _ _ _ GR.
Let k1 := first_bits n.
Let k2 := second_bits n.
Let F := ints (clauses_of (ds ++ asserts)).
Let K := (n1 n + n2 n)%nat.

Lemma K_Z : Z.of_nat K = k1 + k2.
Proof. unfold K, k1, k2. rewrite Nat2Z.inj_add, n1_Z, n2_Z by auto. auto. Qed.
Lemma n12 : (2 <= n1 n)%nat /\ (2 <= n2 n)%nat.
Proof. destruct (size_facts n Hn) as (S1 & S2 & _). pose proof (n1_Z n Hn). pose proof (n2_Z n Hn). lia. Qed.
Lemma outs_pos : poss cs' /\ Forall plain ds.
Proof. apply (multiplier_pos a m (n1 n) (n2 n) 1 (1 + Z.of_nat (n1 n)) arr _ _ _ _ (co_run _ _ _ _ _ _ _ C)). Qed.
Lemma ds_first : exists ds', ds = GAnd (BitVar (1 + k1 + k2)) (BitVar 1) (BitVar (1 + k1)) :: ds'.
Proof.
  pose proof n12 as N. unfold k1, k2. rewrite <- (n1_Z n Hn), <- (n2_Z n Hn).
  apply (first_gate a m (n1 n) (n2 n) 1 (1 + Z.of_nat (n1 n)) _ arr ltac:(lia) ltac:(lia) _ _ _ (co_run _ _ _ _ _ _ _ C)).
Qed.
Lemma out_var i : ~ const (nth i cs' low) -> exists v, nth i cs' low = BitVar v /\ 1 <= v < v1.
Proof.
  intros Hc. assert (Hin : In (nth i cs' low) cs').
  { destruct (nth_in_or_default i cs' low) as [|E]; auto. exfalso. rewrite E in Hc. apply Hc. cbn. auto. }
  destruct outs_pos as [P _]. unfold poss in P. rewrite Forall_forall in P. specialize (P _ Hin).
  pose proof (co_below _ _ _ _ _ _ _ C) as B. unfold belows in B. rewrite Forall_forall in B. specialize (B _ Hin).
  destruct (nth i cs' low) as [x|v|v]; cbn in *; try tauto. exists v. split; auto.
Qed.
Lemma cs_prefix : (K <= length cs')%nat /\ cs = firstn K cs' ++ filter keepBitVar (skipn K cs').
Proof.
  pose proof n12 as N. destruct (filter_prefix K cs') as (Len & _ & Ef); [|auto].
  intros i Hi. eapply core_bits; [exact C|lia|lia|exact Hi].
Qed.
Lemma cs_posvar : Forall posvar cs.
Proof.
  apply Forall_forall. intros c Hc. unfold cs in Hc. apply filter_In in Hc as [H1 H2]. apply (In_nth _ _ low) in H1 as (i & _ & E).
  rewrite <- E in *. destruct (out_var i) as (v & -> & Hv); [apply keep_const; auto|]. cbn. lia.
Qed.
Lemma high_bit i : (K <= i)%nat -> Z.testbit n (Z.of_nat i) = false.
Proof.
  intros Hi. destruct (size_facts n Hn) as (S1 & S2 & _ & S4). pose proof K_Z as KZ. unfold k1, k2 in KZ.
  apply (testbit_above n (first_bits n + 1)); lia.
Qed.
Lemma idx1 t : (t < length cs)%nat -> exists j, nth j cs' low = nth t cs low /\ ~ const (nth j cs' low) /\
  Z.testbit n (Z.of_nat j) = nth t vs false.
Proof.
  intros Ht. assert (HC : ~ const (nth t cs low)) by (apply keep_const; eapply proj2, filter_In; apply nth_In; exact Ht).
  destruct cs_prefix as [L E]. unfold vs. rewrite int2bits_values by lia. destruct (Nat.lt_ge_cases t K) as [H|H].
  - exists t. assert (En : nth t cs' low = nth t cs low).
    { rewrite E, app_nth1 by (rewrite firstn_length_le; auto). rewrite <- (firstn_skipn K cs') at 1. rewrite app_nth1 by (rewrite firstn_length_le; auto). auto. }
    rewrite En. auto.
  - assert (Hin : In (nth t cs low) (skipn K cs')).
    { rewrite E in Ht |- *. rewrite app_length, firstn_length_le in Ht by auto. rewrite app_nth2 by (rewrite firstn_length_le; auto).
      rewrite firstn_length_le by auto. eapply proj1, filter_In. apply nth_In. lia. }
    apply (In_nth _ _ low) in Hin as (j & Hj & Ej). exists (K + j)%nat.
    assert (Es : nth j (skipn K cs') low = nth (K + j) cs' low).
    { rewrite <- (firstn_skipn K cs') at 2. rewrite app_nth2 by (rewrite firstn_length_le by auto; lia).
      rewrite firstn_length_le by auto. f_equal. lia. }
    rewrite <- Es, Ej. split; auto. split; auto. rewrite !high_bit by lia. auto.
Qed.
Lemma idx2 j : ~ const (nth j cs' low) -> exists t, (t < length cs)%nat /\ nth t cs low = nth j cs' low.
Proof.
  intros Hc. assert (Hin : In (nth j cs' low) cs).
  { apply filter_In. split; [|apply keep_const; auto]. destruct (nth_in_or_default j cs' low) as [|E]; auto. exfalso. rewrite E in Hc. apply Hc. cbn. auto. }
  apply (In_nth _ _ low) in Hin as (t & Ht & E). exists t. auto.
Qed.
Lemma two_pos i : 0 <= i -> 0 < 2 ^ i. Proof. intros. apply Z.pow_pos_nonneg; lia. Qed.
(* variables of different bits of the product carry values that n gives consistently *)
Lemma same_var i j : ~ const (nth i cs' low) -> ~ const (nth j cs' low) -> var_of (nth i cs' low) = var_of (nth j cs' low) ->
  forall p q, 0 <= p < 2 ^ k1 -> 0 <= q < 2 ^ k2 -> Z.testbit (p * q) (Z.of_nat i) = Z.testbit (p * q) (Z.of_nat j).
Proof.
  intros Hi Hj E p q Hp Hq. destruct (run_exists a m n cs' v1 ds Hn C p q Hp Hq) as (r & Hr).
  rewrite <- !(run_out a m n cs' v1 ds Hn C p q r) by auto. destruct (out_var i Hi) as (v & Ev & _). destruct (out_var j Hj) as (w & Ew & _).
  rewrite Ev, Ew in *. cbn in E. subst. auto.
Qed.
Lemma same_var_n i j : ~ const (nth i cs' low) -> ~ const (nth j cs' low) -> var_of (nth i cs' low) = var_of (nth j cs' low) ->
  Z.testbit n (Z.of_nat i) = Z.testbit n (Z.of_nat j).
Proof.
  intros Hi Hj E. pose proof (same_var i j Hi Hj E) as S. destruct (size_facts n Hn) as (S1 & S2 & _ & S4). fold k1 in S1, S2, S4. fold k2 in S2.
  pose proof (two_pos k1 ltac:(lia)). pose proof (two_pos k2 ltac:(lia)).
  assert (Q4 : 4 <= 2 ^ k2) by (change 4 with (2 ^ 2); apply Z.pow_le_mono_r; lia).
  assert (P4 : 4 <= 2 ^ k1) by (change 4 with (2 ^ 2); apply Z.pow_le_mono_r; lia).
  destruct (Nat.eq_dec i j) as [->|Nij]; auto.
  assert (One : forall t, (t <> 0)%nat -> Z.testbit (1 * 1) (Z.of_nat t) = false) by (intros t Ht; apply (testbit_above 1 1); lia).
  destruct i as [|i].
  { specialize (S 1 1 ltac:(lia) ltac:(lia)). rewrite (One j) in S by lia. discriminate. }
  destruct j as [|j].
  { specialize (S 1 1 ltac:(lia) ltac:(lia)). rewrite (One (Datatypes.S i)) in S by lia. discriminate. }
  assert (Half : forall t, Z.testbit (n / 2 * 2) (Z.of_nat (Datatypes.S t)) = Z.testbit n (Z.of_nat (Datatypes.S t))).
  { intros t. rewrite Nat2Z.inj_succ, (Z.mul_comm (n / 2) 2), Z.testbit_even_succ by lia.
    change (n / 2) with (n / 2 ^ 1). rewrite Z.div_pow2_bits by lia. f_equal. }
  rewrite <- !Half. apply S; [|lia]. rewrite Z.pow_add_r in S4 by lia. split; [apply Z.div_pos; lia|apply Z.div_lt_upper_bound; lia].
Qed.
(* no input variable is an output *)
Lemma out_not_input i : ~ const (nth i cs' low) -> k1 + k2 < var_of (nth i cs' low).
Proof.
  intros Hi. destruct (out_var i Hi) as (v & Ev & Hv). rewrite Ev. cbn [var_of]. destruct (Z_lt_le_dec (k1 + k2) v) as [|L]; auto. exfalso.
  destruct (size_facts n Hn) as (S1 & S2 & _ & S4). fold k1 in S1, S2, S4. fold k2 in S2.
  pose proof (two_pos k1 ltac:(lia)). pose proof (two_pos k2 ltac:(lia)).
  destruct (Z_le_gt_dec v k1) as [Lv|Lv].
  - destruct (run_exists a m n cs' v1 ds Hn C (2 ^ (v - 1)) 0) as (r & Hr).
    { split; [apply Z.pow_nonneg; lia|apply Z.pow_lt_mono_r; lia]. } { lia. }
    pose proof (run_out a m n cs' v1 ds Hn C _ _ r i Hr) as O. rewrite Z.mul_0_r, Z.bits_0, Ev in O. cbn [bval] in O.
    destruct Hr as (_ & E & _). assert (T : Z.testbit (nval r (vars_from 1 (n1 n))) (v - 1) = true) by (rewrite E; apply Z.pow2_bits_true; lia).
    replace (v - 1) with (Z.of_nat (Z.to_nat (v - 1))) in T at 1 by lia. rewrite <- nval_testbit, vars_from_bit in T by (pose proof (n1_Z n Hn); unfold k1 in *; lia).
    replace (1 + Z.of_nat (Z.to_nat (v - 1))) with v in T by lia. congruence.
  - destruct (run_exists a m n cs' v1 ds Hn C 0 (2 ^ (v - 1 - k1))) as (r & Hr). { lia. }
    { fold k2. split; [apply Z.pow_nonneg; lia|apply Z.pow_lt_mono_r; lia]. }
    pose proof (run_out a m n cs' v1 ds Hn C _ _ r i Hr) as O. rewrite Z.mul_0_l, Z.bits_0, Ev in O. cbn [bval] in O.
    destruct Hr as (_ & _ & E). assert (T : Z.testbit (nval r (vars_from (1 + first_bits n) (n2 n))) (v - 1 - k1) = true) by (rewrite E; apply Z.pow2_bits_true; lia).
    replace (v - 1 - k1) with (Z.of_nat (Z.to_nat (v - 1 - k1))) in T by lia. rewrite <- nval_testbit, vars_from_bit in T by (pose proof (n2_Z n Hn); unfold k2 in *; lia).
    replace (1 + first_bits n + Z.of_nat (Z.to_nat (v - 1 - k1))) with v in T by (fold k1; lia). congruence.
Qed.
Lemma out_distinct i j : (i < j < K)%nat -> var_of (nth i cs' low) <> var_of (nth j cs' low).
Proof.
  intros Hij E. pose proof n12 as N12. assert (CB : forall t, (t < K)%nat -> ~ const (nth t cs' low)) by (intros t Ht; eapply core_bits; [exact C|lia|lia|exact Ht]).
  pose proof K_Z as KZ. destruct (size_facts n Hn) as (S1 & S2 & _ & S4). fold k1 in S1, S2, S4. fold k2 in S2.
  set (s := Z.min (Z.of_nat i) (k1 - 1)). set (t := Z.of_nat i - s).
  pose proof (same_var i j (CB i ltac:(lia)) (CB j ltac:(lia)) E (2 ^ s) (2 ^ t)) as S.
  rewrite <- Z.pow_add_r in S by (unfold t, s; lia). replace (s + t) with (Z.of_nat i) in S by (unfold t; lia).
  rewrite !Z.pow2_bits_eqb in S by lia. rewrite Z.eqb_refl in S. rewrite (proj2 (Z.eqb_neq _ _)) in S by lia.
  assert (true = false); [|discriminate]. apply S; (split; [apply Z.pow_nonneg; lia|apply Z.pow_lt_mono_r; unfold t, s; lia]).
Qed.
(* ---- the formula ---- *)
Lemma F_split : F = ints (clauses_of ds) ++ map (fun l => [l]) (asserted cs vs).
Proof. unfold F, ints. rewrite clauses_of_app, map_app. f_equal. apply asserted_units. Qed.
Lemma gate_clause c : In c (ints (clauses_of ds)) -> length c = 3%nat /\ two_vars c /\ exists x, In x (cvars c) /\ k1 + k2 < x.
Proof.
  intros Hc. unfold ints in Hc. apply in_map_iff in Hc as (d & <- & Hd). unfold clauses_of in Hd. apply in_flat_map in Hd as (g & Hg & Hd).
  destruct outs_pos as [_ PL]. rewrite Forall_forall in PL. specialize (PL g Hg).
  pose proof (co_gates _ _ _ _ _ _ _ C) as G. rewrite Forall_forall in G. specialize (G g Hg).
  assert (X : exists x, gate_output g = BitVar x /\ 1 + k1 + k2 <= x /\ Forall (fun b => below x b /\ ~ const b) (gate_inputs g)).
  { unfold k1, k2. rewrite <- (n1_Z n Hn), <- (n2_Z n Hn). destruct g; try destruct PL; cbn in G |- *; destruct G as (x & A & B & D); exists x; repeat split; auto; lia. }
  destruct X as (x & A & B & D).
  assert (AB : forall b, below x b -> ~ const b -> 1 <= Z.abs (lit_of b) < x) by (intros b H1 H2; apply lit_of_range; split; auto).
  assert (NB : forall b, Z.abs (lit_of (notBit b)) = Z.abs (lit_of b)) by (intros [| |]; cbn; lia).
  destruct (size_facts n Hn) as (S1 & S2 & _). fold k1 in S1, S2. fold k2 in S2.
  assert (Fin : forall u v w, d = [u; v; w] -> (Z.abs (lit_of u) = x \/ Z.abs (lit_of w) = x) -> 1 <= Z.abs (lit_of v) < x ->
    length (map lit_of d) = 3%nat /\ two_vars (map lit_of d) /\ exists x0, In x0 (cvars (map lit_of d)) /\ k1 + k2 < x0).
  { intros u v w -> H H'. split; auto. cbn [map]. split.
    - destruct H as [H|H]; [exists (lit_of u)|exists (lit_of w)]; exists (lit_of v); cbn; repeat split; auto; lia.
    - exists x. cbn. split; [|lia]. destruct H; auto. }
  destruct g as [o y z|o y z|o y z|o s y z|o e]; cbn in A, D, Hd; try destruct PL; subst o;
    repeat match goal with H : Forall _ (_ :: _) |- _ => let H1 := fresh "B" in inversion H as [|? ? [? ?] H1]; clear H; subst end;
    repeat (destruct Hd as [Hd|Hd]; [eapply Fin; [symmetry; exact Hd|right; rewrite ?NB; cbn; lia|rewrite ?NB; auto]|]); destruct Hd.
Qed.
Lemma F_clauses c : In c F -> (exists l, c = [l] /\ l <> 0) \/ two_vars c.
Proof.
  rewrite F_split. intros H. apply in_app_iff in H as [H|H]; [right; apply gate_clause; auto|]. left. apply in_map_iff in H as (l & <- & Hl).
  exists l. split; auto. intros ->. assert (X : In 0 (map Z.abs (asserted cs vs))) by (change 0 with (Z.abs 0); apply in_map; auto).
  rewrite asserted_abs in X by apply cs_posvar. apply in_map_iff in X as (b & E & Hb). pose proof cs_posvar as P. rewrite Forall_forall in P.
  specialize (P b Hb). destruct b; cbn in *; lia.
Qed.
Lemma F_units : unit_literals F = asserted cs vs.
Proof.
  rewrite F_split. unfold unit_literals. rewrite flat_map_app.
  assert (E : flat_map (fun c => match c with [l] => [l] | _ => [] end) (ints (clauses_of ds)) = []).
  { assert (G : forall c, In c (ints (clauses_of ds)) -> length c = 3%nat) by apply gate_clause. revert G. generalize (ints (clauses_of ds)).
    induction l as [|c l IH]; intros G; auto. cbn [flat_map]. rewrite IH by (intros; apply G; right; auto).
    specialize (G c (or_introl eq_refl)). destruct c as [|? [|? ?]]; auto. discriminate. }
  rewrite E. cbn [app]. induction (asserted cs vs) as [|l t IH]; auto. cbn [map flat_map app]. f_equal. exact IH.
Qed.
Lemma F_non_units : non_units F = ints (clauses_of ds).
Proof.
  rewrite F_split. unfold non_units. rewrite filter_app.
  assert (E : forall l, (forall c, In c l -> length c = 3%nat) -> filter (fun c : list Z => negb (length c =? 1)%nat) l = l).
  { induction l as [|c l IH]; intros G; auto. cbn [filter]. rewrite (G c) by (left; auto). cbn. f_equal. apply IH. intros; apply G; right; auto. }
  rewrite E by apply gate_clause. replace (filter _ (map _ _)) with (@nil (list Z)); [apply app_nil_r|].
  induction (asserted cs vs) as [|l t IH]; auto.
Qed.
Lemma F_first : exists F', F = [1; 1 + k1; - (1 + k1 + k2)] :: F'.
Proof. destruct ds_first as (ds' & E). unfold F. rewrite E. eexists. cbn. reflexivity. Qed.
Lemma F_number : bits_value (map (Z.ltb 0) (unit_literals F)) = n.
Proof.
  rewrite F_units, asserted_number; [apply int2bits_number; lia|apply cs_posvar|].
  destruct cs_prefix as [L E]. rewrite E, app_length, firstn_length_le by auto. unfold vs. rewrite map_length.
  pose proof (int2bits_length n ltac:(lia)) as I. pose proof K_Z. destruct (size_facts n Hn) as (S1 & S2 & _). fold k1 in S1, S2. fold k2 in S2.
  unfold k1, first_bits, bit_length in *. lia.
Qed.
Lemma F_many l : (forall v, In v l <-> In v (map Z.abs (unit_literals F))) -> k1 + k2 <= Z.of_nat (length l).
Proof.
  intros H. rewrite <- K_Z. apply inj_le. destruct cs_prefix as [L E].
  assert (N : NoDup (map var_of (firstn K cs'))).
  { apply (NoDup_nth _ 0). rewrite map_length, firstn_length_le by auto. intros i j Hi Hj Eij.
    assert (G : forall t, (t < K)%nat -> nth t (map var_of (firstn K cs')) 0 = var_of (nth t cs' low)).
    { intros t Ht. change 0 with (var_of low). rewrite map_nth. f_equal. rewrite <- (firstn_skipn K cs') at 2. rewrite app_nth1; auto. rewrite firstn_length_le; auto. }
    rewrite !G in Eij by auto. destruct (Nat.lt_trichotomy i j) as [T|[T|T]]; auto; exfalso.
    - apply (out_distinct i j); auto; lia.
    - apply (out_distinct j i); auto; lia. }
  apply (NoDup_incl_length (l' := l)) in N.
  - rewrite map_length, firstn_length_le in N; auto.
  - intros v Hv. apply H. rewrite F_units, asserted_abs by apply cs_posvar. rewrite E, map_app. apply in_app_iff. auto.
Qed.
(* the values that the factoring preprocessor fixes *)
Lemma fixed_right d f : (forall v, In v (map fst d) <-> In v (map Z.abs (unit_literals F ++ (if Z.odd n then [1; 1 + k1] else [])))) ->
  (forall v b, In (v, b) d -> exists u, In u (unit_literals F ++ (if Z.odd n then [1; 1 + k1] else [])) /\ v = Z.abs u /\ b = (0 <? u)) ->
  extends f d -> right n cs' f /\ (forall v, In v (map fst d) <-> fixed n cs' v).
Proof.
  intros HK HV HE. destruct (size_facts n Hn) as (S1 & S2 & _). fold k1 in S1, S2. fold k2 in S2.
  rewrite F_units in HK, HV.
  assert (A : forall u, In u (asserted cs vs) -> exists j, ~ const (nth j cs' low) /\ Z.abs u = var_of (nth j cs' low) /\ (0 <? u) = Z.testbit n (Z.of_nat j)).
  { intros u Hu. apply (In_nth_error) in Hu as (t & Ht). assert (Lt : (t < length cs)%nat).
    { rewrite <- (asserted_length cs vs). apply nth_error_Some. congruence. }
    destruct (asserted_signs cs vs t cs_posvar Lt) as (u' & E & E1 & E2). rewrite Ht in E. injection E as <-.
    destruct (idx1 t Lt) as (j & J1 & J2 & J3). exists j. rewrite J1 in *. repeat split; auto. congruence. }
  assert (B : forall j, ~ const (nth j cs' low) -> In (var_of (nth j cs' low)) (map Z.abs (asserted cs vs))).
  { intros j Hj. rewrite asserted_abs by apply cs_posvar. destruct (idx2 j Hj) as (t & Lt & <-). apply in_map. apply nth_In; auto. }
  split; [split|].
  - intros i Hi. assert (Hin : In (var_of (nth i cs' low)) (map fst d)). { apply HK. rewrite map_app. apply in_app_iff. left. auto. }
    apply in_map_iff in Hin as ([v b] & Ev & Hvb). cbn in Ev. subst v.
    destruct (out_var i Hi) as (w & Ew & _). rewrite Ew in *. cbn [bval var_of] in *. rewrite (HE _ _ Hvb).
    destruct (HV _ _ Hvb) as (u & Hu & E1 & E2). rewrite E2. apply in_app_iff in Hu as [Hu|Hu].
    + destruct (A u Hu) as (j & J1 & J2 & J3). rewrite J3. apply same_var_n; auto; rewrite Ew; auto. cbn [var_of]. congruence.
    + exfalso. pose proof (out_not_input i) as O. rewrite Ew in O. specialize (O Hi). cbn [var_of] in O.
      destruct (Z.odd n); [|destruct Hu]. destruct Hu as [<-|[<-|[]]]; lia.
  - intros O. rewrite O in *. assert (X : forall v, v = 1 \/ v = 1 + k1 -> f v = true).
    { intros v Hv. assert (Hin : In v (map fst d)). { apply HK. rewrite map_app. apply in_app_iff. right. apply in_map_iff. exists v. split; [lia|]. cbn; intuition. }
      apply in_map_iff in Hin as ([v' b] & Ev & Hvb). cbn in Ev. subst v'. rewrite (HE _ _ Hvb). destruct (HV _ _ Hvb) as (u & Hu & E1 & E2).
      rewrite E2. apply in_app_iff in Hu as [Hu|Hu].
      - exfalso. destruct (A u Hu) as (j & J1 & J2 & _). pose proof (out_not_input j J1). lia.
      - apply Z.ltb_lt. destruct Hu as [<-|[<-|[]]]; lia. }
    split; apply X; auto.
  - intros v. rewrite HK, map_app, in_app_iff. unfold fixed. fold k1. split; intros [H|H].
    + left. apply in_map_iff in H as (u & <- & Hu). destruct (A u Hu) as (j & J1 & J2 & _). exists j. auto.
    + right. destruct (Z.odd n); [|destruct H]. split; auto. destruct H as [H|[H|[]]]; lia.
    + left. destruct H as (i & Hi & <-). auto.
    + right. destruct H as (-> & H). destruct H as [-> | ->]; [left; lia|right; left; lia].
Qed.
End Sabry.

(* small odd n: checked clause by clause *)
Definition fixed_list (n : Z) (cs' : list bit) : list (Z * bool) :=
  flat_map (fun i => match nth i cs' low with
                     | BitVar v => [(v, Z.testbit n (Z.of_nat i))]
                     | NotBitVar v => [(v, negb (Z.testbit n (Z.of_nat i)))]
                     | Bool _ => [] end) (seq 0 (length cs')) ++
  (if Z.odd n then [(1, true); (1 + first_bits n, true)] else []).
Lemma fixed_list_right n cs' f : right n cs' f -> forall v x, In (v, x) (fixed_list n cs') -> f v = x.
Proof.
  intros [R1 R2] v x H. apply in_app_iff in H as [H|H].
  - apply in_flat_map in H as (i & _ & H). specialize (R1 i). destruct (nth i cs' low) as [y|w|w]; [destruct H| |];
      destruct H as [H|[]]; injection H as -> <-; rewrite <- R1 by (cbn; auto); cbn; auto. rewrite negb_involutive. auto.
  - destruct (Z.odd n); [|destruct H]. destruct (R2 eq_refl) as [A B]. destruct H as [H|[H|[]]]; injection H as <- <-; auto.
Qed.
Lemma fixed_in_list n cs' v : fixed n cs' v -> In v (map fst (fixed_list n cs')).
Proof.
  intros [(i & Hc & <-)|(O & H)]; unfold fixed_list; rewrite map_app; apply in_app_iff.
  - left. assert (Li : (i < length cs')%nat). { destruct (Nat.lt_ge_cases i (length cs')); auto. exfalso. rewrite nth_overflow in Hc by auto. apply Hc. cbn; auto. }
    destruct (nth i cs' low) as [y|w|w] eqn:E; [exfalso; apply Hc; cbn; auto| |]; apply in_map_iff; eexists (w, _); (split; [reflexivity|]);
      apply in_flat_map; exists i; (split; [apply in_seq; lia|]); rewrite E; left; reflexivity.
  - right. rewrite O. cbn. destruct H as [-> | ->]; auto.
Qed.
Definition clause_ok (L : list (Z * bool)) (c : list bit) : bool :=
  existsb (fun b => match find (fun kv => fst kv =? var_of b) L with
                    | None => true
                    | Some kv => match b with BitVar _ => snd kv | NotBitVar _ => negb (snd kv) | Bool x => x end end) c.
Lemma clause_ok_sound n cs' f c : right n cs' f -> clause_ok (fixed_list n cs') c = true ->
  (forall b, In b c -> ~ const b /\ fixed n cs' (var_of b)) -> exists b, In b c /\ bval f b = true.
Proof.
  intros R H Hc. apply existsb_exists in H as (b & Hb & E). exists b. split; auto. destruct (Hc b Hb) as [NC Fx].
  apply fixed_in_list in Fx. destruct (find _ _) as [[v x]|] eqn:Ef.
  - apply find_some in Ef as [Hin Ev]. cbn in Ev. apply Z.eqb_eq in Ev. subst v. apply (fixed_list_right n cs' f R) in Hin.
    destruct b; cbn in *; try congruence.
  - exfalso. apply in_map_iff in Fx as ([v x] & Ev & Hin). apply (find_none _ _ Ef) in Hin. cbn in *. subst. rewrite Z.eqb_refl in Hin. discriminate.
Qed.
Definition small_ok (a : adder_arg) (m : multiplier_arg) (n : Z) : bool :=
  match multiplier_of sym_circuit a m (vars_from 1 (n1 n)) (vars_from (1 + Z.of_nat (n1 n)) (n2 n)) (1 + Z.of_nat (n1 n) + Z.of_nat (n2 n)) with
  | Done cs _ ds => forallb (clause_ok (fixed_list n cs)) (clauses_of ds)
  | Fails _ => false
  end.
Lemma small_all a m n : n = 5 \/ n = 7 -> small_ok a m n = true.
Proof. intros [-> | ->]; destruct a, m; vm_compute; reflexivity. Qed.

(* no clause of the multiplier is falsified *)
Lemma all_survive a m n cs' v1 ds f c : 4 <= n -> core a m (n1 n) (n2 n) cs' v1 ds -> right n cs' f ->
  In c (clauses_of ds) -> (forall b, In b c -> ~ const b /\ fixed n cs' (var_of b)) -> exists b, In b c /\ bval f b = true.
Proof.
  intros Hn C R Hc Hf. destruct (Z_le_gt_dec 3 (first_bits n)) as [L|L]; [|destruct (Z.odd n) eqn:O].
  2: { assert (Hs : n = 5 \/ n = 7).
       { destruct (size_facts n Hn) as (S1 & _ & _ & S4). assert (n < 8) by (replace 8 with (2 ^ (2 + 1)) by reflexivity; replace (first_bits n) with 2 in S4 by lia; lia).
         assert (n = 4 \/ n = 5 \/ n = 6 \/ n = 7) as [-> |[-> |[-> | ->]]] by lia; auto; discriminate. }
       pose proof (small_all a m n Hs) as S. unfold small_ok in S. rewrite (co_run _ _ _ _ _ _ _ C) in S. rewrite forallb_forall in S.
       eapply clause_ok_sound; eauto. }
  all: eapply (clause_survives a m n cs' v1 ds Hn C f c R); auto.
  1, 3: unfold clauses_of in Hc; apply in_flat_map in Hc as (g & Hg & Hc); destruct g as [o x y|o x y|o x y|o s x y|o [|]]; cbn in Hc;
     repeat (destruct Hc as [<-|Hc]; [cbn; lia|]); destruct Hc.
  all: intros p q r _ _ (D & _); pose proof (co_gates _ _ _ _ _ _ _ C) as G;
    assert (V : Forall (fun g => Forall (isvar v1) (gate_bits g)) ds) by (eapply Forall_impl; [|exact G]; intros g; apply gate_ok_bits; lia);
    apply (clauses_of_true v1 r ds V) in D; unfold clauses_of in Hc; apply in_flat_map in Hc as (g & Hg & Hc);
    rewrite Forall_forall in V; pose proof (clause_bits_vars v1 g c (V g Hg) Hc) as Vc;
    apply (clause_true_ints v1 r c Vc); apply D; unfold ints; apply in_map; apply in_flat_map; eauto.
Qed.
