(* PGen8.v -- what fixing the bits of n (and, for an odd n, the lowest bits of the factors) does to the
   clauses of the multiplier: none is falsified. *)
From Coq Require Import ZArith List Bool Lia Arith Sorted.
From Verif Require Import Spec SpecInput MGen SpecGen PGen1 PGen2 PGen4 PGen5 PGen7.
Import ListNotations.
Open Scope Z_scope.

Definition var_of (b : bit) : Z := match b with BitVar v | NotBitVar v => v | Bool _ => 0 end.
Lemma bval_var f r b : ~ const b -> (f (var_of b) = r (var_of b) <-> bval f b = bval r b).
Proof. destruct b; cbn; intros H; [tauto|tauto|]. destruct (f v), (r v); cbn; split; auto; discriminate. Qed.

Lemma testbit_above z i : 0 <= z < 2 ^ i -> 0 <= i -> forall j, i <= j -> Z.testbit z j = false.
Proof.
  intros Hz Hi j Hj. destruct (Z.eq_dec z 0) as [->|]; [apply Z.bits_0|]. apply Z.bits_above_log2; [lia|].
  apply Z.log2_lt_pow2; [lia|]. eapply Z.lt_le_trans; [apply Hz|]. apply Z.pow_le_mono_r; lia.
Qed.
(* z = 2^k + w, w < 2^k *)
Lemma testbit_lead k w : 0 <= k -> 0 <= w < 2 ^ k -> forall j, 0 <= j ->
  Z.testbit (2 ^ k + w) j = if j =? k then true else if j <? k then Z.testbit w j else false.
Proof.
  intros Hk Hw j Hj.
  assert (E : 2 ^ k + w = Z.lor w (2 ^ k)).
  { rewrite Z.add_comm. rewrite Z.add_nocarry_lxor.
    - apply Z.lxor_lor. apply Z.bits_inj'. intros i Hi. rewrite Z.land_spec, Z.bits_0, Z.pow2_bits_eqb by lia.
      destruct (Z.eqb_spec k i) as [->|]; [|apply andb_false_r]. rewrite (testbit_above w i) by (auto; lia). auto.
    - apply Z.bits_inj'. intros i Hi. rewrite Z.land_spec, Z.bits_0, Z.pow2_bits_eqb by lia.
      destruct (Z.eqb_spec k i) as [->|]; [|apply andb_false_r]. rewrite (testbit_above w i) by (auto; lia). auto. }
  rewrite E, Z.lor_spec, Z.pow2_bits_eqb by lia. destruct (Z.eqb_spec j k) as [->|Hn].
  - rewrite Z.eqb_refl. apply orb_true_r.
  - rewrite (proj2 (Z.eqb_neq k j)) by lia. rewrite orb_false_r. destruct (Z.ltb_spec j k); auto.
    apply (testbit_above w k); auto; lia.
Qed.
Lemma bit0_odd z : Z.testbit z 0 = Z.odd z. Proof. apply Z.bit0_odd. Qed.

(* the products 3 * (2^(k-1) + 1) and 3 * (2^(k-1) - 1): odd, leading bit k, complementary in between *)
Section Products.
Variable k : Z.
Hypothesis Hk : 3 <= k.
Let P1 := (2 ^ (k - 1) + 1) * 3.
Let P2 := (2 ^ (k - 1) - 1) * 3.
Lemma pow_k : 2 ^ k = 2 * 2 ^ (k - 1). Proof. rewrite <- Z.pow_succ_r by lia. f_equal. lia. Qed.
Lemma pow_k1 : 2 ^ (k - 1) = 2 * 2 ^ (k - 2). Proof. rewrite <- Z.pow_succ_r by lia. f_equal. lia. Qed.
Lemma pow_ge : 4 <= 2 ^ (k - 1). Proof. change 4 with (2 ^ 2). apply Z.pow_le_mono_r; lia. Qed.
Lemma P1_eq : P1 = 2 ^ k + (2 ^ (k - 1) + 3). Proof. unfold P1. rewrite pow_k. lia. Qed.
Lemma P2_eq : P2 = 2 ^ k + (2 ^ (k - 1) - 3). Proof. unfold P2. rewrite pow_k. lia. Qed.
Lemma P1_high j : k < j -> Z.testbit P1 j = false.
Proof.
  pose proof pow_ge. pose proof pow_k. intros Hj. rewrite P1_eq. destruct (Z.eq_dec k 3) as [E|E].
  - rewrite E. change (2 ^ 3 + (2 ^ (3 - 1) + 3)) with 15. apply (testbit_above 15 4); try lia.
  - assert (8 <= 2 ^ (k - 1)) by (change 8 with (2 ^ 3); apply Z.pow_le_mono_r; lia).
    rewrite testbit_lead by lia. rewrite (proj2 (Z.eqb_neq _ _)) by lia. rewrite (proj2 (Z.ltb_ge _ _)) by lia. auto.
Qed.
Lemma P2_high j : k < j -> Z.testbit P2 j = false.
Proof.
  pose proof pow_ge. pose proof pow_k. intros Hj. rewrite P2_eq.
  rewrite testbit_lead by lia. rewrite (proj2 (Z.eqb_neq _ _)) by lia. rewrite (proj2 (Z.ltb_ge _ _)) by lia. auto.
Qed.
Lemma P1_lead : Z.testbit P1 k = true.
Proof.
  pose proof pow_ge. pose proof pow_k. rewrite P1_eq. destruct (Z.eq_dec k 3) as [E|E]; [rewrite E; reflexivity|].
  assert (8 <= 2 ^ (k - 1)) by (change 8 with (2 ^ 3); apply Z.pow_le_mono_r; lia).
  rewrite testbit_lead by lia. rewrite Z.eqb_refl. auto.
Qed.
Lemma P2_lead : Z.testbit P2 k = true.
Proof. pose proof pow_ge. pose proof pow_k. rewrite P2_eq, testbit_lead by lia. rewrite Z.eqb_refl. auto. Qed.
Lemma P1_odd : Z.testbit P1 0 = true.
Proof. rewrite bit0_odd. unfold P1. rewrite pow_k1, Z.odd_mul, Z.odd_add, Z.odd_mul. reflexivity. Qed.
Lemma P2_odd : Z.testbit P2 0 = true.
Proof. rewrite bit0_odd. unfold P2. rewrite pow_k1, Z.odd_mul, Z.odd_sub, Z.odd_mul. reflexivity. Qed.
Lemma P_mid j : 1 <= j < k -> Z.testbit P1 j = negb (Z.testbit P2 j).
Proof.
  intros Hj. pose proof pow_ge. pose proof pow_k.
  (* P1 + P2 = 6 * 2^(k-1) = 3 * 2^k; so P1 - 2^k and 2^(k-1)-3 ... : P1' + P2' = 2^k with odd parts *)
  assert (C : P1 - 1 + (P2 + 1) = 3 * 2 ^ k) by (rewrite P1_eq, P2_eq; lia).
  assert (E : P1 = 3 * 2 ^ k - 1 - (P2 - 1)) by lia.
  assert (N : forall z, Z.testbit (3 * 2 ^ k - 1 - z) j = negb (Z.testbit z j)).
  { intros z. replace (3 * 2 ^ k - 1 - z) with (Z.lnot z + 3 * 2 ^ k) by (unfold Z.lnot; lia).
    rewrite <- (Z.mod_pow2_bits_low _ k) by lia. rewrite Z.mod_add by lia. rewrite Z.mod_pow2_bits_low by lia. apply Z.lnot_spec. lia. }
  rewrite E, N. f_equal.
  (* P2 is odd, so P2 - 1 has the same bits above 0 *)
  assert (O : Z.odd P2 = true) by (rewrite <- bit0_odd; apply P2_odd).
  assert (Q : P2 = 2 * (P2 / 2) + 1). { rewrite Z.odd_spec in O. destruct O as [m Em]. rewrite Em. rewrite Z.add_comm, Z.mul_comm, Z.div_add by lia. change (1 / 2) with 0. lia. }
  replace (P2 - 1) with (2 * (P2 / 2)) by lia. rewrite Q at 2. replace j with (Z.succ (j - 1)) by lia.
  rewrite Z.testbit_even_succ, Z.testbit_odd_succ by lia. auto.
Qed.
End Products.

Section Fixed.
Variables (a : adder_arg) (m : multiplier_arg) (n : Z) (cs' : list bit) (v1 : Z) (ds : list gate).
Hypothesis Hn : 4 <= n.
Hypothesis C : core a m (n1 n) (n2 n) cs' v1 ds.
Let k1 := first_bits n.
Let k2 := second_bits n.

Lemma lead : n = 2 ^ k1 + (n - 2 ^ k1) /\ 0 <= n - 2 ^ k1 < 2 ^ k1.
Proof.
  unfold k1, first_bits, bit_length. replace (Z.log2 n + 1 - 1) with (Z.log2 n) by lia.
  pose proof (Z.log2_spec n ltac:(lia)) as S. rewrite Z.pow_succ_r in S by apply Z.log2_nonneg. lia.
Qed.
Lemma bits_n j : 0 <= j -> Z.testbit n j = if j =? k1 then true else if j <? k1 then Z.testbit (n - 2 ^ k1) j else false.
Proof.
  intros Hj. destruct lead as [E L]. destruct (size_facts n Hn) as (S1 & _). fold k1 in S1. rewrite E at 1. apply testbit_lead; lia.
Qed.
(* the values of the variables of the product and of the lowest input bits when the inputs are p and q *)
Definition run_of (p q : Z) (r : val) : Prop :=
  gates_true r ds /\ nval r (vars_from 1 (n1 n)) = p /\ nval r (vars_from (1 + k1) (n2 n)) = q.
Lemma run_exists p q : 0 <= p < 2 ^ k1 -> 0 <= q < 2 ^ k2 -> exists r, run_of p q r.
Proof.
  intros Hp Hq. unfold k1, k2 in *. rewrite <- (n1_Z n Hn) in Hp. rewrite <- (n2_Z n Hn) in Hq.
  destruct (core_reaches _ _ _ _ _ _ _ p q C Hp Hq) as (r & D & E1 & E2). exists r. unfold run_of, k1. rewrite <- (n1_Z n Hn). auto.
Qed.
Lemma run_out p q r i : run_of p q r -> bval r (nth i cs' low) = Z.testbit (p * q) (Z.of_nat i).
Proof. intros (D & <- & <-). rewrite nval_testbit, (co_value _ _ _ _ _ _ _ C r D). unfold k1. rewrite <- (n1_Z n Hn). auto. Qed.
Lemma run_a0 p q r : run_of p q r -> r 1 = Z.odd p.
Proof.
  intros (D & <- & _). rewrite <- bit0_odd. change 0 with (Z.of_nat 0). rewrite <- nval_testbit.
  destruct (size_facts n Hn) as (S1 & _). rewrite vars_from_bit by (rewrite Nat2Z.inj_lt, (n1_Z n Hn); lia). f_equal.
Qed.
Lemma run_b0 p q r : run_of p q r -> r (1 + k1) = Z.odd q.
Proof.
  intros (D & _ & <-). rewrite <- bit0_odd. change 0 with (Z.of_nat 0). rewrite <- nval_testbit.
  destruct (size_facts n Hn) as (S1 & S2 & _). rewrite vars_from_bit by (rewrite Nat2Z.inj_lt, (n2_Z n Hn); lia). f_equal. lia.
Qed.
(* the variables whose values are fixed, and an assignment with those values *)
Definition fixed (v : Z) : Prop :=
  (exists i, ~ const (nth i cs' low) /\ var_of (nth i cs' low) = v) \/ (Z.odd n = true /\ (v = 1 \/ v = 1 + k1)).
Definition right (f : val) : Prop :=
  (forall i, ~ const (nth i cs' low) -> bval f (nth i cs' low) = Z.testbit n (Z.of_nat i)) /\
  (Z.odd n = true -> f 1 = true /\ f (1 + k1) = true).
Lemma match_out f p q r i : right f -> run_of p q r -> ~ const (nth i cs' low) ->
  Z.testbit (p * q) (Z.of_nat i) = Z.testbit n (Z.of_nat i) -> r (var_of (nth i cs' low)) = f (var_of (nth i cs' low)).
Proof. intros [R _] Hr Hc E. apply bval_var; auto. rewrite (run_out p q r i Hr), R by auto. auto. Qed.
Lemma all_match f p q r v : right f -> run_of p q r -> p * q = n -> fixed v -> r v = f v.
Proof.
  intros R Hr E [(i & Hc & <-)|(O & Hv)].
  - apply (match_out f p q); auto. rewrite E. auto.
  - destruct R as [_ R]. destruct (R O) as [R1 R2]. rewrite <- E, Z.odd_mul in O. apply andb_prop in O as [O1 O2].
    destruct Hv as [-> | ->]; [rewrite (run_a0 p q r Hr)|rewrite (run_b0 p q r Hr)]; congruence.
Qed.
(* every clause of at most three literals that the multiplier implies survives *)
Lemma clause_survives f c : right f -> 3 <= k1 \/ Z.odd n = false -> (length c <= 3)%nat ->
  (forall b, In b c -> ~ const b /\ fixed (var_of b)) ->
  (forall p q r, 0 <= p < 2 ^ k1 -> 0 <= q < 2 ^ k2 -> run_of p q r -> exists b, In b c /\ bval r b = true) ->
  exists b, In b c /\ bval f b = true.
Proof.
  intros R Hk Hlen Hc HT. destruct (size_facts n Hn) as (S1 & S2 & S3 & S4). fold k1 in S1, S2, S3, S4. fold k2 in S2, S3.
  destruct lead as [En L].
  assert (Q4 : 4 <= 2 ^ k2) by (change 4 with (2 ^ 2); apply Z.pow_le_mono_r; lia).
  assert (Fin : forall p q r, 0 <= p < 2 ^ k1 -> 0 <= q < 2 ^ k2 -> run_of p q r ->
     (forall b, In b c -> r (var_of b) = f (var_of b)) -> exists b, In b c /\ bval f b = true).
  { intros p q r Hp Hq Hr Hm. destruct (HT p q r Hp Hq Hr) as (b & Hb & E). exists b. split; auto. rewrite <- E.
    apply bval_var; [apply Hc; auto|]. symmetry. auto. }
  assert (Hhalf : 2 * (n / 2) <= n < 2 * (n / 2) + 2).
  { pose proof (Z.div_mod n 2). pose proof (Z.mod_pos_bound n 2). lia. }
  destruct (Z.odd n) eqn:O.
  2: { destruct (run_exists (n / 2) 2) as (r & Hr); [lia|lia|].
       apply (Fin (n / 2) 2 r); auto; [lia|lia|]. intros b Hb. apply (all_match f (n / 2) 2); auto; [|apply Hc; auto].
       assert (Ev : Z.even n = true) by (rewrite <- Z.negb_odd, O; auto). apply Z.even_spec in Ev as [h Eh]. rewrite Eh, (Z.mul_comm 2 h), Z.div_mul by lia. auto. }
  destruct Hk as [Hk|]; [|discriminate].
  pose proof (pow_ge k1 Hk) as G4. pose proof (pow_k k1 Hk) as Gk.
  destruct (run_exists (n - 2 ^ k1) 1) as (rA & HA); [lia|lia|].
  destruct (run_exists (n / 2) 2) as (rC & HC); [lia|lia|].
  destruct (run_exists (2 ^ (k1 - 1) + 1) 3) as (r1 & H1); [lia|lia|].
  destruct (run_exists (2 ^ (k1 - 1) - 1) 3) as (r2 & H2); [lia|lia|].
  assert (Odd1 : Z.odd (2 ^ (k1 - 1) + 1) = true) by (rewrite pow_k1 by lia; rewrite Z.odd_add, Z.odd_mul; auto).
  assert (Odd2 : Z.odd (2 ^ (k1 - 1) - 1) = true) by (rewrite pow_k1 by lia; rewrite Z.odd_sub, Z.odd_mul; auto).
  assert (OddA : Z.odd (n - 2 ^ k1) = true) by (rewrite Gk; rewrite Z.odd_sub, Z.odd_mul, O; auto).
  assert (N0 : Z.testbit n 0 = true) by (rewrite bit0_odd; auto).
  assert (Half : forall j, 1 <= j -> Z.testbit (n / 2 * 2) j = Z.testbit n j).
  { intros j Hj. replace j with (Z.succ (j - 1)) by lia. rewrite (Z.mul_comm (n / 2) 2), Z.testbit_even_succ by lia.
    change (n / 2) with (n / 2 ^ 1). rewrite Z.div_pow2_bits by lia. try (f_equal; lia). }
  (* what each run gets right *)
  set (K := fun v => (rA v = f v \/ rC v = f v /\ r1 v = f v /\ r2 v = f v) /\
                     (rC v = f v \/ r1 v = f v /\ r2 v = f v) /\ (r1 v = f v \/ r2 v = f v)).
  assert (HK : forall v, fixed v -> K v).
  { intros v [(i & Hi & <-)|(_ & Hv)].
    - set (v := var_of (nth i cs' low)). assert (MA := fun E => match_out f _ _ _ i R HA Hi E). assert (MC := fun E => match_out f _ _ _ i R HC Hi E).
      assert (M1 := fun E => match_out f _ _ _ i R H1 Hi E). assert (M2 := fun E => match_out f _ _ _ i R H2 Hi E). fold v in MA, MC, M1, M2.
      unfold K. pose proof (bits_n (Z.of_nat i) ltac:(lia)) as Bn. set (j := Z.of_nat i) in *. assert (J0 : 0 <= j) by (unfold j; lia).
      rewrite Z.mul_1_r in MA.
      destruct (Z.eqb_spec j k1) as [Ej|Ej].
      + assert (rC v = f v) by (apply MC, Half; lia).
        assert (r1 v = f v) by (apply M1; rewrite Bn, Ej; apply P1_lead; lia).
        assert (r2 v = f v) by (apply M2; rewrite Bn, Ej; apply P2_lead; lia). tauto.
      + destruct (Z.ltb_spec j k1) as [Lj|Lj].
        * assert (rA v = f v) by (apply MA; auto). destruct (Z.eq_dec j 0) as [E0|E0].
          -- assert (r1 v = f v) by (apply M1; rewrite E0, N0; apply P1_odd; lia).
             assert (r2 v = f v) by (apply M2; rewrite E0, N0; apply P2_odd; lia). tauto.
          -- assert (rC v = f v) by (apply MC, Half; lia).
             pose proof (P_mid k1 Hk j ltac:(lia)) as PM.
             destruct (Z.testbit n j) eqn:Et, (Z.testbit ((2 ^ (k1 - 1) - 1) * 3) j) eqn:E2; cbn in PM.
             ++ assert (r2 v = f v) by (apply M2; congruence). tauto.
             ++ assert (r1 v = f v) by (apply M1; congruence). tauto.
             ++ assert (r1 v = f v) by (apply M1; congruence). tauto.
             ++ assert (r2 v = f v) by (apply M2; congruence). tauto.
        * assert (rA v = f v) by (apply MA; rewrite Bn; apply (testbit_above _ k1); lia).
          assert (rC v = f v) by (apply MC, Half; lia).
          assert (r1 v = f v) by (apply M1; rewrite Bn; apply P1_high; lia).
          assert (r2 v = f v) by (apply M2; rewrite Bn; apply P2_high; lia). tauto.
    - destruct R as [_ R]. destruct (R O) as [R1 R2]. unfold K. destruct Hv as [-> | ->].
      + rewrite (run_a0 _ _ _ HA), (run_a0 _ _ _ H1), (run_a0 _ _ _ H2), R1. intuition.
      + rewrite (run_b0 _ _ _ HA), (run_b0 _ _ _ H1), (run_b0 _ _ _ H2), R2. cbn. intuition. }
  assert (FA : (forall b, In b c -> rA (var_of b) = f (var_of b)) -> exists b, In b c /\ bval f b = true) by (apply (Fin _ _ _) with (3 := HA); lia).
  assert (FC : (forall b, In b c -> rC (var_of b) = f (var_of b)) -> exists b, In b c /\ bval f b = true) by (apply (Fin _ _ _) with (3 := HC); lia).
  assert (F1 : (forall b, In b c -> r1 (var_of b) = f (var_of b)) -> exists b, In b c /\ bval f b = true) by (apply (Fin _ _ _) with (3 := H1); lia).
  assert (F2 : (forall b, In b c -> r2 (var_of b) = f (var_of b)) -> exists b, In b c /\ bval f b = true) by (apply (Fin _ _ _) with (3 := H2); lia).
  assert (KC : forall b, In b c -> K (var_of b)) by (intros b Hb; apply HK, Hc; auto).
  clear -Hlen FA FC F1 F2 KC. unfold K in KC.
  assert (X : (forall b, In b c -> rA (var_of b) = f (var_of b)) \/ (forall b, In b c -> rC (var_of b) = f (var_of b)) \/
              (forall b, In b c -> r1 (var_of b) = f (var_of b)) \/ (forall b, In b c -> r2 (var_of b) = f (var_of b))).
  { destruct c as [|x [|y [|z [|w c]]]]; [left; intros b []| | | |simpl in Hlen; lia].
    - pose proof (KC x (or_introl eq_refl)) as Kx.
      assert (G : forall r : val, r (var_of x) = f (var_of x) -> forall b, In b [x] -> r (var_of b) = f (var_of b)) by (intros r E b [<-|[]]; auto).
      pose proof (G rA). pose proof (G rC). pose proof (G r1). pose proof (G r2). tauto.
    - pose proof (KC x (or_introl eq_refl)) as Kx. pose proof (KC y (or_intror (or_introl eq_refl))) as Ky.
      assert (G : forall r : val, r (var_of x) = f (var_of x) -> r (var_of y) = f (var_of y) -> forall b, In b [x; y] -> r (var_of b) = f (var_of b)) by (intros r E E' b [<-|[<-|[]]]; auto).
      pose proof (G rA). pose proof (G rC). pose proof (G r1). pose proof (G r2). tauto.
    - pose proof (KC x (or_introl eq_refl)) as Kx. pose proof (KC y (or_intror (or_introl eq_refl))) as Ky.
      pose proof (KC z (or_intror (or_intror (or_introl eq_refl)))) as Kz.
      assert (G : forall r : val, r (var_of x) = f (var_of x) -> r (var_of y) = f (var_of y) -> r (var_of z) = f (var_of z) -> forall b, In b [x; y; z] -> r (var_of b) = f (var_of b)) by (intros r E E' E'' b [<-|[<-|[<-|[]]]]; auto).
      pose proof (G rA) as GA. pose proof (G rC) as GC. pose proof (G r1) as G1. pose proof (G r2) as G2. clear G KC FA FC F1 F2 Hlen.
      destruct Kx as ([xA|(xC & x1 & x2)] & KX), Ky as ([yA|(yC & y1 & y2)] & KY), Kz as ([zA|(zC & z1 & z2)] & KZ); auto;
        destruct KX as ([|(? & ?)] & [|]), KY as ([|(? & ?)] & [|]), KZ as ([|(? & ?)] & [|]); auto. }
  tauto.
Qed.
End Fixed.
