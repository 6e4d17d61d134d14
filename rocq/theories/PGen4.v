(* PGen4.v -- the simulated circuits compute; the generated formulas are satisfiable exactly for composite
   numbers and their models are the factorizations. *)
From Coq Require Import ZArith List Bool Lia Arith Znumtheory.
From Verif Require Import Spec MGen SpecGen PGen1 PGen2 PGen3.
Import ListNotations.
Open Scope Z_scope.

(* ---- binary digits ---- *)
Lemma nval_testbit f : forall l i, bval f (nth i l low) = Z.testbit (nval f l) (Z.of_nat i).
Proof.
  induction l as [|b l IH]; intros i.
  - destruct i; cbn [nth nval low bval]; rewrite Z.bits_0; auto.
  - cbn [nval]. destruct i as [|i]; cbn [nth].
    + change (Z.of_nat 0) with 0. rewrite Z.bit0_odd, Z.odd_add, Z.odd_mul. cbn [Z.odd andb]. destruct (bval f b); reflexivity.
    + rewrite IH, Nat2Z.inj_succ. unfold b2z. destruct (bval f b).
      * replace (1 + 2 * nval f l) with (2 * nval f l + 1) by lia. rewrite Z.testbit_odd_succ by lia. auto.
      * rewrite Z.add_0_l, Z.testbit_even_succ by lia. auto.
Qed.
Lemma pos2bits_nval f p : nval f (pos2bits p) = Zpos p.
Proof. induction p; cbn [pos2bits nval high low bval b2z]; rewrite ?IHp; lia. Qed.
Lemma int2bits_nval f n : 0 <= n -> nval f (int2bits n) = n.
Proof. destruct n; simpl; auto; try lia. intros _. apply pos2bits_nval. Qed.
Lemma pos2bits_length p : Z.of_nat (length (pos2bits p)) = Z.log2 (Zpos p) + 1.
Proof.
  induction p; cbn [pos2bits length].
  - rewrite Nat2Z.inj_succ, IHp. replace (Zpos p~1) with (2 * Zpos p + 1) by lia. rewrite Z.log2_succ_double by lia. lia.
  - rewrite Nat2Z.inj_succ, IHp. replace (Zpos p~0) with (2 * Zpos p) by lia. rewrite Z.log2_double by lia. lia.
  - reflexivity.
Qed.
Lemma int2bits_length n : 0 < n -> Z.of_nat (length (int2bits n)) = Z.log2 n + 1.
Proof. destruct n; simpl; try lia. intros _. apply pos2bits_length. Qed.
Lemma int2bits_consts n v : belows v (int2bits n).
Proof.
  assert (H : forall p, belows v (pos2bits p)) by (induction p; constructor; simpl; auto; constructor).
  destruct n; simpl; auto; constructor.
Qed.
Lemma int2bits_values n i : 0 <= n -> nth i (map bit_value (int2bits n)) false = Z.testbit n (Z.of_nat i).
Proof.
  intros H. rewrite <- (int2bits_nval (fun _ => false) n H) at 2. rewrite <- nval_testbit.
  replace false with (bit_value low) at 1 by auto. rewrite map_nth.
  assert (C : forall b, below 1 b -> bit_value b = bval (fun _ => false) b).
  { intros b Hb. apply below_1 in Hb as [x ->]. auto. }
  apply C. apply bit_at_below. apply int2bits_consts.
Qed.
Lemma bits2int_nval f : forall l, belows 1 l -> bits2int l = Some (nval f l).
Proof.
  induction l as [|b l IH]; intros H; auto. inversion H as [|? ? H1 H2]; subst. apply below_1 in H1 as [x ->].
  cbn [bits2int]. rewrite IH by auto. reflexivity.
Qed.

(* ---- simulation ---- *)
Definition std_world : world := W 1 (fun _ => True) [].
Lemma std_world_ok : ok std_logic std_world.
Proof.
  split; [|reflexivity]. split; [cbn; lia|]. split; [intros; split; cbn; auto; constructor|].
  exists (fun _ => false). split; cbn; auto. constructor.
Qed.
Lemma simulated_spec (m : std (list bit)) (z : Z) :
  spec std_logic m std_world (fun r w' => belows (wv w') r /\ forall f, wP w' f -> nval f r = z) -> simulated m = Some z.
Proof.
  intros (r & -> & B & H). cbn [simulated]. rewrite (bits2int_nval (fun _ => false)) by auto. f_equal. apply H.
  split; cbn; auto. constructor.
Qed.
Lemma int2bits_nonempty n : 0 < n -> int2bits n <> [].
Proof. intros H E. pose proof (int2bits_length n H) as L. rewrite E in L. pose proof (Z.log2_nonneg n). simpl in L. lia. Qed.
Lemma test_adder_ok a x y : 0 <= x -> 0 <= y -> 0 < x + y -> test_adder a x y = Some (x + y).
Proof.
  intros Hx Hy H. unfold test_adder. apply simulated_spec. eapply (spec_mono std_circuit std_logic).
  - apply std_world_ok.
  - apply (adder_of_ok std_circuit std_logic a); [apply std_world_ok|apply int2bits_consts|apply int2bits_consts|].
    destruct (Z.eq_dec x 0) as [->|Nx].
    + pose proof (int2bits_nonempty y). destruct (int2bits y); [exfalso; apply H0; auto; lia|simpl; lia].
    + pose proof (int2bits_nonempty x). destruct (int2bits x); [exfalso; apply H0; auto; lia|simpl; lia].
  - intros r w' _ _ (A & _ & B). split; auto. intros f Hf. rewrite (B f Hf), !int2bits_nval by auto. auto.
Qed.
Lemma test_n_adder_ok x y : 0 <= x -> 0 <= y -> test_adder NBit x y = Some (x + y).
Proof.
  intros Hx Hy. apply simulated_spec. eapply (spec_mono std_circuit std_logic).
  - apply std_world_ok.
  - apply (n_adder_spec std_circuit std_logic); [apply std_world_ok|apply int2bits_consts|apply int2bits_consts].
  - intros r w' _ _ (A & _ & B). split; auto. intros f Hf. rewrite (B f Hf), !int2bits_nval by auto. auto.
Qed.
Lemma fast_adder_zero : test_adder Fast 0 0 = None.
Proof. reflexivity. Qed.
Lemma test_sub_ok x y : 0 <= y <= x -> test_sub x y = Some (x - y).
Proof.
  intros H. apply simulated_spec. eapply (spec_mono std_circuit std_logic).
  - apply std_world_ok.
  - apply (subt_spec std_circuit std_logic); [apply std_world_ok|apply int2bits_consts|apply int2bits_consts|].
    intros f _. rewrite !int2bits_nval by lia. lia.
  - intros r w' _ _ (A & _ & B). split; auto. intros f Hf. rewrite (B f Hf), !int2bits_nval by lia. auto.
Qed.
Lemma test_w_adder_ok xs : Forall (fun x => 0 <= x) xs -> test_w_adder xs = Some (fold_right Z.add 0 xs).
Proof.
  intros H. apply simulated_spec. eapply (spec_mono std_circuit std_logic).
  - apply std_world_ok.
  - assert (X : forall rounds xss, (length xss <= rounds)%nat -> Forall (belows (wv std_world)) xss ->
      spec std_logic (w_adder_rounds std_circuit rounds (n_adder std_circuit) xss) std_world
        (fun r w' => belows (wv w') r /\ forall f, wP w' f -> nval f r = total f xss)).
    { intros rounds xss Hl HB. destruct (Nat.eq_dec (length xss) 2) as [E|E].
      - destruct xss as [|a [|b [|]]]; try discriminate. inversion HB as [|? ? B1 B]; subst. inversion B; subst.
        assert (Ew : w_adder_rounds std_circuit rounds (n_adder std_circuit) [a; b] = n_adder std_circuit a b) by (destruct rounds; auto).
        rewrite Ew. eapply (spec_mono std_circuit std_logic); [apply std_world_ok|apply (n_adder_spec std_circuit std_logic); auto; apply std_world_ok|].
        intros r w' _ _ (A1 & _ & A2). split; auto. intros f Hf. rewrite (A2 f Hf). unfold total. simpl. lia.
      - apply (w_adder_spec std_circuit std_logic); auto; [apply n_adder_ok|apply std_world_ok|]. intros E'; congruence. }
    apply (X (length (map int2bits xs))); auto. apply Forall_forall. intros l Hl. apply in_map_iff in Hl as (x & <- & _). apply int2bits_consts.
  - intros r w' _ _ [A B]. split; auto. intros f Hf. rewrite (B f Hf). unfold total. rewrite map_map. clear -H.
    induction H as [|x xs Hx _ IH]; auto. cbn [map zsum fold_right]. rewrite int2bits_nval by auto. unfold zsum in IH. rewrite IH. auto.
Qed.
Lemma test_multiplier_ok a m x y : 0 < x -> 0 < y -> test_multiplier a m x y = Some (x * y).
Proof.
  intros Hx Hy. apply simulated_spec. eapply (spec_mono std_circuit std_logic).
  - apply std_world_ok.
  - apply (multiplier_of_ok std_circuit std_logic a m); [apply int2bits_nonempty; auto|apply int2bits_nonempty; auto|apply std_world_ok|apply int2bits_consts|apply int2bits_consts].
  - intros r w' _ _ [A B]. split; auto. intros f Hf. rewrite (B f Hf), !int2bits_nval by lia. auto.
Qed.

(* ---- generation ---- *)
Definition vars_from (v : Z) (k : nat) : list bit := map (fun i => BitVar (v + Z.of_nat i)) (seq 0 k).
Lemma new_vars {A} : forall (l : list A) v, mapM sym_circuit (fun _ => newBitVar) l v = Done (vars_from v (length l)) (v + Z.of_nat (length l)) [].
Proof.
  induction l as [|a l IH]; intros v.
  - cbn. rewrite Z.add_0_r. reflexivity.
  - cbn [mapM sym_circuit bindM ret]. unfold sym_bind at 1. cbn [newBitVar]. unfold sym_bind at 1. rewrite IH.
    cbn [sym_ret app length]. f_equal; [|lia]. unfold vars_from. cbn [seq map]. rewrite Z.add_0_r. f_equal.
    rewrite <- seq_shift, map_map. apply map_ext. intros i. f_equal. lia.
Qed.
Lemma vars_from_length v k : length (vars_from v k) = k.
Proof. unfold vars_from. rewrite map_length, seq_length. auto. Qed.
Lemma vars_from_below v k : 1 <= v -> belows (v + Z.of_nat k) (vars_from v k).
Proof. intros H. apply Forall_forall. intros b Hb. apply in_map_iff in Hb as (i & <- & Hi). apply in_seq in Hi. simpl. lia. Qed.
Lemma vars_from_bit v k i f : (i < k)%nat -> bval f (nth i (vars_from v k) low) = f (v + Z.of_nat i).
Proof.
  intros H. unfold vars_from. rewrite nth_indep with (d' := BitVar (v + Z.of_nat 0)) by (rewrite map_length, seq_length; auto).
  change (BitVar (v + Z.of_nat 0)) with ((fun i => BitVar (v + Z.of_nat i)) 0%nat). rewrite map_nth, seq_nth by auto. reflexivity.
Qed.
Lemma vars_from_value f v k : nval f (vars_from v k) = bits_value (map f (map (fun i => v + Z.of_nat i) (seq 0 k))).
Proof. unfold vars_from. induction (seq 0 k) as [|i l IH]; cbn [map nval bits_value bval]; auto. rewrite IH. reflexivity. Qed.

Fixpoint assert_gates (cs : list bit) (vs : list bool) : list gate :=
  match cs with [] => [] | c :: t => GAssert c (hd false vs) :: assert_gates t (tl vs) end.
Lemma assert_n_run : forall cs vs v, Forall (fun c => ~ const c) cs ->
  assert_n sym_circuit cs vs v = Done tt v (assert_gates cs vs).
Proof.
  induction cs as [|c cs IH]; intros vs v F; auto. inversion F as [|? ? Hc F']; subst.
  cbn [assert_n sym_circuit bindM assert1]. unfold sym_bind.
  assert (E : sym_assert1 c (hd false vs) v = Done tt v [GAssert c (hd false vs)]) by (destruct c; [exfalso; apply Hc; simpl; auto|auto|auto]).
  rewrite E. rewrite IH by auto. reflexivity.
Qed.
Lemma assert_gates_true f : forall cs vs, gates_true f (assert_gates cs vs) <->
  forall i, (i < length cs)%nat -> bval f (nth i cs low) = nth i vs false.
Proof.
  induction cs as [|c cs IH]; intros vs; cbn [assert_gates].
  - split; [intros _ i Hi; simpl in Hi; lia|constructor].
  - unfold gates_true in *. rewrite Forall_cons_iff, IH. cbn [gate_true]. split.
    + intros [H1 H2] [|i] Hi; cbn [nth].
      * rewrite H1. destruct vs; auto.
      * rewrite H2 by (simpl in Hi; lia). destruct vs; auto. simpl. destruct i; auto.
    + intros H. split.
      * specialize (H 0%nat (Nat.lt_0_succ _)). cbn [nth] in H. rewrite H. destruct vs; auto.
      * intros i Hi. specialize (H (S i)). cbn [nth length] in H. rewrite H by lia. destruct vs; auto. simpl. destruct i; auto.
Qed.

(* sizes *)
Definition n1 (n : Z) : nat := Z.to_nat (first_bits n).
Definition n2 (n : Z) : nat := Z.to_nat (second_bits n).
Lemma div2_Z k : Z.of_nat (Nat.div2 k) = Z.of_nat k / 2.
Proof. rewrite Nat.div2_div, Nat2Z.inj_div. reflexivity. Qed.
Lemma sizes n : 0 < n -> (length (int2bits n) - 1)%nat = n1 n /\ Nat.div2 (length (int2bits n) + 1) = n2 n.
Proof.
  intros H. pose proof (int2bits_length n H) as L. pose proof (Z.log2_nonneg n). unfold n1, n2, first_bits, second_bits, bit_length. split.
  - lia.
  - apply Nat2Z.inj. rewrite div2_Z, Z2Nat.id by (apply Z.div_pos; lia). rewrite Nat2Z.inj_add, L. reflexivity.
Qed.
Lemma size_facts n : 4 <= n -> 2 <= first_bits n /\ 2 <= second_bits n <= first_bits n /\
  first_bits n + 1 <= 2 * second_bits n /\ 2 ^ first_bits n <= n < 2 ^ (first_bits n + 1).
Proof.
  intros H. unfold first_bits, second_bits, bit_length. replace (Z.log2 n + 1 - 1) with (Z.log2 n) by lia.
  assert (L : 2 <= Z.log2 n) by (change 2 with (Z.log2 4) at 1; apply Z.log2_le_mono; auto).
  pose proof (Z.log2_spec n ltac:(lia)) as LS. replace (Z.succ (Z.log2 n)) with (Z.log2 n + 1) in * by lia.
  split; auto. split; [|split; [|lia]].
  - split; [apply Z.div_le_lower_bound; lia|]. apply Z.div_le_upper_bound; lia.
  - pose proof (Z.div_mod (Z.log2 n + 1 + 1) 2). pose proof (Z.mod_pos_bound (Z.log2 n + 1 + 1) 2). lia.
Qed.

(* ---- the multiplier inside the generated formula ---- *)
Record core (a : adder_arg) (m : multiplier_arg) (k1 k2 : nat) (cs' : list bit) (v1 : Z) (ds : list gate) : Prop := {
  co_run : multiplier_of sym_circuit a m (vars_from 1 k1) (vars_from (1 + Z.of_nat k1) k2) (1 + Z.of_nat k1 + Z.of_nat k2) = Done cs' v1 ds;
  co_le : 1 + Z.of_nat k1 + Z.of_nat k2 <= v1;
  co_gates : Forall (gate_ok (1 + Z.of_nat k1 + Z.of_nat k2) v1) ds;
  co_below : belows v1 cs';
  co_complete : forall r, exists r', agree (1 + Z.of_nat k1 + Z.of_nat k2) r r' /\ gates_true r' ds;
  co_unique : forall r r', gates_true r ds -> gates_true r' ds -> agree (1 + Z.of_nat k1 + Z.of_nat k2) r r' -> agree v1 r r';
  co_value : forall r, gates_true r ds -> nval r cs' = nval r (vars_from 1 k1) * nval r (vars_from (1 + Z.of_nat k1) k2) }.
Lemma core_exists a m k1 k2 : (0 < k1)%nat -> (0 < k2)%nat -> exists cs' v1 ds, core a m k1 k2 cs' v1 ds.
Proof.
  intros H1 H2. set (v0 := 1 + Z.of_nat k1 + Z.of_nat k2). set (w := W v0 (fun _ => True) []).
  assert (G : good w).
  { split; [unfold w, v0; cbn [wv]; lia|]. split; [intros; split; cbn; auto; constructor|]. exists (fun _ => false). split; cbn; auto. constructor. }
  destruct (multiplier_of_ok sym_circuit sym_logic a m (vars_from 1 k1) (vars_from (1 + Z.of_nat k1) k2)) with (w := w)
    as (cs' & v1 & ds & E & (R1 & R2 & R3 & R4) & B & V); auto.
  - intros E. pose proof (vars_from_length 1 k1) as L. rewrite E in L. simpl in L. lia.
  - intros E. pose proof (vars_from_length (1 + Z.of_nat k1) k2) as L. rewrite E in L. simpl in L. lia.
  - eapply belows_mono; [|apply vars_from_below; lia]. unfold w, v0; cbn [wv]; lia.
  - apply vars_from_below. lia.
  - exists cs', v1, ds. cbn [wv w] in *. constructor; auto.
    + intros r. apply R3. split; cbn; auto. constructor.
    + intros r Hr. apply V. apply after_P. split; auto. split; cbn; auto. constructor.
Qed.
(* an assignment giving the inputs the values p and q *)
Definition input_val (k1 : nat) (p q : Z) : val :=
  fun v => if v <=? Z.of_nat k1 then Z.testbit p (v - 1) else Z.testbit q (v - 1 - Z.of_nat k1).
Lemma bits_eq f v k z : 0 <= z < 2 ^ Z.of_nat k -> (forall i, (i < k)%nat -> f (v + Z.of_nat i) = Z.testbit z (Z.of_nat i)) ->
  nval f (vars_from v k) = z.
Proof.
  intros Hz H. apply Z.bits_inj'. intros i Hi. rewrite <- (Z2Nat.id i Hi). rewrite <- nval_testbit.
  destruct (Nat.lt_ge_cases (Z.to_nat i) k) as [L|L].
  - rewrite vars_from_bit by auto. apply H; auto.
  - rewrite nth_overflow by (rewrite vars_from_length; auto). cbn [low bval]. symmetry.
    destruct (Z.eq_dec z 0) as [->|]; [apply Z.bits_0|]. apply Z.bits_above_log2; [lia|].
    apply Z.log2_lt_pow2; [lia|]. eapply Z.lt_le_trans; [apply Hz|]. apply Z.pow_le_mono_r; lia.
Qed.
Lemma input_val_values k1 k2 p q : 0 <= p < 2 ^ Z.of_nat k1 -> 0 <= q < 2 ^ Z.of_nat k2 ->
  nval (input_val k1 p q) (vars_from 1 k1) = p /\ nval (input_val k1 p q) (vars_from (1 + Z.of_nat k1) k2) = q.
Proof.
  intros Hp Hq. split; apply bits_eq; auto; intros i Hi; unfold input_val.
  - rewrite (proj2 (Z.leb_le _ _)) by lia. f_equal. lia.
  - rewrite (proj2 (Z.leb_gt _ _)) by lia. f_equal. lia.
Qed.
Lemma core_reaches a m k1 k2 cs' v1 ds p q : core a m k1 k2 cs' v1 ds ->
  0 <= p < 2 ^ Z.of_nat k1 -> 0 <= q < 2 ^ Z.of_nat k2 ->
  exists r, gates_true r ds /\ nval r (vars_from 1 k1) = p /\ nval r (vars_from (1 + Z.of_nat k1) k2) = q.
Proof.
  intros C Hp Hq. destruct (co_complete _ _ _ _ _ _ _ C (input_val k1 p q)) as (r & A & D). exists r. split; auto.
  destruct (input_val_values k1 k2 p q Hp Hq) as [E1 E2]. split.
  - rewrite <- E1. symmetry. apply (nval_agree _ _ _ _ A). eapply belows_mono; [|apply vars_from_below; lia]. lia.
  - rewrite <- E2. symmetry. apply (nval_agree _ _ _ _ A). apply vars_from_below. lia.
Qed.
(* the product bits are no constants, and bits beyond the size of the product are zero *)
Lemma core_bits a m k1 k2 cs' v1 ds i : core a m k1 k2 cs' v1 ds -> (2 <= k1)%nat -> (2 <= k2)%nat ->
  (i < k1 + k2)%nat -> ~ const (nth i cs' low).
Proof.
  intros C H1 H2 Hi Hc.
  assert (P1 : 0 < 2 ^ Z.of_nat k1) by (apply Z.pow_pos_nonneg; lia).
  assert (P2 : 0 < 2 ^ Z.of_nat k2) by (apply Z.pow_pos_nonneg; lia).
  assert (X : forall p q, 0 <= p < 2 ^ Z.of_nat k1 -> 0 <= q < 2 ^ Z.of_nat k2 ->
    bit_value (nth i cs' low) = Z.testbit (p * q) (Z.of_nat i)).
  { intros p q Hp Hq. destruct (core_reaches _ _ _ _ _ _ _ p q C Hp Hq) as (r & D & Ep & Eq).
    rewrite <- Ep, <- Eq, <- (co_value _ _ _ _ _ _ _ C r D), <- nval_testbit. destruct (nth i cs' low); auto; destruct Hc. }
  assert (F : bit_value (nth i cs' low) = false) by (rewrite (X 0 0) by lia; apply Z.bits_0).
  destruct (Nat.eq_dec i (k1 + k2 - 1)) as [E|E].
  - rewrite (X (2 ^ Z.of_nat k1 - 1) (2 ^ Z.of_nat k2 - 1)) in F by lia.
    assert (Q1 : 4 <= 2 ^ Z.of_nat k1) by (change 4 with (2 ^ 2); apply Z.pow_le_mono_r; lia).
    assert (Q2 : 4 <= 2 ^ Z.of_nat k2) by (change 4 with (2 ^ 2); apply Z.pow_le_mono_r; lia).
    assert (T : Z.log2 ((2 ^ Z.of_nat k1 - 1) * (2 ^ Z.of_nat k2 - 1)) = Z.of_nat i).
    { apply Z.log2_unique; [lia|]. replace (Z.succ (Z.of_nat i)) with (Z.of_nat k1 + Z.of_nat k2) by lia.
      rewrite Z.pow_add_r by lia. assert (Ei : 2 * 2 ^ Z.of_nat i = 2 ^ Z.of_nat k1 * 2 ^ Z.of_nat k2).
      { rewrite <- Z.pow_succ_r, <- Z.pow_add_r by lia. f_equal. lia. }
      nia. }
    rewrite <- T, Z.bit_log2 in F; [discriminate|nia].
  - set (s := Nat.min i (k1 - 1)). set (t := (i - s)%nat).
    rewrite (X (2 ^ Z.of_nat s) (2 ^ Z.of_nat t)) in F.
    + rewrite <- Z.pow_add_r, Z.pow2_bits_eqb in F by lia. apply Z.eqb_neq in F. unfold t, s in F. lia.
    + split; [apply Z.pow_nonneg; lia|]. apply Z.pow_lt_mono_r; unfold s; lia.
    + split; [apply Z.pow_nonneg; lia|]. apply Z.pow_lt_mono_r; unfold t, s; lia.
Qed.
Lemma core_high a m k1 k2 cs' v1 ds i r : core a m k1 k2 cs' v1 ds -> (k1 + k2 <= i)%nat -> gates_true r ds ->
  bval r (nth i cs' low) = false.
Proof.
  intros C Hi D. rewrite nval_testbit, (co_value _ _ _ _ _ _ _ C r D).
  pose proof (nval_range r (vars_from 1 k1)) as R1. pose proof (nval_range r (vars_from (1 + Z.of_nat k1) k2)) as R2.
  rewrite vars_from_length in R1, R2. set (p := nval r (vars_from 1 k1)) in *. set (q := nval r (vars_from (1 + Z.of_nat k1) k2)) in *.
  destruct (Z.eq_dec (p * q) 0) as [->|]; [apply Z.bits_0|]. apply Z.bits_above_log2; [nia|].
  apply Z.log2_lt_pow2; [nia|]. apply Z.lt_le_trans with (2 ^ (Z.of_nat k1 + Z.of_nat k2)); [|apply Z.pow_le_mono_r; lia].
  rewrite Z.pow_add_r by lia. nia.
Qed.
Lemma keep_const b : keepBitVar b = true <-> ~ const b.
Proof. destruct b; simpl; split; auto; try discriminate; tauto. Qed.
Lemma filter_prefix : forall k l, (forall i, (i < k)%nat -> ~ const (nth i l low)) ->
  (k <= length l)%nat /\ firstn k (filter keepBitVar l) = firstn k l /\
  filter keepBitVar l = firstn k l ++ filter keepBitVar (skipn k l).
Proof.
  induction k as [|k IH]; intros l H; [repeat split; auto; lia|].
  destruct l as [|b l].
  - exfalso. apply (H 0%nat); [lia|]. simpl. auto.
  - assert (Hb : keepBitVar b = true) by (apply keep_const; apply (H 0%nat); lia).
    destruct (IH l) as (A & B & C). { intros i Hi. apply (H (S i)); lia. }
    cbn [filter length firstn skipn]. rewrite Hb. cbn [firstn app]. repeat split; [lia|f_equal; auto|f_equal; auto].
Qed.
(* which assignments satisfy the assertions *)
Lemma core_asserts a m k1 k2 cs' v1 ds n r : core a m k1 k2 cs' v1 ds -> (2 <= k1)%nat -> (2 <= k2)%nat ->
  0 <= n < 2 ^ (Z.of_nat k1 + Z.of_nat k2) -> gates_true r ds ->
  (gates_true r (assert_gates (filter keepBitVar cs') (map bit_value (int2bits n))) <->
   nval r (vars_from 1 k1) * nval r (vars_from (1 + Z.of_nat k1) k2) = n).
Proof.
  intros C H1 H2 Hn D. rewrite <- (co_value _ _ _ _ _ _ _ C r D). rewrite assert_gates_true.
  destruct (filter_prefix (k1 + k2) cs') as (Len & _ & Ef). { intros i Hi. eapply core_bits; eauto. }
  assert (Hhigh : forall i, (k1 + k2 <= i)%nat -> Z.testbit n (Z.of_nat i) = false).
  { intros i Hi. destruct (Z.eq_dec n 0) as [->|]; [apply Z.bits_0|]. apply Z.bits_above_log2; [lia|].
    apply Z.log2_lt_pow2; [lia|]. eapply Z.lt_le_trans; [apply Hn|]. apply Z.pow_le_mono_r; lia. }
  assert (Llow : forall i, (i < k1 + k2)%nat -> nth i (filter keepBitVar cs') low = nth i cs' low).
  { intros i Hi. rewrite Ef, app_nth1 by (rewrite firstn_length_le; auto).
    rewrite <- (firstn_skipn (k1 + k2) cs') at 2. rewrite app_nth1 by (rewrite firstn_length_le; auto). auto. }
  split.
  - intros H. apply Z.bits_inj'. intros i Hi. rewrite <- (Z2Nat.id i Hi), <- nval_testbit.
    destruct (Nat.lt_ge_cases (Z.to_nat i) (k1 + k2)) as [L|L].
    + rewrite <- Llow by auto. rewrite H.
      * apply int2bits_values; lia.
      * rewrite Ef, app_length, firstn_length_le by auto. lia.
    + rewrite (core_high _ _ _ _ _ _ _ _ _ C L D). symmetry. apply Hhigh; auto.
  - intros E i Hi. rewrite int2bits_values by lia. destruct (Nat.lt_ge_cases i (k1 + k2)) as [L|L].
    + rewrite Llow, nval_testbit, E by auto. auto.
    + rewrite Hhigh by auto. rewrite Ef, app_length, firstn_length_le in Hi by auto.
      rewrite Ef, app_nth2 by (rewrite firstn_length_le; auto). rewrite firstn_length_le by auto.
      assert (Hin : In (nth (i - (k1 + k2)) (filter keepBitVar (skipn (k1 + k2) cs')) low) (skipn (k1 + k2) cs')).
      { eapply proj1, filter_In. apply nth_In. lia. }
      apply (In_nth _ _ low) in Hin as (j & Hj & Ej). rewrite <- Ej.
      assert (Es : nth j (skipn (k1 + k2) cs') low = nth (k1 + k2 + j) cs' low).
      { rewrite <- (firstn_skipn (k1 + k2) cs') at 2. rewrite app_nth2 by (rewrite firstn_length_le by auto; lia).
        rewrite firstn_length_le by auto. f_equal. lia. }
      rewrite Es. eapply core_high; eauto. lia.
Qed.
