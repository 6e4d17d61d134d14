(* PFloat.v -- the doubles and the search of tools/factorize.py *)
From Coq Require Import String Ascii ZArith List Bool Lia Znumtheory.
From Verif Require Import PyBase MText MCnf MFloat PFam1 PFam2 PFam4.
Import ListNotations.
Open Scope Z_scope.

Lemma one_pos : 0 < one. Proof. reflexivity. Qed.
Lemma spacing_facts n : one <= n -> exists j, Z.log2 n - 52 = j /\ 0 <= j /\ 2 ^ 52 * 2 ^ j <= n < 2 ^ 53 * 2 ^ j.
Proof.
  intros H. assert (P : 0 < n) by (pose proof one_pos; lia). exists (Z.log2 n - 52). split; auto.
  assert (J : 52 <= Z.log2 n) by (change 52 with (Z.log2 one); apply Z.log2_le_mono; auto). split; [lia|].
  rewrite <- !Z.pow_add_r by lia. pose proof (Z.log2_spec n P) as S. replace (52 + (Z.log2 n - 52)) with (Z.log2 n) by lia.
  replace (53 + (Z.log2 n - 52)) with (Z.succ (Z.log2 n)) by lia. exact S.
Qed.
(* a double below 2^53 * 2^k that is a multiple of 2^k, against another spacing *)
Lemma grid c k j : 0 < c <= 2 ^ 53 -> 0 <= k -> 0 <= j -> (exists C, c * 2 ^ k = C * 2 ^ j) \/ c * 2 ^ k <= 2 ^ 52 * 2 ^ j.
Proof.
  intros Hc Hk Hj. destruct (Z_le_gt_dec j k) as [L|G].
  - left. exists (c * 2 ^ (k - j)). rewrite <- Z.mul_assoc, <- Z.pow_add_r by lia. do 2 f_equal. lia.
  - right. assert (E : 2 ^ j = 2 * 2 ^ (j - 1)) by (rewrite <- Z.pow_succ_r by lia; f_equal; lia).
    assert (M : 2 ^ k <= 2 ^ (j - 1)) by (apply Z.pow_le_mono_r; lia). assert (0 < 2 ^ k) by (apply Z.pow_pos_nonneg; lia).
    change (2 ^ 53) with (2 * 2 ^ 52) in Hc. rewrite E. nia.
Qed.
Lemma nearest_bounds p q c k : 0 < q <= p -> 0 < c <= 2 ^ 53 -> 0 <= k ->
  (p * one <= c * 2 ^ k * q -> nearest p q <= c * 2 ^ k) /\ (c * 2 ^ k * q <= p * one -> c * 2 ^ k <= nearest p q).
Proof.
  intros Hq Hc Hk. unfold nearest. destruct (Z.eqb_spec p 0) as [->|_]; [lia|]. set (a := p * one) in *. cbv zeta.
  assert (P1 := one_pos). assert (N : one <= a / q) by (apply Z.div_le_lower_bound; [lia|]; unfold a; nia).
  destruct (spacing_facts _ N) as (j & -> & Hj & B). set (s := 2 ^ j) in *. assert (Hs : 0 < s) by (apply Z.pow_pos_nonneg; lia).
  pose proof (Z.div_mod a (q * s) ltac:(nia)) as D. pose proof (Z.mod_pos_bound a (q * s) ltac:(nia)) as R.
  assert (Em : a / (q * s) = a / q / s) by (symmetry; apply Z.div_div; lia).
  assert (Bm : 2 ^ 52 <= a / (q * s)) by (rewrite Em; apply Z.div_le_lower_bound; lia).
  set (m := a / (q * s)) in *. set (r := a mod (q * s)) in *. clearbody m r.
  set (up := (2 * r <? q * s) || ((2 * r =? q * s) && Z.even m)).
  assert (R0 : r = 0 -> up = true) by (intros ->; unfold up; replace (2 * 0 <? q * s) with true by (symmetry; apply Z.ltb_lt; nia); reflexivity).
  assert (Lo : m * s <= (if up then m else m + 1) * s) by (destruct up; nia).
  destruct (grid c k j Hc Hk Hj) as [(C & EC)|S].
  - fold s in EC. rewrite EC. split; intros H.
    + destruct (Z.eq_dec r 0) as [Z0|NZ]; [rewrite (R0 Z0); nia|]. assert (m < C) by nia. destruct up; nia.
    + assert (C <= m). { assert (C * (q * s) < (m + 1) * (q * s)) by nia. nia. } nia.
  - fold s in S. split; intros H.
    + assert (K : 2 ^ 52 * s <= m * s) by nia. assert (X : m * s * q <= c * 2 ^ k * q) by nia. assert (Y : c * 2 ^ k * q <= m * s * q) by nia.
      assert (r = 0) by nia. rewrite R0 by auto. nia.
    + nia.
Qed.
Lemma sqrt_bounds u c k : one <= u -> 0 < c <= 2 ^ 53 -> 0 <= k ->
  (u * one <= (c * 2 ^ k) * (c * 2 ^ k) -> float_sqrt u <= c * 2 ^ k) /\ ((c * 2 ^ k) * (c * 2 ^ k) <= u * one -> c * 2 ^ k <= float_sqrt u).
Proof.
  intros Hu Hc Hk. assert (P1 := one_pos). unfold float_sqrt. destruct (Z.eqb_spec u 0) as [->|_]; [lia|]. set (a := u * one) in *. cbv zeta.
  pose proof (Z.sqrt_spec a ltac:(unfold a; nia)) as [Q1 Q2]. unfold Z.succ in Q2. set (root := Z.sqrt a) in *.
  assert (N : one <= root). { destruct (Z_lt_le_dec root one) as [L|L]; auto. assert (0 <= root) by apply Z.sqrt_nonneg. unfold a in Q2. nia. }
  destruct (spacing_facts _ N) as (j & -> & Hj & B). set (s := 2 ^ j) in *. assert (Hs : 0 < s) by (apply Z.pow_pos_nonneg; lia).
  assert (Bm : 2 ^ 52 <= root / s) by (apply Z.div_le_lower_bound; lia).
  pose proof (Z.div_mod root s ltac:(lia)) as D. pose proof (Z.mod_pos_bound root s ltac:(lia)) as R. set (m := root / s) in *. set (r := root mod s) in *.
  clearbody root m r. set (G := c * 2 ^ k) in *. assert (HG : 0 < G) by (assert (0 < 2 ^ k) by (apply Z.pow_pos_nonneg; lia); unfold G; nia).
  set (up := (4 * a <? (2 * m + 1) * s * ((2 * m + 1) * s)) || ((4 * a =? (2 * m + 1) * s * ((2 * m + 1) * s)) && Z.even m)).
  assert (R0 : a <= (m * s) * (m * s) -> up = true).
  { intros K. unfold up. replace (4 * a <? (2 * m + 1) * s * ((2 * m + 1) * s)) with true by (symmetry; apply Z.ltb_lt; nia). reflexivity. }
  assert (Lo : m * s <= (if up then m else m + 1) * s) by (destruct up; nia).
  destruct (grid c k j Hc Hk Hj) as [(C & EC)|S].
  - fold s G in EC. split; intros H.
    + assert (root <= G) by nia. assert (m <= C) by nia. destruct (Z.eq_dec m C) as [->|Ne]; [rewrite R0 by (rewrite <- EC; auto); lia|]. rewrite EC. destruct up; nia.
    + assert (G <= root) by nia. rewrite EC in *. assert (C <= m) by nia. nia.
  - fold s G in S. split; intros H.
    + assert (root <= G) by nia. assert (K : 2 ^ 52 * s <= m * s) by nia. assert (E : m * s = G) by nia. rewrite R0 by (rewrite E; auto). lia.
    + nia.
Qed.
(* an integer quotient up to 2^53 is exact *)
Lemma nearest_exact q g : 0 < q -> 0 < g <= 2 ^ 53 -> nearest (q * g) q = g * one.
Proof.
  intros Hq Hg. destruct (nearest_bounds (q * g) q g 52 ltac:(nia) Hg ltac:(lia)) as [U L]. change (2 ^ 52) with one in *. pose proof one_pos. nia.
Qed.

(* ---- where the search stops ---- *)
Definition stop_of (x : Z) : Z := int_of_float (float_add1 (float_sqrt (x * one))).
Lemma add1_bounds v c : one <= v -> 0 < c -> c + 1 <= 2 ^ 53 -> (v <= c * one -> float_add1 v <= (c + 1) * one) /\ (c * one <= v -> (c + 1) * one <= float_add1 v).
Proof.
  intros Hv Hc H. unfold float_add1. destruct (nearest_bounds (v + one) one (c + 1) 52 ltac:(pose proof one_pos; lia) ltac:(lia) ltac:(lia)) as [U L].
  change (2 ^ 52) with one in *. pose proof one_pos. split; intros K; [apply U|apply L]; nia.
Qed.
Lemma sqrt_at_least x : 0 < x < 2 ^ 53 -> one <= float_sqrt (x * one).
Proof.
  intros Hx. pose proof one_pos. destruct (sqrt_bounds (x * one) 1 52 ltac:(nia) ltac:(lia) ltac:(lia)) as [_ L]. change (1 * 2 ^ 52) with one in L. apply L. nia.
Qed.
Lemma stop_above x d : 0 < x < 2 ^ 53 -> 1 <= d -> d * d <= x -> d < stop_of x.
Proof.
  intros Hx Hd H. pose proof one_pos. assert (d < 2 ^ 27) by (change (2 ^ 53) with (2 ^ 27 * 2 ^ 26) in Hx; change (2 ^ 27) with (2 * 2 ^ 26) in *; nia). change (2 ^ 27) with 134217728 in *.
  destruct (sqrt_bounds (x * one) d 52 ltac:(nia) ltac:(lia) ltac:(lia)) as [_ L]. change (2 ^ 52) with one in L.
  destruct (add1_bounds (float_sqrt (x * one)) d (sqrt_at_least x Hx) ltac:(lia) ltac:(lia)) as [_ L2].
  unfold stop_of, int_of_float. assert (K : (d + 1) * one <= float_add1 (float_sqrt (x * one))) by (apply L2, L; nia).
  assert (d + 1 <= float_add1 (float_sqrt (x * one)) / one) by (apply Z.div_le_lower_bound; lia). lia.
Qed.
Lemma stop_below x i : 0 < x < 2 ^ 53 -> 3 <= i -> (i | x) -> x < i * i -> stop_of x <= i.
Proof.
  intros Hx Hi [y Hy] H. pose proof one_pos. pose proof (Z.sqrt_spec x ltac:(lia)) as [Q1 Q2]. unfold Z.succ in Q2. set (w := Z.sqrt x) in *.
  assert (Hw : 0 <= w) by apply Z.sqrt_nonneg. assert (w < 2 ^ 27) by (change (2 ^ 53) with (2 ^ 27 * 2 ^ 26) in Hx; change (2 ^ 27) with (2 * 2 ^ 26) in *; nia). change (2 ^ 27) with 134217728 in *.
  clearbody w. assert (w + 1 <= i) by nia. unfold stop_of, int_of_float. destruct (Z.eq_dec (w + 1) i) as [E|N].
  - (* the root is below i - 1/2 *)
    assert (y < i) by nia. assert (X : x <= i * (i - 1)) by nia.
    destruct (sqrt_bounds (x * one) (2 * i - 1) 51 ltac:(nia) ltac:(lia) ltac:(lia)) as [U _].
    assert (E1 : one = 2 * 2 ^ 51) by reflexivity.
    assert (S1 : float_sqrt (x * one) <= (2 * i - 1) * 2 ^ 51).
    { apply U. rewrite E1. assert (4 * x <= (2 * i - 1) * (2 * i - 1)) by nia. assert (0 < 2 ^ 51) by reflexivity. set (z := 2 ^ 51) in *. clearbody z. nia. }
    unfold float_add1. destruct (nearest_bounds (float_sqrt (x * one) + one) one (2 * i + 1) 51 ltac:(pose proof (sqrt_at_least x Hx); lia) ltac:(lia) ltac:(lia)) as [V _].
    assert (S2 : nearest (float_sqrt (x * one) + one) one <= (2 * i + 1) * 2 ^ 51) by (apply V; nia).
    assert (nearest (float_sqrt (x * one) + one) one / one < i + 1) by (apply Z.div_lt_upper_bound; nia). lia.
  - destruct (sqrt_bounds (x * one) (w + 1) 52 ltac:(nia) ltac:(lia) ltac:(lia)) as [U _]. change (2 ^ 52) with one in U.
    destruct (add1_bounds (float_sqrt (x * one)) (w + 1) (sqrt_at_least x Hx) ltac:(lia) ltac:(lia)) as [U2 _].
    assert (K : float_add1 (float_sqrt (x * one)) <= (w + 2) * one) by (replace (w + 2) with (w + 1 + 1) by lia; apply U2, U; nia).
    assert (float_add1 (float_sqrt (x * one)) / one < w + 3) by (apply Z.div_lt_upper_bound; nia). lia.
Qed.

(* ---- the first divisor ---- *)
Lemma odd_range_In stop i : In i (odd_range stop) <-> Z.odd i = true /\ 3 <= i < stop.
Proof.
  unfold odd_range. rewrite in_map_iff. split.
  - intros (k & <- & K). apply range_In in K. split; [rewrite Z.odd_add, Z.odd_mul; reflexivity|]. pose proof (Z.div_mod (stop - 2) 2 ltac:(lia)). pose proof (Z.mod_pos_bound (stop - 2) 2 ltac:(lia)). lia.
  - intros (O & H). apply Z.odd_spec in O as (k & ->). exists (k - 1). split; [lia|]. apply range_In. split; [lia|].
    assert (k <= (stop - 2) / 2) by (apply Z.div_le_lower_bound; lia). lia.
Qed.
Lemma find_least (f : Z -> bool) a n i : find f (map (fun k => 3 + 2 * k) (range a n)) = Some i ->
  f i = true /\ forall d, Z.odd d = true -> 3 + 2 * a <= d < i -> f d = false.
Proof.
  remember (Z.to_nat (n - a)) as m eqn:Em. revert a Em. induction m as [|m IH]; intros a Em.
  - rewrite range_nil by lia. discriminate.
  - rewrite range_cons by lia. cbn [map find]. destruct (f (3 + 2 * a)) eqn:E.
    + intros K. assert (i = 3 + 2 * a) by congruence. subst i. split; auto. intros; lia.
    + intros K. apply IH in K as [K1 K2]; [|lia]. split; auto. intros d O H. destruct (Z.eq_dec d (3 + 2 * a)) as [->|N]; auto.
      apply K2; auto. apply Z.odd_spec in O as (w & ->). lia.
Qed.
Lemma mod_divide x i : 3 <= i -> (x mod i =? 0) = true <-> (i | x).
Proof. intros H. rewrite Z.eqb_eq. apply Z.mod_divide. lia. Qed.
Lemma searched x stop : match find (fun i => x mod i =? 0) (odd_range stop) with
  | Some i => prime i /\ i <> 2 /\ (i | x) /\ i < stop /\ forall p, prime p -> p <> 2 -> (p | x) -> i <= p
  | None => forall d, Z.odd d = true -> 3 <= d < stop -> ~ (d | x)
  end.
Proof.
  destruct (find (fun i => x mod i =? 0) (odd_range stop)) as [i|] eqn:E.
  - assert (I : In i (odd_range stop)) by (eapply find_some; eauto). apply odd_range_In in I as (O & H).
    apply find_least in E as [E1 E2]. apply mod_divide in E1; [|lia].
    assert (Lo : forall d, Z.odd d = true -> 3 <= d -> (d | x) -> i <= d).
    { intros d Od Hd D. destruct (Z_lt_le_dec d i) as [L|L]; auto. specialize (E2 d Od ltac:(lia)). apply mod_divide in D; [|lia]. congruence. }
    assert (P : prime i).
    { destruct (prime_dec i) as [P|P]; auto. exfalso. apply not_prime_divide in P as (n & Hn & D); [|lia].
      assert (On : Z.odd n = true). { destruct D as [z D]. rewrite D, Z.odd_mul in O. apply andb_prop in O. tauto. }
      assert (3 <= n) by (apply Z.odd_spec in On as (w & ->); lia). assert (i <= n); [|lia]. apply Lo; auto. apply Z.divide_trans with i; auto. }
    split; auto. split; [lia|]. split; auto. split; [lia|]. intros p Pp N2 D. apply Lo; auto.
    + destruct (Z.odd p) eqn:Op; auto. exfalso. assert (Ev : Z.even p = true) by (rewrite <- Z.negb_odd, Op; reflexivity). apply Z.even_spec in Ev as (w & Ew).
      destruct Pp as [P1 Rp]. assert (D2 : (2 | p)) by (exists w; lia). pose proof (prime_divisors p (prime_intro p P1 Rp) 2 D2). lia.
    + destruct Pp as [P1 _]. lia.
  - intros d O H D. pose proof (find_none _ _ E d) as N. cbv beta in N. apply mod_divide in D; [|lia]. rewrite N in D; [discriminate|]. apply odd_range_In. auto.
Qed.
Lemma factorize_small x : 0 < x < 2 ^ 53 -> math_sqrt x = Ok (float_sqrt (x * one)).
Proof.
  intros H. unfold math_sqrt, float_of_int. replace (x <? 0) with false by (symmetry; apply Z.ltb_ge; lia).
  assert (2 ^ 53 <= 2 ^ 1024 - 2 ^ 970) by (vm_compute; discriminate). replace (2 ^ 1024 - 2 ^ 970 <=? x) with false by (symmetry; apply Z.leb_gt; lia).
  cbn [bind]. f_equal. f_equal. pose proof (nearest_exact 1 x ltac:(lia) ltac:(lia)) as N. rewrite Z.mul_1_l in N. exact N.
Qed.
