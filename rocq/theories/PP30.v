(* PP30.v -- C91: tools/factorize.py *)
From Coq Require Import String Ascii ZArith List Bool Lia Znumtheory Zpow_facts.
From Verif Require Import SpecFloat PyBase MText MCnf MFloat PFam4 PFloat.
Import ListNotations.
Open Scope Z_scope.

(* C91: for every number below 2^53 the program prints the least odd prime divisor and the exact cofactor, and verifies
   them, when there is an odd divisor from 3 up to the root; it fails with TypeError when there is none *)
Lemma p_C91_small : forall prog word more x, py_int word = Some x -> 0 <= x < 2 ^ 53 ->
  let run := factorize_program (prog :: word :: more) in
  ((exists d, in_reach x d) -> exists f g, least_odd_prime_divisor x f /\ x = f * g /\ run = Ok (product_line x f g true)) /\
  (~ (exists d, in_reach x d) -> run = Err TypeError).
Proof.
  intros prog word more x W Hx run. unfold run, factorize_program. rewrite W. cbn [of_option bind].
  destruct (Z.eq_dec x 0) as [->|Nz].
  { split; [intros (d & _ & H & H2 & _); nia|]. intros _. vm_compute. reflexivity. }
  assert (Px : 0 < x < 2 ^ 53) by lia. unfold factorize. rewrite factorize_small by auto. cbn [bind]. fold (stop_of x).
  pose proof (searched x (stop_of x)) as S. destruct (find (fun i => x mod i =? 0) (odd_range (stop_of x))) as [f|].
  - destruct S as (P & N2 & D & L & M). assert (H3 : 3 <= f) by (destruct P; lia).
    split.
    + intros _. pose proof D as [g Eg]. assert (Pg : 0 < g) by nia. exists f, g. split; [exact (conj P (conj N2 (conj D M)))|]. split; [lia|].
      replace (nearest x f) with (nearest (f * g) f) by (f_equal; lia). rewrite nearest_exact by nia. unfold int_of_float. rewrite Z.div_mul by (pose proof one_pos; lia).
      replace (x =? f * g) with true by (symmetry; apply Z.eqb_eq; lia). reflexivity.
    + intros N. exfalso. apply N. exists f. split.
      { destruct (Z.odd f) eqn:Of; auto. exfalso. assert (Ev : Z.even f = true) by (rewrite <- Z.negb_odd, Of; reflexivity). apply Z.even_spec in Ev as (w & Ew).
        assert (D2 : (2 | f)) by (exists w; lia). pose proof (prime_divisors f P 2 D2). lia. }
      split; auto. split; auto. destruct (Z_le_gt_dec (f * f) x) as [K|K]; auto. pose proof (stop_below x f Px H3 D ltac:(lia)). lia.
  - split.
    + intros (d & O & H3 & Sq & D). exfalso. apply (S d O); auto. split; [lia|]. apply stop_above; auto; lia.
    + intros _. reflexivity.
Qed.
(* C91: so odd composite numbers below 2^53 are factored; primes, and even numbers whose odd divisors are all above the
   root, end in TypeError instead of the message that says that they are prime *)
Lemma p_C91_odd : forall prog word more x, py_int word = Some x -> 0 <= x < 2 ^ 53 ->
  let run := factorize_program (prog :: word :: more) in
  (Z.odd x = true -> composite x -> exists f g, least_odd_prime_divisor x f /\ x = f * g /\ 1 < g /\ run = Ok (product_line x f g true)) /\
  (prime x \/ x = 2 * (x / 2) /\ prime (x / 2) \/ x = 2 ^ Z.log2 x \/ x = 0 -> run = Err TypeError).
Proof.
  intros prog word more x W Hx run. destruct (p_C91_small prog word more x W Hx) as [A B]. fold run in A, B. split.
  - intros O (a & b & Ha & Hb & E). rewrite E, Z.odd_mul in O. apply andb_prop in O as [Oa Ob].
    assert (3 <= a) by (apply Z.odd_spec in Oa as (w & ->); lia). assert (3 <= b) by (apply Z.odd_spec in Ob as (w & ->); lia).
    destruct A as (f & g & L & Ex & R).
    { destruct (Z_le_gt_dec a b) as [K|K].
      - exists a. split; auto. split; auto. split; [nia|]. exists b. lia.
      - exists b. split; auto. split; auto. split; [nia|]. exists a. lia. }
    exists f, g. split; auto. split; auto. split; [|auto]. destruct L as (P & N2 & D & M). assert (1 < f) by (destruct P; auto).
    assert (0 < g) by nia. destruct (Z.eq_dec g 1) as [->|]; [|lia]. exfalso. assert (prime x) by (replace x with f by lia; auto).
    assert (Da : (a | x)) by (exists b; lia). pose proof (prime_divisors x H3 a Da). nia.
  - intros C. apply B. intros (d & O & H3 & Sq & D). destruct C as [P|[(E & P)|[E|E]]].
    + pose proof (prime_divisors x P d D). nia.
    + assert (D2 : (d | 2 * (x / 2))) by (rewrite <- E; auto). assert (Gc : rel_prime d 2).
      { apply rel_prime_sym. apply prime_rel_prime; [apply prime_2|]. intros (w & K). rewrite K in O. rewrite Z.odd_mul in O. cbn in O. rewrite andb_false_r in O. discriminate. }
      apply Gauss in D2; auto. pose proof (prime_divisors _ P d D2). assert (d = x / 2) by lia. nia.
    + assert (Gc : rel_prime d (2 ^ Z.log2 x)).
      { apply rel_prime_Zpower_r; [apply Z.log2_nonneg|]. apply rel_prime_sym. apply prime_rel_prime; [apply prime_2|]. intros (w & K). rewrite K in O. rewrite Z.odd_mul in O. cbn in O. rewrite andb_false_r in O. discriminate. }
      rewrite <- E in Gc. destruct Gc as [_ _ G]. pose proof (G d (Z.divide_refl d) D) as D1. apply Z.divide_1_r_nonneg in D1; lia.
    + subst x. nia.
Qed.
(* C91: for any argument: what is printed is a least odd prime divisor, "verified" says whether the second number is the
   cofactor, and it is when the cofactor is at most 2^53; it need not be beyond *)
Lemma p_C91_any : forall prog word more,
  let run := factorize_program (prog :: word :: more) in
  match py_int word with
  | None => run = Err ValueError
  | Some x =>
      (x < 0 -> run = Err ValueError) /\
      (2 ^ 1024 - 2 ^ 970 <= x -> run = Err OverflowError) /\
      (0 <= x < 2 ^ 1024 - 2 ^ 970 -> run = Err TypeError \/
         exists f g v, run = Ok (product_line x f g v) /\ least_odd_prime_divisor x f /\ (v = true <-> x = f * g) /\ (x / f <= 2 ^ 53 -> v = true))
  end /\
  (word = str_Z (3 * (2 ^ 53 + 1)) -> run = Ok (product_line (3 * (2 ^ 53 + 1)) 3 (2 ^ 53) false)).
Proof.
  intros prog word more run. split.
  - unfold run, factorize_program. destruct (py_int word) as [x|] eqn:W; cbn [of_option bind]; [|reflexivity]. unfold factorize, math_sqrt, float_of_int.
    split; [|split].
    + intros H. apply Z.ltb_lt in H. rewrite H. reflexivity.
    + intros H. assert (0 < 2 ^ 1024 - 2 ^ 970) by (vm_compute; reflexivity). replace (x <? 0) with false by (symmetry; apply Z.ltb_ge; lia).
      apply Z.leb_le in H. rewrite H. reflexivity.
    + intros H. replace (x <? 0) with false by (symmetry; apply Z.ltb_ge; lia). replace (2 ^ 1024 - 2 ^ 970 <=? x) with false by (symmetry; apply Z.leb_gt; lia).
      cbn [bind]. destruct (Z.eq_dec x 0) as [->|Nz]; [left; vm_compute; reflexivity|].
      set (stop := int_of_float _). pose proof (searched x stop) as S. destruct (find (fun i => x mod i =? 0) (odd_range stop)) as [f|]; [|left; reflexivity].
      right. destruct S as (P & N2 & D & _ & M). exists f, (int_of_float (nearest x f)), (x =? f * int_of_float (nearest x f)).
      split; [reflexivity|]. split; [exact (conj P (conj N2 (conj D M)))|]. split; [apply Z.eqb_eq|]. intros L. apply Z.eqb_eq.
      pose proof D as [g Eg]. assert (1 < f) by (destruct P; auto). assert (0 < g) by nia. rewrite Eg, Z.div_mul in L by lia.
      replace (nearest x f) with (nearest (f * g) f) by (f_equal; lia). rewrite nearest_exact by lia. unfold int_of_float. rewrite Z.div_mul by (pose proof one_pos; lia). lia.
  - intros ->. unfold run, factorize_program. assert (W : py_int (str_Z (3 * (2 ^ 53 + 1))) = Some (3 * (2 ^ 53 + 1))) by (vm_compute; reflexivity).
    rewrite W. cbn [of_option bind]. unfold factorize. assert (S : math_sqrt (3 * (2 ^ 53 + 1)) = Ok 740312848732945263886336) by (vm_compute; reflexivity).
    rewrite S. cbn [bind]. assert (T : int_of_float (float_add1 740312848732945263886336) = 164382475) by (vm_compute; reflexivity). rewrite T.
    unfold odd_range. rewrite range_cons by (vm_compute; reflexivity). cbn [map find]. replace (3 * (2 ^ 53 + 1) mod (3 + 2 * 0) =? 0) with true by (vm_compute; reflexivity).
    vm_compute. reflexivity.
Qed.
(*EX
(* C91, the hypotheses are met: 91 is factored, 97 and 10 are not; the program run on 91 *)
Example ex_C91_runs : py_int (txt " 91") = Some 91 /\ Z.odd 91 = true /\ composite 91 /\ in_reach 91 7 /\
  factorize_program [txt "factorize.py"; txt " 91"] = Ok (txt "91 = 7 x 13 .. verified = True") /\
  factorize_program [txt "factorize.py"; txt "97"] = Err TypeError /\ factorize_program [txt "factorize.py"; txt "10"] = Err TypeError.
Proof.
  split; [reflexivity|]. split; [reflexivity|]. split; [exists 7, 13; lia|]. split; [split; [reflexivity|]; split; [lia|]; split; [lia|]; exists 13; reflexivity|].
  vm_compute. auto.
Qed.
EX*)
