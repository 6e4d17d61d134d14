(* PGen5.v -- the formula the generator writes. *)
From Coq Require Import ZArith List Bool Lia Arith.
From Verif Require Import Spec MGen SpecGen PGen1 PGen2 PGen3 PGen4.
Import ListNotations.
Open Scope Z_scope.

Definition lit_of (b : bit) : Z := match b with BitVar v => v | NotBitVar v => - v | Bool _ => 0 end.
Definition isvar (v : Z) (b : bit) : Prop := below v b /\ ~ const b.
Lemma isvar_notBit v b : isvar v b -> isvar v (notBit b).
Proof. intros [H C]. split; [apply below_notBit; auto|]. destruct b; auto. Qed.
Lemma lit_of_true v f b : isvar v b -> lit_true f (lit_of b) = bval f b.
Proof.
  intros [H C]. unfold lit_true. destruct b; simpl in *; [tauto| |].
  - rewrite (proj2 (Z.ltb_ge _ _)) by lia. auto.
  - rewrite (proj2 (Z.ltb_lt _ _)) by lia. rewrite Z.opp_involutive. auto.
Qed.
Lemma lit_of_range v b : isvar v b -> 1 <= Z.abs (lit_of b) < v.
Proof. intros [H C]. destruct b; simpl in *; [tauto|lia|lia]. Qed.
Lemma literal_lit_of v b : isvar v b -> literal (lit_of b) = b.
Proof.
  intros [H C]. unfold literal. destruct b; simpl in *; [tauto| |].
  - rewrite (proj2 (Z.ltb_ge _ _)) by lia. auto.
  - rewrite (proj2 (Z.ltb_lt _ _)) by lia. rewrite Z.opp_involutive. auto.
Qed.
Definition gate_bits (g : gate) : list bit := gate_output g :: gate_inputs g.
Lemma gate_ok_bits v0 v1 g : 1 <= v0 -> gate_ok v0 v1 g -> Forall (isvar v1) (gate_bits g).
Proof.
  intros H0 H. unfold gate_bits. destruct g; simpl in *;
    try (destruct H as (x & E & Hx & F); constructor; [rewrite E; split; simpl; [lia|auto]|];
         eapply Forall_impl; [|exact F]; intros y [Y1 Y2]; split; auto; eapply below_mono; [|exact Y1]; lia).
  constructor; auto. 
Qed.
Lemma clause_bits_vars v g c : Forall (isvar v) (gate_bits g) -> In c (gate_clauses g) -> Forall (isvar v) c.
Proof.
  intros F Hc. pose proof (isvar_notBit v) as N. unfold gate_bits in F.
  destruct g as [o a b|o a b|o a b|o s a b|o x]; cbn [gate_output gate_inputs] in F;
    repeat match goal with H : Forall _ (_ :: _) |- _ => inversion H; clear H; subst end;
    [| | | |destruct x]; cbn [gate_clauses In] in Hc;
    repeat (destruct Hc as [Hc|Hc]; [rewrite <- Hc; repeat apply Forall_cons; auto|]); try contradiction.
Qed.
Definition ints (cs : list (list bit)) : list (list Z) := map (map lit_of) cs.
Lemma clause_true_ints v f c : Forall (isvar v) c -> (clause_true f (map lit_of c) <-> exists b, In b c /\ bval f b = true).
Proof.
  intros F. rewrite Forall_forall in F. split.
  - intros (l & Hl & T). apply in_map_iff in Hl as (b & <- & Hb). exists b. split; auto.
    rewrite <- (lit_of_true v f b); auto.
  - intros (b & Hb & T). exists (lit_of b). split; [apply in_map; auto|]. rewrite (lit_of_true v f b); auto.
Qed.
Lemma gate_clauses_true v f g : Forall (isvar v) (gate_bits g) ->
  (cnf_true f (ints (gate_clauses g)) <-> gate_true f g).
Proof.
  intros F.
  assert (X : cnf_true f (ints (gate_clauses g)) <-> forall c, In c (gate_clauses g) -> existsb (bval f) c = true).
  { unfold cnf_true, ints. split.
    - intros H c Hc. apply existsb_exists. apply (clause_true_ints v f c); [eapply clause_bits_vars; eauto|]. apply H. apply in_map; auto.
    - intros H d Hd. apply in_map_iff in Hd as (c & <- & Hc). apply (clause_true_ints v f c); [eapply clause_bits_vars; eauto|].
      apply existsb_exists. apply H; auto. }
  rewrite X. clear X F.
  assert (Y : (forall c, In c (gate_clauses g) -> existsb (bval f) c = true) <-> forallb (existsb (bval f)) (gate_clauses g) = true).
  { rewrite forallb_forall. tauto. }
  rewrite Y. clear Y. destruct g as [o a b|o a b|o a b|o s a b|o x]; [| | | |destruct x]; cbn [gate_clauses forallb existsb gate_true]; rewrite ?bval_notBit.
  - destruct (bval f o), (bval f a), (bval f b); cbn; intuition congruence.
  - destruct (bval f o), (bval f a), (bval f b); cbn; intuition congruence.
  - destruct (bval f o), (bval f a), (bval f b); cbn; intuition congruence.
  - destruct (bval f o), (bval f s), (bval f a), (bval f b); cbn; intuition congruence.
  - destruct (bval f o); cbn; intuition congruence.
  - destruct (bval f o); cbn; intuition congruence.
Qed.
Lemma clauses_of_app a b : clauses_of (a ++ b) = clauses_of a ++ clauses_of b.
Proof. apply flat_map_app. Qed.
Lemma cnf_true_app f a b : cnf_true f (a ++ b) <-> cnf_true f a /\ cnf_true f b.
Proof.
  unfold cnf_true. split.
  - intros H. split; intros c Hc; apply H; apply in_app_iff; auto.
  - intros [H1 H2] c Hc. apply in_app_iff in Hc as [Hc|Hc]; auto.
Qed.
Lemma clauses_of_true v f ds : Forall (fun g => Forall (isvar v) (gate_bits g)) ds ->
  (cnf_true f (ints (clauses_of ds)) <-> gates_true f ds).
Proof.
  induction 1 as [|g ds H _ IH].
  - split; [constructor|intros _ c []].
  - change (clauses_of (g :: ds)) with (gate_clauses g ++ clauses_of ds). unfold ints in *. rewrite map_app, cnf_true_app, IH.
    change (map (map lit_of) (gate_clauses g)) with (ints (gate_clauses g)). rewrite (gate_clauses_true v) by auto.
    unfold gates_true. rewrite Forall_cons_iff. tauto.
Qed.

(* the run of the generator, taken apart *)
Record gen_run (a : adder_arg) (m : multiplier_arg) (n : Z) (cs' : list bit) (v1 : Z) (ds : list gate) : Prop := {
  gr_core : core a m (n1 n) (n2 n) cs' v1 ds;
  gr_gen : generate a m n = Some (Generated (vars_from 1 (n1 n)) (vars_from (1 + first_bits n) (n2 n))
             (filter keepBitVar cs') (v1 - 1)
             (clauses_of (ds ++ assert_gates (filter keepBitVar cs') (map bit_value (int2bits n))))) }.
Lemma n1_Z n : 4 <= n -> Z.of_nat (n1 n) = first_bits n.
Proof. intros H. destruct (size_facts n H). unfold n1. rewrite Z2Nat.id by lia. auto. Qed.
Lemma n2_Z n : 4 <= n -> Z.of_nat (n2 n) = second_bits n.
Proof. intros H. destruct (size_facts n H). unfold n2. rewrite Z2Nat.id by lia. auto. Qed.
Lemma filter_nonconst cs : Forall (fun c => ~ const c) (filter keepBitVar cs).
Proof. apply Forall_forall. intros c Hc. apply filter_In in Hc as [_ H]. apply keep_const; auto. Qed.
Lemma gen_run_exists a m n : 4 <= n -> exists cs' v1 ds, gen_run a m n cs' v1 ds.
Proof.
  intros Hn. destruct (size_facts n Hn) as (S1 & S2 & S3 & S4). destruct (sizes n ltac:(lia)) as [E1 E2].
  pose proof (n1_Z n Hn) as Z1. pose proof (n2_Z n Hn) as Z2.
  destruct (core_exists a m (n1 n) (n2 n)) as (cs' & v1 & ds & C); [lia|lia|].
  exists cs', v1, ds. constructor; auto. unfold generate, sym_multiplier. rewrite E1, E2.
  unfold sym_bind. rewrite new_vars. rewrite seq_length. rewrite new_vars. rewrite seq_length.
  rewrite Z1. pose proof (co_run _ _ _ _ _ _ _ C) as R. rewrite Z1 in R. rewrite R.
  rewrite assert_n_run by apply filter_nonconst. cbn [sym_ret app]. rewrite app_nil_r. auto.
Qed.
Lemma assert_gates_bits v : forall cs vs, Forall (isvar v) cs -> Forall (fun g => Forall (isvar v) (gate_bits g)) (assert_gates cs vs).
Proof. induction cs as [|c cs IH]; intros vs F; cbn [assert_gates]; [apply Forall_nil|].
  inversion F; subst. apply Forall_cons; [|auto]. apply Forall_cons; [assumption|apply Forall_nil]. Qed.
Section Run.
Variables (a : adder_arg) (m : multiplier_arg) (n : Z) (cs' : list bit) (v1 : Z) (ds : list gate).
Hypothesis Hn : 4 <= n.
Hypothesis GR : gen_run a m n cs' v1 ds.
Let cs := filter keepBitVar cs'.
Let asserts := assert_gates cs (map bit_value (int2bits n)).
Let F := ints (clauses_of (ds ++ asserts)).
Let C : core a m (n1 n) (n2 n) cs' v1 ds := gr_core _ _ _ _ _ _ GR.

Lemma outputs_vars : Forall (isvar v1) cs.
Proof.
  apply Forall_forall. intros c Hc. unfold cs in Hc. apply filter_In in Hc as [H1 H2]. split; [|apply keep_const; auto].
  pose proof (co_below _ _ _ _ _ _ _ C) as B. unfold belows in B. rewrite Forall_forall in B. auto.
Qed.
Lemma core_gates_vars : Forall (fun g => Forall (isvar v1) (gate_bits g)) ds.
Proof.
  pose proof (co_gates _ _ _ _ _ _ _ C) as G. eapply Forall_impl; [|exact G]. intros g. apply gate_ok_bits. lia.
Qed.
Lemma all_gates_vars : Forall (fun g => Forall (isvar v1) (gate_bits g)) (ds ++ asserts).
Proof. apply Forall_app. split; [apply core_gates_vars|apply assert_gates_bits, outputs_vars]. Qed.
Lemma model_iff f : cnf_true f F <-> gates_true f ds /\
  nval f (vars_from 1 (n1 n)) * nval f (vars_from (1 + first_bits n) (n2 n)) = n.
Proof.
  unfold F. rewrite (clauses_of_true v1) by apply all_gates_vars. unfold gates_true at 1. rewrite Forall_app.
  fold (gates_true f ds). fold (gates_true f asserts).
  destruct (size_facts n Hn) as (S1 & S2 & S3 & S4). pose proof (n1_Z n Hn) as Z1. pose proof (n2_Z n Hn) as Z2.
  split; intros [H1 H2]; split; auto; unfold asserts, cs in *.
  - apply (core_asserts _ _ _ _ _ _ _ n f C) in H2; [rewrite Z1 in H2; auto|lia|lia| |auto]. rewrite Z1, Z2.
    split; [lia|]. eapply Z.lt_le_trans; [apply S4|]. apply Z.pow_le_mono_r; lia.
  - apply (core_asserts _ _ _ _ _ _ _ n f C); [lia|lia| |auto|rewrite Z1; auto]. rewrite Z1, Z2.
    split; [lia|]. eapply Z.lt_le_trans; [apply S4|]. apply Z.pow_le_mono_r; lia.
Qed.
Lemma first_value f : nval f (vars_from 1 (n1 n)) = value_of f (next_vars 0 (first_bits n)).
Proof.
  rewrite vars_from_value. unfold value_of, next_vars. fold (n1 n). do 2 f_equal. rewrite <- seq_shift, map_map.
  apply map_ext. intros; lia.
Qed.
Lemma second_value f : nval f (vars_from (1 + first_bits n) (n2 n)) = value_of f (next_vars (first_bits n) (second_bits n)).
Proof.
  rewrite vars_from_value. unfold value_of, next_vars. fold (n2 n). do 2 f_equal. rewrite <- seq_shift, map_map.
  apply map_ext. intros; lia.
Qed.
Lemma gen_literals : map (map literal) F = clauses_of (ds ++ asserts).
Proof.
  unfold F, ints. rewrite map_map. rewrite <- (map_id (clauses_of (ds ++ asserts))) at 2. apply map_ext_in. intros c Hc.
  rewrite map_map. rewrite <- (map_id c) at 2. apply map_ext_in. intros b Hb. apply (literal_lit_of v1).
  pose proof all_gates_vars as A. rewrite Forall_forall in A. unfold clauses_of in Hc. apply in_flat_map in Hc as (g & Hg & Hc).
  pose proof (clause_bits_vars v1 g c (A g Hg) Hc) as B. rewrite Forall_forall in B. auto.
Qed.
Lemma gen_vars c l : In c F -> In l c -> 1 <= Z.abs l < v1.
Proof.
  unfold F, ints. intros Hc Hl. apply in_map_iff in Hc as (d & <- & Hc). apply in_map_iff in Hl as (b & <- & Hb).
  apply lit_of_range. pose proof all_gates_vars as A. rewrite Forall_forall in A. unfold clauses_of in Hc. apply in_flat_map in Hc as (g & Hg & Hc).
  pose proof (clause_bits_vars v1 g d (A g Hg) Hc) as B. rewrite Forall_forall in B. auto.
Qed.
Lemma gen_sizes c : In c F -> length c = 1%nat \/ length c = 3%nat.
Proof.
  unfold F, ints. intros Hc. apply in_map_iff in Hc as (d & <- & Hc). rewrite map_length. unfold clauses_of in Hc.
  apply in_flat_map in Hc as (g & Hg & Hc). destruct g as [o x y|o x y|o x y|o s x y|o [|]]; simpl in Hc;
    repeat (destruct Hc as [<-|Hc]; [auto|]); destruct Hc.
Qed.
Lemma gen_models p q : 0 <= p < 2 ^ first_bits n -> 0 <= q < 2 ^ second_bits n -> p * q = n ->
  exists f, cnf_true f F /\ nval f (vars_from 1 (n1 n)) = p /\ nval f (vars_from (1 + first_bits n) (n2 n)) = q.
Proof.
  intros Hp Hq E. rewrite <- (n1_Z n Hn) in *. rewrite <- (n2_Z n Hn) in Hq.
  destruct (core_reaches _ _ _ _ _ _ _ p q C Hp Hq) as (r & D & E1 & E2). exists r. split; auto. apply model_iff.
  rewrite <- (n1_Z n Hn). split; auto. rewrite E1, E2. auto.
Qed.
Lemma gen_unique f f' : cnf_true f F -> cnf_true f' F ->
  nval f (vars_from 1 (n1 n)) = nval f' (vars_from 1 (n1 n)) ->
  nval f (vars_from (1 + first_bits n) (n2 n)) = nval f' (vars_from (1 + first_bits n) (n2 n)) ->
  forall v, 1 <= v < v1 -> f v = f' v.
Proof.
  intros H H' E1 E2. apply model_iff in H as [D _]. apply model_iff in H' as [D' _]. rewrite <- (n1_Z n Hn) in E2.
  apply (co_unique _ _ _ _ _ _ _ C f f' D D'). intros v Hv.
  destruct (Z_le_gt_dec v (Z.of_nat (n1 n))) as [L|L].
  - replace v with (1 + Z.of_nat (Z.to_nat (v - 1))) by lia. rewrite <- !(vars_from_bit 1 (n1 n)) by lia. rewrite !nval_testbit, E1. auto.
  - replace v with (1 + Z.of_nat (n1 n) + Z.of_nat (Z.to_nat (v - 1 - Z.of_nat (n1 n)))) by lia.
    rewrite <- !(vars_from_bit (1 + Z.of_nat (n1 n)) (n2 n)) by lia. rewrite !nval_testbit, E2. auto.
Qed.
End Run.

Lemma factors_fit n p q : 4 <= n -> 1 < p -> p <= q -> n = p * q -> p < 2 ^ second_bits n /\ q < 2 ^ first_bits n.
Proof.
  intros Hn Hp Hpq E. destruct (size_facts n Hn) as (S1 & S2 & S3 & S4). split.
  - destruct (Z_lt_le_dec p (2 ^ second_bits n)) as [|L]; auto. exfalso.
    assert (2 ^ (first_bits n + 1) <= 2 ^ (2 * second_bits n)) by (apply Z.pow_le_mono_r; lia).
    replace (2 * second_bits n) with (second_bits n + second_bits n) in * by lia. rewrite (Z.pow_add_r 2 (second_bits n)) in * by lia.
    pose proof (Z.pow_pos_nonneg 2 (second_bits n)). nia.
  - destruct (Z_lt_le_dec q (2 ^ first_bits n)) as [|L]; auto. exfalso. rewrite Z.pow_add_r in S4 by lia. nia.
Qed.
Lemma fit_factors n p q : 4 <= n -> 0 <= p < 2 ^ first_bits n -> 0 <= q < 2 ^ second_bits n -> p * q = n -> 1 < p /\ 1 < q.
Proof.
  intros Hn Hp Hq E. destruct (size_facts n Hn) as (S1 & S2 & S3 & S4).
  assert (2 ^ second_bits n <= 2 ^ first_bits n) by (apply Z.pow_le_mono_r; lia). nia.
Qed.
Lemma composite_not_prime n : 1 < n -> (composite n <-> ~ Znumtheory.prime n).
Proof.
  intros Hn. split.
  - intros (p & q & Hp & Hq & E) P. assert (D : (p | n)) by (exists q; lia).
    destruct (Znumtheory.prime_divisors n P p D) as [X|[X|[X|X]]]; nia.
  - intros NP. destruct (Znumtheory.not_prime_divide n Hn NP) as (p & Hp & q & E). exists q, p. nia.
Qed.
