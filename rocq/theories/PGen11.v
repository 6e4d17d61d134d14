(* PGen11.v -- generated formulas under -mult: the value of the asserted variables, what the multiplication
   preprocessor leaves. *)
From Coq Require Import String Ascii ZArith List Bool Lia Permutation Sorted.
From Verif Require Import Spec PyBase MSet MText MQueue MDb MSolver MMain SpecInput SpecRun MGen SpecGen PArith PGen5
  PGen7 PGen8 PGen9 PGen10 PP5 PP6.
Import ListNotations.
Open Scope Z_scope.

Lemma posvar_value f cs : Forall posvar cs -> PGen1.nval f cs = value_of f (map var_of cs).
Proof.
  unfold value_of. induction cs as [|c cs IH]; intros H; [reflexivity|]. inversion H; subst. specialize (IH H3).
  cbn [map bits_value PGen1.nval]. rewrite IH. destruct c; cbn in H2; try tauto; reflexivity.
Qed.
Lemma nth_skip {A} (d : A) : forall k l j, nth j (skipn k l) d = nth (k + j) l d.
Proof. induction k as [|k IH]; intros [|x l] j; cbn [skipn nth Nat.add]; auto. destruct j; auto. Qed.
Lemma nth_first {A} (d : A) : forall k l j, (j < k)%nat -> nth j (firstn k l) d = nth j l d.
Proof. induction k as [|k IH]; intros [|x l] j H; cbn [firstn nth]; auto; [lia|]. destruct j; auto. apply IH. lia. Qed.
Section Product.
Variables (a : adder_arg) (m : multiplier_arg) (n : Z) (cs' : list bit) (v1 : Z) (ds : list gate).
Hypothesis Hn : 4 <= n.
Hypothesis GR : gen_run a m n cs' v1 ds.
Hypothesis arr : array_multiplier m (PGen4.n1 n) (PGen4.n2 n).
Let cs := filter keepBitVar cs'.
Let C : PGen4.core a m (PGen4.n1 n) (PGen4.n2 n) cs' v1 ds := gr_core _ _ _ _ _ _ GR.

Lemma kept_value f : PGen1.gates_true f ds -> PGen1.nval f cs = PGen1.nval f cs'.
Proof.
  intros G. set (K := (PGen4.n1 n + PGen4.n2 n)%nat).
  assert (HK : forall i, (K <= i)%nat -> PGen1.bval f (nth i cs' low) = false).
  { intros i Hi. apply (PGen4.core_high _ _ _ _ _ _ _ i f C Hi G). }
  destruct (cs_prefix a m n cs' v1 ds Hn GR) as [L E]. fold K in L, E. fold cs in E.
  apply Z.bits_inj'. intros i Hi. rewrite <- (Z2Nat.id i Hi). rewrite <- !PGen4.nval_testbit. rewrite E.
  destruct (Nat.lt_ge_cases (Z.to_nat i) K) as [H|H].
  - rewrite app_nth1 by (rewrite firstn_length; lia). f_equal. apply nth_first; auto.
  - rewrite HK by auto. rewrite app_nth2 by (rewrite firstn_length; lia).
    destruct (nth_in_or_default (Z.to_nat i - List.length (firstn K cs')) (filter keepBitVar (skipn K cs')) low) as [X| ->]; [|reflexivity].
    apply filter_In in X as [X _]. apply (In_nth _ _ low) in X as (j & Hj & <-). rewrite nth_skip. apply HK. lia.
Qed.
Lemma asserted_product f : cnf_true f (non_units (formula n cs' ds)) ->
  value_of f (next_vars 0 (first_bits n)) * value_of f (next_vars (first_bits n) (second_bits n)) =
  value_of f (map Z.abs (unit_literals (formula n cs' ds))).
Proof.
  intros H. unfold formula in *. rewrite (F_non_units a m n cs' v1 ds Hn GR arr) in H.
  apply (clauses_of_true v1) in H; [|apply (core_gates_vars a m n cs' v1 ds GR)].
  rewrite (F_units a m n cs' v1 ds Hn GR arr). rewrite asserted_abs by (apply (cs_posvar a m n cs' v1 ds GR arr)).
  rewrite <- posvar_value by (apply (cs_posvar a m n cs' v1 ds GR arr)). fold cs. rewrite kept_value by auto.
  rewrite (PGen4.co_value _ _ _ _ _ _ _ C f H). rewrite n1_Z by auto. rewrite first_value, second_value. auto.
Qed.
Lemma product_reached p q : 0 <= p < 2 ^ first_bits n -> 0 <= q < 2 ^ second_bits n ->
  exists f, cnf_true f (non_units (formula n cs' ds)) /\
    value_of f (next_vars 0 (first_bits n)) = p /\ value_of f (next_vars (first_bits n) (second_bits n)) = q.
Proof.
  intros Hp Hq. rewrite <- (n1_Z n Hn) in Hp. rewrite <- (n2_Z n Hn) in Hq.
  destruct (PGen4.core_reaches _ _ _ _ _ _ _ p q C Hp Hq) as (r & D & E1 & E2). exists r.
  rewrite (n1_Z n Hn) in E2. rewrite first_value in E1. rewrite second_value in E2. split; auto.
  unfold formula. rewrite (F_non_units a m n cs' v1 ds Hn GR arr).
  apply (clauses_of_true v1); auto. apply (core_gates_vars a m n cs' v1 ds GR).
Qed.
End Product.

(* the multiplication preprocessor on a generated file: at least one clause is left and none is emptied *)
Lemma multiply_generated am mm n t root p q rb l1 l2 s' : 4 <= n -> array_sized mm n -> gen_main am mm n = Some t ->
  get_cnf_set (InDimacs t) = Ok root -> 1 < p -> 1 < q -> multiply root p q = Some (rb, l1, l2, s') ->
  raws s' <> [] /\ ~ In [] (raws s').
Proof.
  intros Hn Hr Ht Hg Hp Hq Hmul. destruct (gen_root am mm n t Hn Hr Ht) as (cs' & v1 & ds & root' & rest & GR & arr & Hg' & RO & ER & Hz & B & U & NU & SUB).
  rewrite Hg in Hg'. injection Hg' as <-. destruct (PGen4.size_facts n Hn) as (S1 & S2 & _).
  destruct (p_C43_multiplier root _ _ _ rest p q ER Hz Hp Hq) as [_ M]. destruct (M _ _ _ _ Hmul) as (_ & _ & _ & K1 & K2 & _).
  clear M. set (f1 := first_bits n) in *. set (f2 := second_bits n) in *.
  replace (1 + f1 - 1 + (Z.abs (- (1 + f1 + f2)) - (1 + f1))) with (f1 + f2) in K1 by lia.
  set (d := evaluated_vars s') in *. assert (N : NoDup (dkeys d)) by (rewrite K1; apply next_vars_NoDup).
  assert (Hz' : forall c l, In c (non_units (raws root)) -> In l c -> l <> 0) by (intros c l Hc; apply Hz; apply filter_In in Hc; apply Hc).
  split.
  - intros E0. rewrite K2 in E0. pose proof (all_satisfied d (non_units (raws root)) E0) as AS.
    set (f := override d (fun _ => false)). assert (Ef : extends f d) by (apply override_extends; auto).
    set (v := 1 + f1 + f2). set (f' := upd f v (negb (f v))).
    assert (Ef' : extends f' d).
    { intros w b Hwb. unfold f', upd. destruct (Z.eqb_spec w v) as [->|]; [exfalso|apply Ef; auto].
      apply (in_map fst) in Hwb. cbn [fst] in Hwb. unfold dkeys in K1. rewrite K1 in Hwb. apply next_vars_in in Hwb. unfold v in Hwb. lia. }
    assert (G : forall x, extends x d -> PGen1.gates_true x ds).
    { intros x Hx. pose proof (proj1 (NU x) (AS x Hx Hz')) as X. unfold formula in X. rewrite (F_non_units am mm n cs' v1 ds Hn GR arr) in X.
      apply (clauses_of_true v1) in X; auto. apply (core_gates_vars am mm n cs' v1 ds GR). }
    pose proof (gr_core _ _ _ _ _ _ GR) as C.
    pose proof (PGen4.co_unique _ _ _ _ _ _ _ C f f' (G f Ef) (G f' Ef')) as UQ. rewrite n1_Z, n2_Z in UQ by auto. fold f1 f2 in UQ.
    assert (X : f v = f' v); [|unfold f', upd in X; rewrite Z.eqb_refl in X; destruct (f v); discriminate].
    apply UQ.
    + intros w Hw. unfold f', upd, v. rewrite (proj2 (Z.eqb_neq w (1 + f1 + f2))) by lia. auto.
    + destruct (ds_first am mm n cs' v1 ds Hn GR arr) as (ds' & Eds).
      pose proof (core_gates_vars am mm n cs' v1 ds GR) as CG. rewrite Eds in CG. inversion CG as [|? ? H1 _]. inversion H1 as [|? ? H2 _].
      destruct H2 as [H2 _]. cbn in H2. unfold v. fold f1 f2 in H2. exact H2.
  - intros H0. rewrite K2 in H0. destruct (empty_restricted d (non_units (raws root)) H0 N) as (c & Hc & Hk & _).
    apply filter_In in Hc as [Hc Hl]. destruct (SUB c Hc) as (c0 & Hc0 & EQ).
    unfold formula in Hc0. rewrite (F_split n cs' ds) in Hc0. apply in_app_iff in Hc0 as [Hc0|Hc0].
    + destruct (gate_clause am mm n cs' v1 ds Hn GR arr c0 Hc0) as (_ & _ & x & Hx & Hlt). fold f1 f2 in Hlt.
      unfold cvars in Hx. apply in_map_iff in Hx as (l & <- & Hx). apply EQ in Hx. apply Hk in Hx. rewrite K1 in Hx. apply next_vars_in in Hx. lia.
    + apply in_map_iff in Hc0 as (u & <- & _). pose proof (ro_distinct root RO c Hc) as DV. pose proof (ro_nonempty root RO c Hc) as NE.
      apply negb_true_iff, Nat.eqb_neq in Hl. apply Hl. destruct c as [|x [|y c]]; auto; [congruence|exfalso].
      assert (x = u) by (destruct (proj1 (EQ x) (or_introl eq_refl)) as [|[]]; auto).
      assert (y = u) by (destruct (proj1 (EQ y) (or_intror (or_introl eq_refl))) as [|[]]; auto). subst.
      unfold distinct_vars, cvars in DV. cbn [map] in DV. inversion DV as [|? ? X _]. apply X. left. auto.
Qed.
