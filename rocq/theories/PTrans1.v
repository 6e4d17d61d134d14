(* PTrans1.v -- random formulas *)
From Coq Require Import String Ascii ZArith List Bool Lia Arith Permutation Sorted.
From Verif Require Import Spec PyBase MSet MText MCnf MFam MTrans SpecCnf SpecFam SpecTrans PText PLib PCnf1 PCnf2 PFam1 PFam2 PFam3 PFam4 PFam5 PFam6 PFam7 PFam8 PFam12.
Import ListNotations.
Open Scope Z_scope.

Lemma rnd_name_inj i j : rnd_name i = rnd_name j -> i = j.
Proof. unfold rnd_name. intros H. apply app_inv_head in H. apply str_Z_inj. auto. Qed.
Lemma satisfied_ok cls planted : clause_satisfied cls planted = true <-> forall asg, In asg planted -> exists p v, In (p, v) cls /\ asg v = Some p.
Proof.
  unfold clause_satisfied. rewrite forallb_forall. split; intros H asg Ha; specialize (H asg Ha).
  - apply existsb_exists in H as ([p v] & Hl & E). cbn [fst snd] in E. destruct (asg v) as [b|] eqn:K; [|discriminate]. apply eqb_prop in E. subst. eauto.
  - destruct H as (p & v & Hl & E). apply existsb_exists. exists (p, v). split; auto. cbn [fst snd]. rewrite E. apply eqb_reflx.
Qed.
Lemma map_combine_snd {A B} (l : list A) (l' : list B) : List.length l = List.length l' -> map snd (combine l l') = l'.
Proof. revert l'. induction l; intros [|y l'] H; cbn in *; auto; try discriminate. f_equal. auto. Qed.
Lemma combine_split_self {A B} (l : list (A * B)) : combine (map fst l) (map snd l) = l.
Proof. induction l as [|[x y] l IH]; cbn; auto. f_equal. auto. Qed.
Definition shape (k : nat) (n : Z) (cls : list (bool * text)) : Prop :=
  exists l, StronglySorted Z.lt l /\ (forall i, In i l -> 1 <= i <= n) /\ List.length l = k /\ map snd cls = map rnd_name l.
Lemma k_clause_shape k n planted cls : 0 <= k -> (k_clause k n planted cls <-> shape (Z.to_nat k) n cls /\ clause_satisfied cls planted = true).
Proof.
  intros Hk. rewrite satisfied_ok. split.
  - intros [(l & A & B & C & D) P]. split; auto. exists l. split; auto. split; auto. split; [lia|auto].
  - intros [(l & A & B & C & D) P]. split; auto. exists l. split; auto. split; auto. split; [lia|auto].
Qed.
Lemma random_clause_shape R t k n : lawful R -> (Z.of_nat k <= n) -> shape k n (random_clause R t (range 1 (n + 1)) k).
Proof.
  intros W H. unfold random_clause. cbv zeta. destruct (lw_sample R W t (range 1 (n + 1)) k) as (A & B & C); [rewrite range_length; lia|apply range_NoDup|].
  set (l := sort_by Z.ltb (rnd_sample R t (range 1 (n + 1)) k)). exists l. split; [apply sorted_strict; auto|]. split; [|split].
  - intros i Hi. apply sorted_In in Hi. apply C in Hi. apply range_In in Hi. lia.
  - unfold l. rewrite <- A at 2. apply Permutation_length. apply sort_by_Perm.
  - apply map_combine_snd. rewrite !map_length, seq_length. auto.
Qed.
Lemma same_clause_ok a b : same_clause a b = true <-> a = b.
Proof. unfold same_clause. destruct (list_eq_dec literal_dec a b); split; congruence. Qed.
Lemma set_add_In cls s x : In x (set_add cls s) <-> x = cls \/ In x s.
Proof.
  unfold set_add. destruct (existsb (same_clause cls) s) eqn:E.
  - apply existsb_exists in E as (y & Hy & K). apply same_clause_ok in K. subst y. split; [auto|intros [->|]; auto].
  - rewrite in_app_iff. cbn. split; [intros [|[|[]]]; auto|intros [|]; auto].
Qed.
Lemma set_add_NoDup cls s : NoDup s -> NoDup (set_add cls s).
Proof.
  intros N. unfold set_add. destruct (existsb (same_clause cls) s) eqn:E; auto. apply NoDup_app_intro; auto; [constructor; [intros []|constructor]|].
  intros x Hx [<-|[]]. assert (existsb (same_clause cls) s = true); [|congruence]. apply existsb_exists. exists cls. split; auto. apply same_clause_ok. auto.
Qed.
Lemma set_add_length cls s : (List.length (set_add cls s) <= S (List.length s))%nat.
Proof. unfold set_add. destruct (existsb _ _); [lia|]. rewrite app_length. cbn. lia. Qed.
Lemma sample_loop_ok R k n m planted rounds : lawful R -> Z.of_nat k <= n -> forall t s, (List.length s <= m)%nat -> NoDup s ->
  (forall x, In x s -> shape k n x /\ clause_satisfied x planted = true) ->
  let s' := sample_loop R k (range 1 (n + 1)) m planted rounds t s in
  (List.length s' <= m)%nat /\ NoDup s' /\ forall x, In x s' -> shape k n x /\ clause_satisfied x planted = true.
Proof.
  intros W H. induction rounds as [|r IH]; intros t s L N K; cbn [sample_loop]; auto. destruct (Nat.ltb_spec (List.length s) m) as [LT|]; auto.
  apply IH.
  - destruct (clause_satisfied _ planted); [|lia]. pose proof (set_add_length (random_clause R t (range 1 (n + 1)) k) s). lia.
  - destruct (clause_satisfied _ planted); auto. apply set_add_NoDup. auto.
  - intros x Hx. destruct (clause_satisfied (random_clause R t (range 1 (n + 1)) k) planted) eqn:E; auto. apply set_add_In in Hx as [->|Hx]; auto.
    split; auto. apply random_clause_shape; auto.
Qed.
Lemma signs_In k (p : list bool) : In p (products (repeat [true; false] k)) <-> List.length p = k.
Proof.
  rewrite products_In. revert p. induction k as [|k IH]; intros p; cbn [repeat]; split; intros H.
  - inversion H. auto.
  - destruct p; [constructor|discriminate].
  - inversion H; subst. cbn. f_equal. apply IH. auto.
  - destruct p as [|b p]; [discriminate|]. constructor; [destruct b; cbn; auto|]. apply IH. cbn in H. lia.
Qed.
Lemma signs_NoDup k : NoDup (products (repeat [true; false] k)).
Proof.
  induction k as [|k IH]; cbn [repeat products flat_map]; [constructor; [intros []|constructor]|]. rewrite app_nil_r.
  apply NoDup_app_intro; [apply FinFun.Injective_map_NoDup; auto; intros ? ?; congruence..|]. intros x Hx Hy. apply in_map_iff in Hx as (y & <- & _). apply in_map_iff in Hy as (z & E & _). discriminate.
Qed.
Lemma signs_length k : Z.of_nat (List.length (products (repeat [true; false] k))) = 2 ^ Z.of_nat k.
Proof.
  induction k as [|k IH]; [reflexivity|]. cbn [repeat products flat_map]. rewrite app_nil_r, app_length, !map_length, Nat2Z.inj_add, IH, Nat2Z.inj_succ, Z.pow_succ_r by lia. lia.
Qed.
Lemma all_clauses_In k n planted cls : In cls (all_clauses k (range 1 (n + 1)) planted) <-> shape k n cls /\ clause_satisfied cls planted = true.
Proof.
  unfold all_clauses. rewrite filter_In, in_flat_map.
  assert (E : (exists x, In x (combinations (range 1 (n + 1)) k) /\ In cls (map (fun polarity => combine polarity (map rnd_name x)) (products (repeat [true; false] k)))) <-> shape k n cls); [|rewrite E; tauto].
  split.
  - intros (l & Hl & Hc). apply combinations_sorted in Hl as (A & B & C); [|apply range_sorted]. apply in_map_iff in Hc as (p & <- & Hp). apply signs_In in Hp.
    exists l. split; auto. split; [intros i Hi; apply C in Hi; apply range_In in Hi; lia|]. split; auto. apply map_combine_snd. rewrite map_length. congruence.
  - intros (l & A & B & C & D). exists l. split.
    + apply combinations_sorted; [apply range_sorted|]. split; auto. split; auto. intros i Hi. apply range_In. specialize (B i Hi). lia.
    + apply in_map_iff. exists (map fst cls). rewrite <- D, combine_split_self. split; auto. apply signs_In. rewrite map_length.
      rewrite <- C, <- (map_length rnd_name l), <- D, map_length. auto.
Qed.
Lemma flat_map_NoDup {A B} (f : A -> list B) l : NoDup l -> (forall x, In x l -> NoDup (f x)) ->
  (forall x y b, In x l -> In y l -> In b (f x) -> In b (f y) -> x = y) -> NoDup (flat_map f l).
Proof.
  induction l as [|x l IH]; intros N H1 H2; cbn [flat_map]; [constructor|]. inversion N as [|? ? N1 N2]; subst. apply NoDup_app_intro.
  - apply H1. left; auto.
  - apply IH; auto; [intros; apply H1; right; auto|]. intros y z b Hy Hz. apply H2; right; auto.
  - intros b Hb K. apply in_flat_map in K as (y & Hy & K). assert (x = y) by (eapply H2; eauto; [left|right]; auto). subst. auto.
Qed.
Lemma all_clauses_NoDup k n planted : NoDup (all_clauses k (range 1 (n + 1)) planted).
Proof.
  unfold all_clauses. apply NoDup_filter. apply flat_map_NoDup.
  - apply combinations_distinct. apply range_NoDup.
  - intros l Hl. apply combinations_length in Hl. apply NoDup_map_in; [apply signs_NoDup|]. intros p q Hp Hq E. apply signs_In in Hp, Hq.
    assert (K : map fst (combine p (map rnd_name l)) = map fst (combine q (map rnd_name l))) by congruence.
    assert (F : forall (u : list bool) (v : list text), List.length u = List.length v -> map fst (combine u v) = u).
    { induction u; intros [|y v] X; cbn in *; auto; try discriminate. f_equal. auto. }
    rewrite !F in K by (rewrite map_length; congruence). auto.
  - intros x y b Hx Hy Bx By. apply combinations_length in Hx, Hy. apply in_map_iff in Bx as (p & E1 & Hp), By as (q & E2 & Hq). apply signs_In in Hp, Hq.
    assert (K : map rnd_name x = map rnd_name y).
    { rewrite <- (map_combine_snd p (map rnd_name x)), <- (map_combine_snd q (map rnd_name y)) by (rewrite map_length; congruence). congruence. }
    clear -K. revert y K. induction x as [|u x IH]; intros [|v y] K; cbn in K; try discriminate; auto. injection K as K1 K2. apply app_inv_head in K1 || idtac.
    f_equal; [|auto]. apply rnd_name_inj. unfold rnd_name. cbn. congruence.
Qed.
Lemma combinations_count {A} (l : list A) k : Z.of_nat (List.length (combinations l k)) = binomial (List.length l) k.
Proof.
  revert k. induction l as [|x l IH]; intros [|k]; cbn [combinations binomial List.length]; auto. rewrite app_length, map_length, Nat2Z.inj_add, !IH. auto.
Qed.
Lemma all_clauses_count k n : 0 <= n -> Z.of_nat (List.length (all_clauses k (range 1 (n + 1)) [])) = binomial (Z.to_nat n) k * 2 ^ Z.of_nat k.
Proof.
  intros Hn. unfold all_clauses. cbn [clause_satisfied forallb].
  assert (F : forall (l : list (list (bool * text))), filter (fun cls => clause_satisfied cls []) l = l) by (induction l; cbn; [auto|f_equal; auto]). rewrite F.
  replace (Z.to_nat n) with (List.length (range 1 (n + 1))) by (rewrite range_length; lia). rewrite <- combinations_count.
  induction (combinations (range 1 (n + 1)) k) as [|d l IH]; cbn [flat_map List.length]; [lia|]. rewrite app_length, map_length, Nat2Z.inj_add, IH, signs_length. lia.
Qed.
(* what the sampler returns *)
Lemma sample_ok R k n m planted : lawful R -> Z.of_nat k <= n ->
  ((List.length (all_clauses k (range 1 (n + 1)) planted) < m)%nat /\ sample_clauses R k (range 1 (n + 1)) m planted = Err ValueError) \/
  ((m <= List.length (all_clauses k (range 1 (n + 1)) planted))%nat /\
   exists L, sample_clauses R k (range 1 (n + 1)) m planted = Ok L /\ List.length L = m /\ NoDup L /\ forall x, In x L -> shape k n x /\ clause_satisfied x planted = true).
Proof.
  intros W H. unfold sample_clauses. cbv zeta. set (s := sample_loop R k (range 1 (n + 1)) m planted (10 * m) 0 []).
  destruct (sample_loop_ok R k n m planted (10 * m) W H 0%nat []) as (A & B & C); [cbn; lia|constructor|intros ? []|]. fold s in A, B, C.
  assert (I : incl s (all_clauses k (range 1 (n + 1)) planted)) by (intros x Hx; apply all_clauses_In; auto). pose proof (NoDup_incl_length B I) as L.
  destruct (Nat.ltb_spec (List.length s) m) as [LT|GE].
  - unfold sample_clauses_dense. cbv zeta. destruct (Nat.ltb_spec (List.length (all_clauses k (range 1 (n + 1)) planted)) m) as [LA|GA]; [left; auto|]. right. split; auto.
    destruct (lw_clauses R W (all_clauses k (range 1 (n + 1)) planted) m GA) as (E & rest & P). eexists. split; [reflexivity|]. split; auto.
    pose proof (all_clauses_NoDup k n planted) as N. apply (Permutation_NoDup P) in N. split; [apply NoDup_app_remove_r in N; auto|].
    intros x Hx. apply all_clauses_In. apply (Permutation_in _ (Permutation_sym P)). apply in_app_iff. auto.
  - right. split; [lia|]. exists (rnd_order R s). pose proof (lw_order R W s) as P. split; auto. split; [rewrite (Permutation_length P); lia|].
    split; [apply (Permutation_NoDup (Permutation_sym P)); auto|]. intros x Hx. apply C. apply (Permutation_in _ P). auto.
Qed.
Lemma shape_clean k n cls : shape k n cls -> clean cls /\ forall v, In v (map snd cls) -> In v (map rnd_name (range 1 (n + 1))).
Proof.
  intros (l & A & B & C & D). split.
  - apply clean_vars. rewrite D. apply FinFun.Injective_map_NoDup; [intros ? ?; apply rnd_name_inj|]. apply sorted_NoDup_lt. auto.
  - rewrite D. intros v Hv. apply in_map_iff in Hv as (i & <- & Hi). apply (in_map rnd_name). apply range_In. specialize (B i Hi). lia.
Qed.
Lemma with_new_distinct k vs : NoDup vs -> (forall v, In v vs -> ~ In v k) -> with_new k vs = k ++ vs.
Proof.
  revert k. induction vs as [|v vs IH]; intros k N H; cbn [with_new]; [rewrite app_nil_r; auto|]. inversion N as [|? ? N1 N2]; subst.
  destruct (in_dec (list_eq_dec ascii_dec) v k) as [K|K]; [exfalso; apply (H v); [left; auto|auto]|]. rewrite IH; [rewrite <- app_assoc; auto|auto|].
  intros w Hw X. apply in_app_iff in X as [X|[X|[]]]; [apply (H w); [right; auto|auto]|subst; auto].
Qed.
Lemma rnd_names_NoDup n : NoDup (map rnd_name (range 1 (n + 1))).
Proof. apply FinFun.Injective_map_NoDup; [intros ? ?; apply rnd_name_inj|apply range_NoDup]. Qed.
Lemma random_built k n L : (forall x, In x L -> shape k n x) ->
  exists c, add_all add_clause_strict L (add_variables (map rnd_name (range 1 (n + 1))) empty_cnf) = Ok c /\ made c /\ cn_names c = map rnd_name (range 1 (n + 1)) /\ cnf_clauses c = L.
Proof.
  intros H. destruct (build_strict (map rnd_name (range 1 (n + 1))) L) as (c & A & B & C & D).
  - intros cl Hc. apply (shape_clean k n cl (H cl Hc)).
  - intros cl v Hc Hv. apply (shape_clean k n cl (H cl Hc)). auto.
  - exists c. split; auto. split; auto. split; auto. rewrite D. apply (with_new_distinct []); [apply rnd_names_NoDup|intros v _ []].
Qed.
(* every choice of clauses is a possible outcome *)
Definition forced (k : nat) (n : Z) (L : list (list (bool * text))) (idx : list (list Z)) : randomness :=
  mkRandom (fun t l k' => if (Nat.eqb k' k && list_zeqb l (range 1 (n + 1)) && (t <? List.length L)%nat)%bool then nth t idx [] else firstn k' l)
    (fun t i => nth i (map fst (nth t L [])) false) (fun s => s) (fun l m => firstn m l).
Lemma forced_lawful k n L idx : Forall2 (fun cls l => StronglySorted Z.lt l /\ (forall i, In i l -> 1 <= i <= n) /\ List.length l = k /\ map snd cls = map rnd_name l) L idx ->
  lawful (forced k n L idx).
Proof.
  intros F. split; cbn [forced rnd_sample rnd_order rnd_clauses].
  - intros t l k' Hk N. destruct (_ && _ && _) eqn:E.
    + apply andb_true_iff in E as [E E3]. apply andb_true_iff in E as [E1 E2]. apply Nat.eqb_eq in E1. apply Nat.ltb_lt in E3.
      assert (E4 : l = range 1 (n + 1)) by (unfold list_zeqb in E2; destruct (list_eq_dec Z.eq_dec l (range 1 (n + 1))); [auto|discriminate]). subst k' l.
      assert (K : StronglySorted Z.lt (nth t idx []) /\ (forall i, In i (nth t idx []) -> 1 <= i <= n) /\ List.length (nth t idx []) = k).
      { clear -F E3. revert t E3. induction F as [|x y L idx (A & B & C & _) F IH]; intros t H; cbn in H; [lia|]. destruct t as [|t]; cbn [nth]; auto. apply IH. lia. }
      destruct K as (A & B & C). split; auto. split; [apply sorted_NoDup_lt; auto|]. intros i Hi. apply range_In. specialize (B i Hi). lia.
    + split; [apply firstn_length_le; auto|]. rewrite <- (firstn_skipn k' l) in N. split; [apply NoDup_app_remove_r in N; auto|].
      intros x Hx. rewrite <- (firstn_skipn k' l). apply in_app_iff. auto.
  - auto.
  - intros l m H. split; [apply firstn_length_le; auto|]. exists (skipn m l). rewrite firstn_skipn. auto.
Qed.
Lemma nth_seq_self (l : list bool) : map (fun i => nth i l false) (seq 0 (List.length l)) = l.
Proof.
  induction l as [|x l IH]; auto. cbn [List.length seq map nth]. f_equal. rewrite <- seq_shift, map_map. auto.
Qed.
Lemma forced_clause k n L idx t : Forall2 (fun cls l => StronglySorted Z.lt l /\ (forall i, In i l -> 1 <= i <= n) /\ List.length l = k /\ map snd cls = map rnd_name l) L idx ->
  (t < List.length L)%nat -> random_clause (forced k n L idx) t (range 1 (n + 1)) k = nth t L [].
Proof.
  intros F Ht. unfold random_clause. cbv zeta. cbn [forced rnd_sample rnd_choice]. rewrite Nat.eqb_refl. unfold list_zeqb.
  destruct (list_eq_dec Z.eq_dec (range 1 (n + 1)) (range 1 (n + 1))) as [_|]; [|congruence]. apply Nat.ltb_lt in Ht as Ht'. rewrite Ht'. cbn [andb].
  assert (K : StronglySorted Z.lt (nth t idx []) /\ map snd (nth t L []) = map rnd_name (nth t idx [])).
  { clear -F Ht. revert t Ht. induction F as [|x y L idx (A & B & C & D) F IH]; intros t H; cbn in H; [lia|]. destruct t as [|t]; cbn [nth]; auto. apply IH. lia. }
  destruct K as (A & D).
  assert (S : sort_by Z.ltb (nth t idx []) = nth t idx []).
  { apply sort_by_id. clear -A. induction A as [|x l A IH F]; constructor; auto. rewrite Forall_forall in *. intros y Hy. specialize (F y Hy). unfold le_of. apply Z.ltb_ge. lia. }
  rewrite S, <- D. transitivity (combine (map fst (nth t L [])) (map snd (nth t L []))); [|apply combine_split_self]. f_equal.
  replace (List.length (nth t idx [])) with (List.length (map fst (nth t L []))) by (rewrite map_length, <- (map_length snd), D, map_length; auto). apply nth_seq_self.
Qed.
Lemma forced_loop k n L idx planted : Forall2 (fun cls l => StronglySorted Z.lt l /\ (forall i, In i l -> 1 <= i <= n) /\ List.length l = k /\ map snd cls = map rnd_name l) L idx ->
  NoDup L -> (forall x, In x L -> clause_satisfied x planted = true) ->
  forall rounds t, (t <= List.length L)%nat -> (List.length L <= rounds + t)%nat ->
  sample_loop (forced k n L idx) k (range 1 (n + 1)) (List.length L) planted rounds t (firstn t L) = L.
Proof.
  intros F N P. induction rounds as [|r IH]; intros t H1 H2; cbn [sample_loop].
  - apply firstn_all2. lia.
  - rewrite firstn_length_le by auto. destruct (Nat.ltb_spec t (List.length L)) as [LT|GE]; [|apply firstn_all2; lia]. cbv zeta.
    rewrite (forced_clause k n L idx t F LT). assert (Hx : In (nth t L []) L) by (apply nth_In; auto). rewrite (P _ Hx).
    assert (E : set_add (nth t L []) (firstn t L) = firstn (S t) L).
    { destruct (nth_split L [] LT) as (l1 & l2 & EL & Ll). remember (nth t L []) as x eqn:Ex. clear Ex. rewrite EL in N.
      assert (F1 : firstn t L = l1) by (rewrite EL, <- Ll, firstn_app, firstn_all, Nat.sub_diag; apply app_nil_r).
      assert (F2 : firstn (S t) L = l1 ++ [x]).
      { replace (S t) with (List.length (l1 ++ [x])) by (rewrite app_length; cbn; lia). rewrite EL. replace (l1 ++ x :: l2) with ((l1 ++ [x]) ++ l2) by (rewrite <- app_assoc; auto).
        rewrite firstn_app, firstn_all, Nat.sub_diag. apply app_nil_r. }
      rewrite F1, F2. unfold set_add. destruct (existsb (same_clause x) l1) eqn:E; auto. exfalso.
      apply existsb_exists in E as (y & Hy & K). apply same_clause_ok in K. subst y. apply NoDup_remove_2 in N. apply N. apply in_app_iff. auto. }
    rewrite E. apply IH; lia.
Qed.
Lemma forced_sample k n L planted : NoDup L -> (forall x, In x L -> shape k n x /\ clause_satisfied x planted = true) ->
  exists R, lawful R /\ sample_clauses R k (range 1 (n + 1)) (List.length L) planted = Ok L.
Proof.
  intros N H. destruct (choose_images L (fun cls l => StronglySorted Z.lt l /\ (forall i, In i l -> 1 <= i <= n) /\ List.length l = k /\ map snd cls = map rnd_name l)) as (idx & F).
  { intros cls Hc. apply H. auto. }
  exists (forced k n L idx). split; [apply forced_lawful; auto|]. unfold sample_clauses. cbv zeta.
  pose proof (forced_loop k n L idx planted F N (fun x Hx => proj2 (H x Hx)) (10 * List.length L) 0%nat (Nat.le_0_l _) ltac:(lia)) as E. cbn [firstn] in E.
  rewrite E. rewrite Nat.ltb_irrefl. reflexivity.
Qed.
