(* PTrans3.v -- the functions of the substitutions *)
From Coq Require Import String Ascii ZArith List Bool Lia Arith Permutation Sorted.
From Verif Require Import Spec PyBase MSet MText MCnf MFam MTrans SpecCnf SpecFam SpecTrans PText PLib PCnf1 PCnf2 PFam1 PFam2 PFam3 PFam4 PFam5 PFam6 PFam7 PFam8 PFam12 PFam13 PTrans2.
Import ListNotations.
Open Scope Z_scope.

(* ---- literals ---- *)
Lemma in_singletons {A} (a : A -> bool) p (l : list A) : all_hold a (map (fun n => [(p, n)]) l) <-> forall x, In x l -> a x = p.
Proof.
  split.
  - intros H x Hx. specialize (H [(p, x)] (in_map (fun n => [(p, n)]) _ _ Hx)). destruct H as (q & v & [E|[]] & K). congruence.
  - intros H c Hc. apply in_map_iff in Hc as (x & <- & Hx). exists p, x. split; [left|]; auto.
Qed.
Lemma one_clause {A} (a : A -> bool) p (l : list A) : clause_holds a (map (pair p) l) <-> exists x, In x l /\ a x = p.
Proof.
  split.
  - intros (q & v & Hv & K). apply in_map_iff in Hv as (x & E & Hx). injection E as <- <-. eauto.
  - intros (x & Hx & K). exists p, x. split; auto. apply (in_map (pair p)). auto.
Qed.
Lemma all_hold_one {A} (a : A -> bool) c : all_hold a [c] <-> clause_holds a c.
Proof. split; [intros H; apply H; left; auto|intros H x [<-|[]]; auto]. Qed.
Lemma all_hold_cons {A} (a : A -> bool) c F : all_hold a (c :: F) <-> clause_holds a c /\ all_hold a F.
Proof. split; [intros H; split; [apply H; left; auto|intros x Hx; apply H; right; auto]|intros [H1 H2] x [<-|Hx]; auto]. Qed.
Lemma two_literals {A} (a : A -> bool) p x q y : clause_holds a [(p, x); (q, y)] <-> a x = p \/ a y = q.
Proof.
  split.
  - intros (r & v & [E|[E|[]]] & K); injection E as <- <-; auto.
  - intros [H|H]; [exists p, x|exists q, y]; (split; [cbn; auto|auto]).
Qed.
Lemma bool_flip (b p : bool) : (b = p <-> p = b). Proof. split; auto. Qed.

Lemma or_ok rank p v a : all_hold a (or_literal rank p v) <-> existsb a (block [] rank v) = p.
Proof.
  unfold or_literal. cbv zeta. destruct p.
  - rewrite all_hold_one, one_clause, existsb_exists. tauto.
  - rewrite in_singletons. split.
    + intros H. destruct (existsb a (block [] rank v)) eqn:E; auto. apply existsb_exists in E as (x & Hx & E). rewrite (H x Hx) in E. discriminate.
    + intros H x Hx. destruct (a x) eqn:E; auto. rewrite <- H. symmetry. apply existsb_exists. eauto.
Qed.
Lemma ite_ok p v a : all_hold a (ite_literal p v) <-> (if a (block_name [] v 0) then a (block_name [] v 1) else a (block_name [] v 2)) = p.
Proof.
  unfold ite_literal. cbv zeta. rewrite all_hold_cons, all_hold_one, !two_literals. destruct (a (block_name [] v 0)); split; intros H.
  - destruct H as [[H|H] _]; [discriminate|auto].
  - split; auto.
  - destruct H as [_ [H|H]]; [discriminate|auto].
  - split; auto.
Qed.
Lemma at_least_literal (t : Z) (vs : list text) (p : bool) a :
  all_hold a (if p then greater_or_equal_constraint vs t else less_than_constraint vs t) <-> (t <=? how_many a vs) = p.
Proof.
  destruct p; [rewrite greater_or_equal_ok, Z.leb_le|rewrite less_than_ok, Z.leb_gt]; lia.
Qed.
Lemma maj_ok rank p v a : all_hold a (maj_literal rank p v) <-> ((rank + 1) / 2 <=? how_many a (block [] rank v)) = p.
Proof. apply at_least_literal. Qed.
Lemma odd_mod (n : Z) (p : bool) : n mod 2 = (if p then 1 else 0) <-> Z.odd n = p.
Proof. rewrite Zmod_odd. destruct (Z.odd n), p; split; intros; auto; discriminate. Qed.
Lemma xor_ok rank p v a : all_hold a (xor_literal rank p v) <-> Z.odd (how_many a (block [] rank v)) = p.
Proof. unfold xor_literal. rewrite parity_ok. apply odd_mod. Qed.
Definition all_same (a : text -> bool) (vs : list text) : bool := forallb a vs || forallb (fun x => negb (a x)) vs.
Lemma all_same_spec a vs : all_same a vs = true <-> forall x y, In x vs -> In y vs -> a x = a y.
Proof.
  unfold all_same. rewrite orb_true_iff, !forallb_forall. split.
  - intros [H|H] x y Hx Hy; [rewrite (H x), (H y); auto|]. pose proof (H x Hx). pose proof (H y Hy). destruct (a x), (a y); auto; discriminate.
  - intros H. destruct (existsb a vs) eqn:E.
    + apply existsb_exists in E as (x & Hx & E). left. intros y Hy. rewrite (H y x); auto.
    + right. intros x Hx. apply negb_true_iff. destruct (a x) eqn:K; auto. rewrite <- E. symmetry. apply existsb_exists. eauto.
Qed.
Lemma eq_ok rank p v a : NoDup (block [] rank v) -> (all_hold a (eq_literal rank p v) <-> all_same a (block [] rank v) = p).
Proof.
  intros N. unfold eq_literal. cbv zeta. set (vs := block [] rank v) in *. destruct p.
  - rewrite all_same_spec. split.
    + intros H. assert (K : forall x y, In x vs -> In y vs -> a x = true -> a y = true).
      { intros x y Hx Hy E. destruct (list_eq_dec ascii_dec x y) as [->|NE]; auto. specialize (H [(false, x); (true, y)]).
        assert (Q : clause_holds a [(false, x); (true, y)]).
        { apply H. apply in_map_iff. exists (x, y). split; auto. apply permutations2_In; auto. }
        apply two_literals in Q as [Q|Q]; congruence. }
      intros x y Hx Hy. destruct (a x) eqn:E1, (a y) eqn:E2; auto; [rewrite (K x y) in E2|rewrite (K y x) in E1]; auto.
    + intros H c Hc. apply in_map_iff in Hc as ([x y] & <- & Hxy). apply permutations2_In in Hxy as (Hx & Hy & _); auto. apply two_literals. cbn [fst snd]. rewrite (H x y Hx Hy). destruct (a y); auto.
  - rewrite all_hold_cons, all_hold_one, !one_clause. unfold all_same. rewrite orb_false_iff. split.
    + intros [(x & Hx & E) (y & Hy & F)]. split; apply not_true_iff_false; rewrite forallb_forall; intros H; [specialize (H x Hx)|specialize (H y Hy); rewrite F in H; cbn in H]; congruence.
    + intros [E F]. split.
      * destruct (existsb (fun x => negb (a x)) vs) eqn:K; [apply existsb_exists in K as (x & Hx & K); exists x; split; auto; apply negb_true_iff; auto|].
        exfalso. apply not_true_iff_false in E. apply E. apply forallb_forall. intros x Hx. destruct (a x) eqn:G; auto. rewrite <- K. apply existsb_exists. exists x. rewrite G. auto.
      * destruct (existsb a vs) eqn:K; [apply existsb_exists in K as (x & Hx & K); exists x; split; auto|].
        exfalso. apply not_true_iff_false in F. apply F. apply forallb_forall. intros x Hx. destruct (a x) eqn:G; auto. cbn. rewrite <- K. apply existsb_exists. exists x. auto.
Qed.
Lemma neq_ok rank p v a : NoDup (block [] rank v) -> (all_hold a (neq_literal rank p v) <-> negb (all_same a (block [] rank v)) = p).
Proof. intros N. unfold neq_literal. rewrite eq_ok by auto. destruct (all_same a (block [] rank v)), p; cbn; split; auto; discriminate. Qed.
Lemma flip_ok p v a : all_hold a (flip_literal p v) <-> negb (a v) = p.
Proof.
  unfold flip_literal. rewrite all_hold_one. split.
  - intros (q & w & [E|[]] & K). injection E as <- <-. rewrite K. apply negb_involutive.
  - intros H. exists (negb p), v. split; [left; auto|]. rewrite <- H. symmetry. apply negb_involutive.
Qed.
(* at most one true *)
Lemma at_most_one (a : text -> bool) vs : NoDup vs ->
  (all_hold a (map (fun s => [(false, fst s); (false, snd s)]) (pairs vs)) <-> how_many a vs <= 1).
Proof.
  induction vs as [|x vs IH]; intros N; [split; [intros _; cbn; lia|intros _ c []]|]. inversion N as [|? ? Hx N']; subst. cbn [pairs]. rewrite map_app, map_map. cbn [fst snd].
  rewrite all_hold_app, IH by auto. unfold how_many. cbn [filter].
  assert (E : all_hold a (map (fun y => [(false, x); (false, y)]) vs) <-> (a x = true -> filter a vs = [])).
  { split.
    - intros H T. destruct (filter a vs) as [|y l] eqn:F; auto. assert (Hy : In y (filter a vs)) by (rewrite F; left; auto). apply filter_In in Hy as [Hy Y].
      specialize (H _ (in_map (fun y => [(false, x); (false, y)]) _ _ Hy)). apply two_literals in H as [H|H]; congruence.
    - intros H c Hc. apply in_map_iff in Hc as (y & <- & Hy). apply two_literals. destruct (a x) eqn:Ex; auto. right. destruct (a y) eqn:Ey; auto.
      assert (K : In y (filter a vs)) by (apply filter_In; auto). rewrite H in K by auto. destruct K. }
  rewrite E. destruct (a x); cbn [List.length].
  - split.
    + intros [H _]. rewrite H by auto. cbn. lia.
    + intros H. assert (F : filter a vs = []) by (destruct (filter a vs); auto; cbn in H; lia). rewrite F. split; auto. cbn. lia.
  - split; [tauto|]. intros H. split; auto. discriminate.
Qed.
Lemma at_least_one (a : text -> bool) vs : clause_holds a (map (pair true) vs) <-> 1 <= how_many a vs.
Proof.
  rewrite one_clause. unfold how_many. split.
  - intros (x & Hx & E). assert (K : In x (filter a vs)) by (apply filter_In; auto). destruct (filter a vs); [destruct K|cbn; lia].
  - intros H. destruct (filter a vs) as [|x l] eqn:F; [cbn in H; lia|]. exists x. apply filter_In. rewrite F. left. auto.
Qed.
Lemma exactly_one (a : text -> bool) vs : NoDup vs ->
  (all_hold a (map (pair true) vs :: map (fun s => [(false, fst s); (false, snd s)]) (pairs vs)) <-> how_many a vs = 1).
Proof. intros N. rewrite all_hold_cons, at_least_one, at_most_one by auto. lia. Qed.
Lemma one_ok rank p v a : NoDup (block (txt "X_") rank v) -> (all_hold a (one_literal rank p v) <-> (how_many a (block (txt "X_") rank v) =? 1) = p).
Proof.
  intros N. unfold one_literal. cbv zeta. set (vs := block (txt "X_") rank v) in *. clearbody vs. destruct p; [rewrite exactly_one, Z.eqb_eq by auto; tauto|]. rewrite Z.eqb_neq. split.
  - intros H E. unfold how_many in E. destruct (filter a vs) as [|x [|y l]] eqn:F; try (cbn in E; lia). assert (Hx : In x (filter a vs)) by (rewrite F; left; auto). apply filter_In in Hx as [Hx Ex].
    specialize (H _ (in_map (fun n => (false, n) :: map (pair true) (filter (fun o => negb (text_eqb o n)) vs)) _ _ Hx)). destruct H as (q & w & [K|K] & W); [congruence|].
    apply in_map_iff in K as (z & G & Hz). injection G as <- <-. apply filter_In in Hz as [Hz Z]. assert (I : In z (filter a vs)) by (apply filter_In; auto). rewrite F in I. destruct I as [<-|[]].
    rewrite text_eqb_refl in Z. discriminate.
  - intros H c Hc. apply in_map_iff in Hc as (x & <- & Hx). destruct (a x) eqn:Ex; [|exists false, x; split; [left|]; auto].
    assert (K : exists y, In y vs /\ a y = true /\ y <> x).
    { unfold how_many in H. assert (I : In x (filter a vs)) by (apply filter_In; auto). pose proof (NoDup_filter a N) as N2.
      destruct (filter a vs) as [|y [|z l]] eqn:F; [destruct I|cbn in H; lia|].
      assert (Q : exists w, In w (y :: z :: l) /\ w <> x).
      { destruct (list_eq_dec ascii_dec y x) as [->|]; [|exists y; split; [left|]; auto]. exists z. split; [right; left; auto|]. intros ->. inversion N2. subst. apply H2. left. auto. }
      destruct Q as (w & Hw & NE). exists w. rewrite <- F in Hw. apply filter_In in Hw as [? ?]. auto. }
    destruct K as (y & Hy & Ey & NE). exists true, y. split; auto. right. apply (in_map (pair true)). apply filter_In. split; auto. apply negb_true_iff. destruct (text_eqb y x) eqn:T; auto. apply text_eqb_eq in T. contradiction.
Qed.
Lemma compression_ok majority c b p v a :
  all_hold a (compression_literal majority c b p v) <->
  (let vs := map compress_name (right_neighbors b (compression_vertex c b v)) in
   if majority then (Z.of_nat (List.length vs) + 1) / 2 <=? how_many a vs else Z.odd (how_many a vs)) = p.
Proof.
  unfold compression_literal. cbv zeta. destruct majority; [apply at_least_literal|]. rewrite parity_ok. apply odd_mod.
Qed.
