(* PTrans7.v -- shuffles *)
From Coq Require Import String Ascii ZArith List Bool Lia Arith Permutation Sorted.
From Verif Require Import Spec PyBase MSet MText MCnf MFam MTrans SpecCnf SpecFam SpecTrans PText PLib PCnf1 PCnf2 PFam1 PFam2 PFam3 PFam4 PFam5 PFam6 PFam7 PFam8 PFam12 PFam13 PP16 PTrans1 PTrans2.
Import ListNotations.
Open Scope Z_scope.

Lemma py_set_ok {A} (l : list A) i x : 0 <= i < Z.of_nat (List.length l) ->
  exists l', py_set l i x = Ok l' /\ List.length l' = List.length l /\ nth_error l' (Z.to_nat i) = Some x /\ forall j, j <> Z.to_nat i -> nth_error l' j = nth_error l j.
Proof.
  intros H. unfold py_set. cbv zeta. assert (E1 : (- Z.of_nat (List.length l) <=? i) = true) by (apply Z.leb_le; lia). assert (E2 : (i <? Z.of_nat (List.length l)) = true) by (apply Z.ltb_lt; lia). assert (E3 : (i <? 0) = false) by (apply Z.ltb_ge; lia).
  rewrite E1, E2, E3. cbn [andb]. eexists. split; [reflexivity|]. set (k := Z.to_nat i). assert (K : (k < List.length l)%nat) by lia. clearbody k. clear - K.
  split; [|split].
  - rewrite app_length, firstn_length_le by lia. cbn [List.length]. rewrite skipn_length. lia.
  - rewrite nth_error_app2; rewrite firstn_length_le by lia; auto. rewrite Nat.sub_diag. auto.
  - intros j NE. revert k j K NE. induction l as [|y l IH]; intros k j K NE; cbn in K; [lia|]. destruct k as [|k], j as [|j]; cbn; auto; [congruence|]. apply IH; lia.
Qed.
Lemma place_ok clauses sub perm : forall old out, NoDup perm -> (forall i, In i perm -> 0 <= i < Z.of_nat (List.length out)) -> (old + List.length perm <= List.length clauses)%nat ->
  exists out', place_clauses clauses sub old perm out = Ok out' /\ List.length out' = List.length out /\
    (forall k i, nth_error perm k = Some i -> nth_error out' (Z.to_nat i) = Some (option_map (map sub) (nth_error clauses (old + k)))) /\
    (forall j, ~ In (Z.of_nat j) perm -> nth_error out' j = nth_error out j).
Proof.
  induction perm as [|i perm IH]; intros old out N B L; cbn [place_clauses].
  - exists out. split; auto. split; auto. split; auto. intros [|k] i K; discriminate.
  - inversion N as [|? ? N1 N2]; subst. cbn [List.length] in L. destruct (nth_error clauses old) as [cl|] eqn:E; [|apply nth_error_None in E; lia]. cbn [of_option bind].
    destruct (py_set_ok out i (Some (map sub cl)) (B i (or_introl eq_refl))) as (o1 & E1 & L1 & S1 & O1). rewrite E1. cbn [bind].
    destruct (IH (S old) o1 N2) as (o2 & E2 & L2 & P2 & Q2); [intros j Hj; rewrite L1; apply B; right; auto|lia|]. exists o2. split; auto. split; [lia|]. split.
    + intros [|k] j K; cbn in K.
      * injection K as <-. rewrite Nat.add_0_r, E. cbn [option_map]. rewrite Q2; auto. rewrite Z2Nat.id; auto. apply B. left. auto.
      * rewrite (P2 k j K). rewrite Nat.add_succ_r. auto.
    + intros j NI. rewrite Q2 by (intros K; apply NI; right; auto). apply O1. intros ->. apply NI. left. rewrite Z2Nat.id; auto. apply B. left. auto.
Qed.
Lemma coherent_ok n cls : (forall cl l, In cl cls -> In l cl -> 1 <= Z.abs l <= n) -> coherent_clauses n (map Some cls) = Ok cls.
Proof.
  induction cls as [|cl cls IH]; intros H; cbn [map coherent_clauses]; auto.
  assert (E : forallb (fun l => (0 <? Z.abs l) && (Z.abs l <=? n)) cl = true).
  { apply forallb_forall. intros l Hl. specialize (H cl l (or_introl eq_refl) Hl). apply andb_true_iff. split; [apply Z.ltb_lt|apply Z.leb_le]; lia. }
  rewrite E, IH; auto. intros; eapply H; eauto; right; auto.
Qed.
Lemma positions names vs : (forall v, In v vs -> In v names) ->
  exists idx, mapM (fun v => of_option KeyError (position v names 1)) vs = Ok idx /\ Forall2 (fun v i => position v names 1 = Some i) vs idx.
Proof.
  induction vs as [|v vs IH]; intros H; cbn [mapM]; [exists []; auto|]. destruct (position_In v names 1) as (i & E); [apply H; left; auto|]. destruct IH as (idx & E2 & F); [intros; apply H; right; auto|].
  exists (i :: idx). rewrite E, E2. cbn [of_option bind]. auto.
Qed.
Lemma list_of_options {A} (l : list (option A)) : (forall x, In x l -> x <> None) -> exists l', l = map Some l'.
Proof.
  induction l as [|[x|] l IH]; intros H; [exists []; auto| |exfalso; apply (H None); [left|]; auto]. destruct IH as (l' & ->); [intros; apply H; right; auto|]. exists (x :: l'). auto.
Qed.
Lemma perm_range_lookup cp m j : Permutation cp (range 0 (Z.of_nat m)) -> (j < m)%nat -> exists k, nth_error cp k = Some (Z.of_nat j).
Proof.
  intros P H. apply In_nth_error. apply (Permutation_in _ (Permutation_sym P)). apply range_In. lia.
Qed.
Lemma sgn_mul l x : l <> 0 -> x <> 0 -> (0 <? Z.sgn l * x) = (if 0 <? x then 0 <? l else negb (0 <? l)).
Proof. intros Hl Hx. destruct (Z.ltb_spec 0 x), (Z.ltb_spec 0 l), (Z.ltb_spec 0 (Z.sgn l * x)); cbn; auto; exfalso; nia. Qed.
Lemma shuffle_ok c vp cp pf : made c -> Permutation vp (cn_names c) -> List.length pf = List.length (cn_names c) -> (forall x, In x pf -> x = 1 \/ x = -1) ->
  Permutation cp (range 0 (Z.of_nat (List.length (cn_clauses c)))) ->
  exists F, Shuffle c vp cp pf = Ok F /\ made F /\ cn_names F = vp /\ List.length (cnf_clauses F) = List.length (cnf_clauses c) /\
    forall k i cl, nth_error cp k = Some i -> nth_error (cnf_clauses c) k = Some cl -> exists cl', nth_error (cnf_clauses F) (Z.to_nat i) = Some cl' /\ Forall2 (flipped c pf) cl cl'.
Proof.
  intros M PV LP PM PC. destruct (made_well c M) as [ND RNG]. unfold Shuffle. cbv zeta. rewrite (Permutation_length PV), Nat.eqb_refl, LP, Nat.eqb_refl. cbn [negb].
  assert (NV : NoDup vp) by (apply (Permutation_NoDup (Permutation_sym PV)); auto).
  rewrite add_variables_names. cbn [empty_cnf cn_names]. rewrite (with_new_distinct []) by (auto; intros ? _ []). cbn [app].
  destruct (positions vp (cn_names c)) as (idx & -> & FI); [intros v Hv; apply (Permutation_in _ (Permutation_sym PV)); auto|]. cbn [bind].
  set (table := map (fun fi => fst fi * snd fi) (combine pf idx)). set (sub := fun l => Z.sgn l * nth (Z.to_nat (Z.abs l - 1)) table 0).
  assert (TB : forall i v, nth_error (cn_names c) i = Some v -> exists x p, nth_error pf i = Some x /\ position v vp 1 = Some p /\ nth i table 0 = x * p).
  { unfold table. clear - FI LP. revert pf LP. induction FI as [|v p vs idx E F IH]; intros pf LP i w H; [destruct i; discriminate|]. destruct pf as [|x pf]; [discriminate|]. destruct i as [|i].
    - cbn in H. injection H as <-. exists x, p. auto.
    - cbn in H. cbn [combine map nth nth_error]. apply IH; auto. }
  assert (SB : forall l, 1 <= Z.abs l <= Z.of_nat (List.length (cn_names c)) -> 1 <= Z.abs (sub l) <= Z.of_nat (List.length vp) /\
    flipped c pf (0 <? l, nth (Z.to_nat (Z.abs l - 1)) (cn_names c) []) (0 <? sub l, nth (Z.to_nat (Z.abs (sub l) - 1)) vp [])).
  { intros l B. set (i := Z.to_nat (Z.abs l - 1)). assert (Li : (i < List.length (cn_names c))%nat) by lia. pose proof (nth_error_nth' (cn_names c) [] Li) as Ei. destruct (TB i _ Ei) as (x & p & Ex & Ep & Et).
    apply position_Some in Ep as (Bp & Np). assert (Hx : x = 1 \/ x = -1) by (apply PM; eapply nth_error_In; eauto). unfold sub. fold i. rewrite Et.
    assert (AB : Z.abs (Z.sgn l * (x * p)) = p) by (assert (SG : Z.sgn l = 1 \/ Z.sgn l = -1) by lia; destruct SG as [-> | ->]; destruct Hx as [-> | ->]; lia).
    rewrite AB. split; [rewrite (Permutation_length PV) in *; lia|]. split; cbn [fst snd]; [apply Np|]. exists i, x. split; auto. split; auto.
    rewrite sgn_mul by nia. destruct Hx as [->| ->].
    - replace (0 <? 1 * p) with true by (symmetry; apply Z.ltb_lt; lia). tauto.
    - replace (0 <? -1 * p) with false by (symmetry; apply Z.ltb_ge; lia). destruct (0 <? l); cbn; split; intros; discriminate. }
  destruct (place_ok (cn_clauses c) sub cp 0%nat (repeat None (List.length (cn_clauses c)))) as (out & -> & LO & PO & _).
  { apply (Permutation_NoDup (Permutation_sym PC)). apply range_NoDup. }
  { intros i Hi. rewrite repeat_length. apply (Permutation_in _ PC) in Hi. apply range_In in Hi. lia. }
  { rewrite (Permutation_length PC), range_length. lia. }
  cbn [bind]. rewrite repeat_length in LO.
  assert (AL : forall j, (j < List.length (cn_clauses c))%nat -> exists k cl, nth_error cp k = Some (Z.of_nat j) /\ nth_error (cn_clauses c) k = Some cl /\ nth_error out j = Some (Some (map sub cl))).
  { intros j Hj. destruct (perm_range_lookup cp _ j PC Hj) as (k & Hk). specialize (PO k _ Hk). rewrite Nat2Z.id in PO. cbn [plus] in PO.
    destruct (nth_error (cn_clauses c) k) as [cl|] eqn:E; [exists k, cl; auto|]. apply nth_error_None in E. apply nth_error_Some_length in Hk. rewrite (Permutation_length PC), range_length in Hk. lia. }
  destruct (list_of_options out) as (cls & ->).
  { intros x Hx. apply In_nth_error in Hx as (j & Hj). pose proof (nth_error_Some_length _ _ _ Hj) as Lj. rewrite LO in Lj. destruct (AL j Lj) as (k & cl & _ & _ & E). congruence. }
  rewrite map_length in LO.
  assert (RC : forall cl l, In cl cls -> In l cl -> 1 <= Z.abs l <= Z.of_nat (List.length vp)).
  { intros cl l Hc Hl. apply In_nth_error in Hc as (j & Hj). pose proof (nth_error_Some_length _ _ _ Hj) as Lj. rewrite LO in Lj. destruct (AL j Lj) as (k & d & _ & Hd & E). rewrite nth_error_map, Hj in E. cbn in E. injection E as ->.
    apply in_map_iff in Hl as (z & <- & Hz). apply SB. apply (RNG d z); auto. eapply nth_error_In; eauto. }
  rewrite coherent_ok by auto. cbn [bind]. eexists. split; [reflexivity|]. split; [apply made_of_numbers; auto|]. split; auto. split; [unfold cnf_clauses; cbn; rewrite !map_length; auto|].
  intros k i cl Hk Hc. unfold cnf_clauses in Hc. rewrite nth_error_map in Hc. destruct (nth_error (cn_clauses c) k) as [z|] eqn:Ez; [|discriminate]. cbn in Hc. injection Hc as <-.
  specialize (PO k i Hk). cbn [plus] in PO. rewrite Ez in PO. cbn [option_map] in PO. rewrite nth_error_map in PO. destruct (nth_error cls (Z.to_nat i)) as [y|] eqn:Ey; [|discriminate]. cbn in PO. injection PO as ->.
  unfold cnf_clauses. cbn [cn_names cn_clauses]. rewrite nth_error_map, Ey. eexists. split; [reflexivity|].
  assert (RZ : forall l, In l z -> 1 <= Z.abs l <= Z.of_nat (List.length (cn_names c))) by (intros l Hl; apply (RNG z l); auto; eapply nth_error_In; eauto).
  clear - RZ SB. induction z as [|l z IH]; cbn; constructor; [apply SB; apply RZ; left; auto|apply IH; intros; apply RZ; right; auto].
Qed.
(* the flip of an assignment *)
Definition flip_value (c : cnf) (pf : list Z) (a : text -> bool) (v : text) : bool :=
  match position v (cn_names c) 0 with Some i => if nth (Z.to_nat i) pf 1 =? 1 then a v else negb (a v) | None => a v end.
Lemma flip_twice c pf a v : flip_value c pf (flip_value c pf a) v = a v.
Proof. unfold flip_value. destruct (position v (cn_names c) 0); auto. destruct (_ =? 1); auto. apply negb_involutive. Qed.
Lemma flip_literal_value c pf a l l' : NoDup (cn_names c) -> flipped c pf l l' -> (flip_value c pf a (snd l') = fst l' <-> a (snd l) = fst l).
Proof.
  intros N (E & i & x & Hi & Hx & K). rewrite E. unfold flip_value. assert (Li : (i < List.length (cn_names c))%nat) by (eapply nth_error_Some_length; eauto).
  rewrite <- (nth_error_nth _ _ [] Hi), position_nth by auto. cbn [Z.add]. rewrite Nat2Z.id, (nth_error_nth _ _ 1 Hx). 
  destruct (Z.eqb_spec x 1) as [Ex|Nx]; [rewrite (proj2 K Ex); tauto|]. assert (Q : fst l' <> fst l) by (intros W; apply Nx, K; auto). match goal with |- context [a ?z] => destruct (a z) end; destruct (fst l), (fst l'); cbn; split; intros; try congruence. all: try (exfalso; apply Q; reflexivity).
Qed.
Lemma flipped_clause c pf a cl cl' : NoDup (cn_names c) -> Forall2 (flipped c pf) cl cl' -> (clause_holds (flip_value c pf a) cl' <-> clause_holds a cl).
Proof.
  intros N F. induction F as [|[p v] [q w] cl cl' K F IH]; [split; intros (r & u & [] & _)|]. pose proof (flip_literal_value c pf a _ _ N K) as X. cbn [fst snd] in X.
  assert (C : forall (b : text -> bool) r u (t : list (bool * text)), clause_holds b ((r, u) :: t) <-> b u = r \/ clause_holds b t).
  { intros b r u t. split.
    - intros (s & y & [Y|Y] & Z); [left; congruence|right; exists s, y; auto].
    - intros [Y|(s & y & Y & Z)]; [exists r, u; split; [left|]; auto|exists s, y; split; [right|]; auto]. }
  rewrite !C, IH, X. tauto.
Qed.
Lemma shuffle_models c F cp pf : made c -> List.length (cnf_clauses F) = List.length (cnf_clauses c) -> Permutation cp (range 0 (Z.of_nat (List.length (cnf_clauses c)))) ->
  (forall k i cl, nth_error cp k = Some i -> nth_error (cnf_clauses c) k = Some cl -> exists cl', nth_error (cnf_clauses F) (Z.to_nat i) = Some cl' /\ Forall2 (flipped c pf) cl cl') ->
  (has_model (cnf_clauses F) <-> has_model (cnf_clauses c)).
Proof.
  intros M LF PC H. destruct (made_well c M) as [N _].
  assert (A : forall a, all_hold a (cnf_clauses c) <-> all_hold (flip_value c pf a) (cnf_clauses F)).
  { intros a. split.
    - intros K cl' Hc. apply In_nth_error in Hc as (j & Hj). pose proof (nth_error_Some_length _ _ _ Hj) as Lj. rewrite LF in Lj. destruct (perm_range_lookup cp _ j PC Lj) as (k & Hk).
      pose proof (nth_error_Some_length _ _ _ Hk) as Lk. rewrite (Permutation_length PC), range_length in Lk. destruct (nth_error (cnf_clauses c) k) as [cl|] eqn:E; [|apply nth_error_None in E; lia].
      destruct (H k _ cl Hk E) as (d & Hd & Q). rewrite Nat2Z.id, Hj in Hd. injection Hd as <-. apply (flipped_clause c pf a cl cl' N Q). apply K. eapply nth_error_In; eauto.
    - intros K cl Hc. apply In_nth_error in Hc as (k & Hk). pose proof (nth_error_Some_length _ _ _ Hk) as Lk. destruct (nth_error cp k) as [i|] eqn:E; [|apply nth_error_None in E; rewrite (Permutation_length PC), range_length in E; lia].
      destruct (H k i cl E Hk) as (d & Hd & Q). apply (flipped_clause c pf a cl d N Q). apply K. eapply nth_error_In; eauto. }
  split.
  - intros (a & K). exists (flip_value c pf a). apply A. intros cl Hc. specialize (K cl Hc). revert K. apply clause_holds_ext. intros p v _. symmetry. apply flip_twice.
  - intros (a & K). exists (flip_value c pf a). apply A. auto.
Qed.
