(* PTool1.v -- shuffles and numbers *)
From Coq Require Import String Ascii ZArith List Bool Lia Arith Permutation Sorted.
From Verif Require Import Spec PyBase MSet MText MCnf MFam MFam2 MTrans MFile MTool SpecCnf SpecFam SpecTrans SpecTool PText PLib PCnf1 PCnf2 PFam1 PFam2 PFam3 PFam4 PFam5 PFam6 PFam7 PFam8 PFam12 PFam13 PP16 PTrans1 PTrans2 PTrans7 PFile1 PFile2.
Import ListNotations.
Open Scope Z_scope.

Ltac tlia := unfold text in *; lia.
(* what becomes of a literal *)
Definition moved (names vp : list text) (pf : list Z) (l : Z) : Z :=
  let i := Z.to_nat (Z.abs l - 1) in
  match position (nth i names []) vp 1 with Some p => Z.sgn l * (nth i pf 0 * p) | None => 0 end.
Lemma moved_opp names vp pf l : moved names vp pf (- l) = - moved names vp pf l.
Proof. unfold moved. cbv zeta. rewrite Z.abs_opp, Z.sgn_opp. destruct (position _ _ _); lia. Qed.
Lemma moved_range names vp pf l : NoDup names -> Permutation vp names -> List.length pf = List.length names -> (forall x, In x pf -> x = 1 \/ x = -1) ->
  1 <= Z.abs l <= Z.of_nat (List.length names) ->
  exists p x, nth_error pf (Z.to_nat (Z.abs l - 1)) = Some x /\ (x = 1 \/ x = -1) /\ position (nth (Z.to_nat (Z.abs l - 1)) names []) vp 1 = Some p /\ 1 <= p <= Z.of_nat (List.length names) /\
    nth (Z.to_nat (p - 1)) vp [] = nth (Z.to_nat (Z.abs l - 1)) names [] /\ moved names vp pf l = Z.sgn l * (x * p).
Proof.
  intros ND PV LP PM B. set (i := Z.to_nat (Z.abs l - 1)). assert (Li : (i < List.length names)%nat) by lia.
  destruct (position_In (nth i names []) vp 1) as (p & Ep). { apply (Permutation_in _ (Permutation_sym PV)). apply nth_In. auto. }
  exists p, (nth i pf 0). assert (Ex : nth_error pf i = Some (nth i pf 0)) by (apply nth_error_nth'; lia). split; [auto|].
  split; [apply PM; eapply nth_error_In; eauto|]. split; [auto|]. pose proof (position_Some _ _ _ _ Ep) as (Bp & Np). pose proof (Permutation_length PV) as LV. split; [unfold text in *; lia|].
  split; [apply Np|]. unfold moved. cbv zeta. change (Z.to_nat (Z.abs l - 1)) with i. unfold text in *. rewrite Ep. reflexivity.
Qed.
Lemma moved_renaming names vp pf : NoDup names -> Permutation vp names -> List.length pf = List.length names -> (forall x, In x pf -> x = 1 \/ x = -1) ->
  renaming (Z.of_nat (List.length names)) (moved names vp pf).
Proof.
  intros ND PV LP PM. split.
  - intros l B. destruct (moved_range names vp pf l ND PV LP PM B) as (p & x & _ & Hx & _ & Bp & _ & ->). assert (SG : Z.sgn l = 1 \/ Z.sgn l = -1) by tlia. destruct SG as [-> | ->]; destruct Hx as [-> | ->]; tlia.
  - intros l. apply moved_opp.
  - intros l l' B B' E. destruct (moved_range names vp pf l ND PV LP PM B) as (p & x & X & Hx & P & Bp & NP & E1). destruct (moved_range names vp pf l' ND PV LP PM B') as (q & y & Y & Hy & Q & Bq & NQ & E2).
    rewrite E1, E2 in E. assert (SG : Z.sgn l = 1 \/ Z.sgn l = -1) by tlia. assert (SG' : Z.sgn l' = 1 \/ Z.sgn l' = -1) by tlia.
    assert (p = q) by (destruct SG as [S1|S1], SG' as [S2|S2], Hx as [->| ->], Hy as [->| ->]; rewrite S1, S2 in E; tlia). subst q.
    assert (I : Z.to_nat (Z.abs l - 1) = Z.to_nat (Z.abs l' - 1)).
    { eapply (proj1 (NoDup_nth names [])); eauto; [tlia|tlia|]. exact (eq_trans (eq_sym NP) NQ). }
    rewrite I, Y in X. injection X as ->. assert (Z.sgn l = Z.sgn l') by (destruct SG as [S1|S1], SG' as [S2|S2], Hy as [->| ->]; rewrite S1, S2 in E; tlia).
    assert (Z.abs l = Z.abs l') by tlia. lia.
Qed.
Lemma shuffle_numbers c vp cp pf : well c -> Permutation vp (cn_names c) -> List.length pf = List.length (cn_names c) -> (forall x, In x pf -> x = 1 \/ x = -1) ->
  Permutation cp (range 0 (Z.of_nat (List.length (cn_clauses c)))) ->
  exists cls, Shuffle c vp cp pf = Ok (mkCnf vp cls) /\ well (mkCnf vp cls) /\
    Permutation cls (map (map (moved (cn_names c) vp pf)) (cn_clauses c)) /\
    (cp = range 0 (Z.of_nat (List.length (cn_clauses c))) -> cls = map (map (moved (cn_names c) vp pf)) (cn_clauses c)).
Proof.
  intros [ND RNG] PV LP PM PC. unfold Shuffle. cbv zeta. rewrite (Permutation_length PV), Nat.eqb_refl, LP, Nat.eqb_refl. cbn [negb].
  assert (NV : NoDup vp) by (apply (Permutation_NoDup (Permutation_sym PV)); auto).
  rewrite add_variables_names. cbn [empty_cnf cn_names]. rewrite (with_new_distinct []) by (auto; intros ? _ []). cbn [app].
  destruct (positions vp (cn_names c)) as (idx & -> & FI); [intros v Hv; apply (Permutation_in _ (Permutation_sym PV)); auto|]. cbn [bind].
  set (table := map (fun fi => fst fi * snd fi) (combine pf idx)). set (sub := fun l => Z.sgn l * nth (Z.to_nat (Z.abs l - 1)) table 0).
  set (mv := moved (cn_names c) vp pf).
  assert (TB : forall i v, nth_error (cn_names c) i = Some v -> exists x p, nth_error pf i = Some x /\ position v vp 1 = Some p /\ nth i table 0 = x * p).
  { unfold table. clear - FI LP. revert pf LP. induction FI as [|v p vs idx E F IH]; intros pf LP i w H; [destruct i; discriminate|]. destruct pf as [|x pf]; [discriminate|]. destruct i as [|i].
    - cbn in H. injection H as <-. exists x, p. auto.
    - cbn in H. cbn [combine map nth nth_error]. apply IH; auto. }
  assert (SM : forall l, 1 <= Z.abs l <= Z.of_nat (List.length (cn_names c)) -> sub l = mv l).
  { intros l B. unfold sub, mv, moved. cbv zeta. set (i := Z.to_nat (Z.abs l - 1)). assert (Li : (i < List.length (cn_names c))%nat) by tlia. destruct (TB i _ (nth_error_nth' (cn_names c) [] Li)) as (x & p & Ex & Ep & Et).
    rewrite Et, Ep, (nth_error_nth _ _ 0 Ex). reflexivity. }
  pose proof (moved_renaming (cn_names c) vp pf ND PV LP PM) as REN. fold mv in REN.
  set (m := List.length (cn_clauses c)) in *.
  assert (SC : forall cl, In cl (cn_clauses c) -> map sub cl = map mv cl).
  { intros cl Hc. apply map_ext_in. intros l Hl. apply SM. eauto. }
  destruct (place_ok (cn_clauses c) sub cp 0%nat (repeat None m)) as (out & -> & LO & PO & _).
  { apply (Permutation_NoDup (Permutation_sym PC)). apply range_NoDup. }
  { intros i Hi. rewrite repeat_length. apply (Permutation_in _ PC) in Hi. apply range_In in Hi. tlia. }
  { rewrite (Permutation_length PC), range_length. unfold m. tlia. }
  cbn [bind]. rewrite repeat_length in LO.
  assert (LC : List.length cp = m) by (rewrite (Permutation_length PC), range_length; tlia).
  assert (PK : forall k i, nth_error cp k = Some i -> exists cl, nth_error (cn_clauses c) k = Some cl /\ nth_error out (Z.to_nat i) = Some (Some (map mv cl))).
  { intros k i Hk. specialize (PO k i Hk). cbn [plus] in PO. destruct (nth_error (cn_clauses c) k) as [cl|] eqn:E.
    - exists cl. split; auto. rewrite PO. cbn [option_map]. rewrite SC by (eapply nth_error_In; eauto). reflexivity.
    - apply nth_error_None in E. apply nth_error_Some_length in Hk. fold m in E. tlia. }
  destruct (list_of_options out) as (cls & ->).
  { intros x Hx. apply In_nth_error in Hx as (j & Hj). pose proof (nth_error_Some_length _ _ _ Hj) as Lj. rewrite LO in Lj. destruct (perm_range_lookup cp _ j PC Lj) as (k & Hk). destruct (PK k _ Hk) as (cl & _ & E). rewrite Nat2Z.id in E. congruence. }
  rewrite map_length in LO.
  assert (EQ : map (fun i => nth (Z.to_nat i) cls []) cp = map (map mv) (cn_clauses c)).
  { apply (nth_ext _ _ [] []); [rewrite !map_length; auto|]. intros k Hk. rewrite map_length in Hk.
    destruct (nth_error cp k) as [i|] eqn:E; [|apply nth_error_None in E; tlia]. destruct (PK k i E) as (cl & E1 & E2). rewrite nth_error_map in E2. destruct (nth_error cls (Z.to_nat i)) as [d|] eqn:E3; [|discriminate]. cbn in E2.
    rewrite (nth_error_nth _ _ [] (map_nth_error (fun i => nth (Z.to_nat i) cls []) _ _ E)). rewrite (nth_error_nth _ _ [] (map_nth_error (map mv) _ _ E1)). rewrite (nth_error_nth _ _ [] E3). congruence. }
  assert (ID : map (fun i => nth (Z.to_nat i) cls []) (range 0 (Z.of_nat m)) = cls).
  { apply (nth_ext _ _ [] []); [rewrite map_length, range_length; tlia|]. intros k Hk. rewrite map_length, range_length in Hk. assert (E : nth_error (range 0 (Z.of_nat m)) k = Some (Z.of_nat k)).
    { assert (B : (k < List.length (seq 0 (Z.to_nat (Z.of_nat m - 0))))%nat) by (rewrite seq_length; lia).
      unfold range. rewrite nth_error_map, (nth_error_nth' _ O B), seq_nth by (rewrite seq_length in B; lia). reflexivity. }
    rewrite (nth_error_nth _ _ [] (map_nth_error (fun i => nth (Z.to_nat i) cls []) _ _ E)), Nat2Z.id. reflexivity. }
  assert (PP : Permutation cls (map (map mv) (cn_clauses c))) by (rewrite <- EQ, <- ID at 1; apply Permutation_map; symmetry; auto).
  assert (RC : forall cl l, In cl cls -> In l cl -> 1 <= Z.abs l <= Z.of_nat (List.length vp)).
  { intros cl l Hc Hl. apply (Permutation_in _ PP) in Hc. apply in_map_iff in Hc as (d & <- & Hd). apply in_map_iff in Hl as (z & <- & Hz). rewrite (Permutation_length PV). apply (rn_range _ _ REN). eauto. }
  rewrite coherent_ok by auto. cbn [bind]. exists cls. split; [reflexivity|]. split; [split; auto|]. split; auto. intros ->. rewrite <- EQ, ID. reflexivity.
Qed.
(* a renaming keeps satisfiability *)
Lemma renamed_value n sigma : renaming n sigma -> forall a, exists b, forall l, 1 <= Z.abs l <= n -> lit_true b (sigma l) = lit_true a l.
Proof.
  intros R a. exists (fun w => existsb (fun v => (sigma v =? w) && a v || (sigma v =? - w) && negb (a v)) (range 1 (n + 1))).
  assert (P : forall v, 1 <= v <= n -> lit_true (fun w => existsb (fun v => (sigma v =? w) && a v || (sigma v =? - w) && negb (a v)) (range 1 (n + 1))) (sigma v) = a v).
  { intros v Hv. assert (B : 1 <= Z.abs (sigma v) <= n) by (apply (rn_range _ _ R); lia). set (s := sigma v) in *.
    assert (U : forall u, 1 <= u <= n -> sigma u = s -> u = v) by (intros u Hu E; apply (rn_different _ _ R); auto; lia).
    assert (W : forall u, 1 <= u <= n -> sigma u <> - s) by (intros u Hu E; unfold s in E; rewrite <- (rn_negation _ _ R) in E; apply (rn_different _ _ R) in E; lia).
    unfold lit_true. destruct (Z.ltb_spec s 0) as [N|N].
    - rewrite <- (negb_involutive (a v)). f_equal. apply eq_true_iff_eq. rewrite existsb_exists. split.
      + intros (u & Hu & K). apply range_In in Hu. apply orb_true_iff in K as [K|K]; apply andb_true_iff in K as [K1 K2]; apply Z.eqb_eq in K1; [exfalso; apply (W u); auto; lia|]. rewrite Z.opp_involutive in K1. rewrite <- (U u); auto. lia.
      + intros K. exists v. split; [apply range_In; lia|]. apply orb_true_iff. right. apply andb_true_iff. split; auto. apply Z.eqb_eq. unfold s. lia.
    - apply eq_true_iff_eq. rewrite existsb_exists. split.
      + intros (u & Hu & K). apply range_In in Hu. apply orb_true_iff in K as [K|K]; apply andb_true_iff in K as [K1 K2]; apply Z.eqb_eq in K1; [|exfalso; apply (W u); auto; lia]. rewrite <- (U u); auto. lia.
      + intros K. exists v. split; [apply range_In; lia|]. apply orb_true_iff. left. apply andb_true_iff. split; auto. apply Z.eqb_eq. reflexivity. }
  intros l B. destruct (Z_lt_le_dec l 0) as [N|N].
  - replace (sigma l) with (- sigma (- l)) by (rewrite <- (rn_negation _ _ R); f_equal; lia). specialize (P (- l) ltac:(lia)). assert (B' : 1 <= Z.abs (sigma (- l)) <= n) by (apply (rn_range _ _ R); lia).
    match goal with |- lit_true ?b (- ?s) = _ => assert (Q : lit_true b (- s) = negb (lit_true b s)) end.
    { unfold lit_true. destruct (Z.ltb_spec (- sigma (- l)) 0), (Z.ltb_spec (sigma (- l)) 0); try lia; rewrite ?Z.opp_involutive, ?negb_involutive; reflexivity. }
    rewrite Q, P. unfold lit_true. destruct (Z.ltb_spec l 0); [reflexivity|lia].
  - rewrite P by lia. unfold lit_true. destruct (Z.ltb_spec l 0); [lia|reflexivity].
Qed.
Lemma renamed_satisfiable n sigma F F' : renaming n sigma -> over n F -> Permutation F' (map (map sigma) F) -> (satisfiable F' <-> satisfiable F).
Proof.
  intros R O P. split.
  - intros (b & H). exists (fun v => lit_true b (sigma v)). intros cl Hc. destruct (H (map sigma cl)) as (l' & Hl & E); [apply (Permutation_in _ (Permutation_sym P)); apply in_map; auto|].
    apply in_map_iff in Hl as (l & <- & Hl). exists l. split; auto. specialize (O cl l Hc Hl). unfold lit_true at 1. destruct (Z.ltb_spec l 0) as [N|N]; auto.
    rewrite (rn_negation _ _ R). pose proof (rn_range _ _ R l O) as B. rewrite <- E. unfold lit_true. destruct (Z.ltb_spec (- sigma l) 0), (Z.ltb_spec (sigma l) 0); try lia; rewrite ?Z.opp_involutive, ?negb_involutive; reflexivity.
  - intros (a & H). destruct (renamed_value n sigma R a) as (b & K). exists b. intros d Hd. apply (Permutation_in _ P) in Hd. apply in_map_iff in Hd as (cl & <- & Hc). destruct (H cl Hc) as (l & Hl & E).
    exists (sigma l). split; [apply in_map; auto|]. rewrite K; eauto.
Qed.
