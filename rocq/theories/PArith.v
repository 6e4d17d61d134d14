(* PArith.v -- lemmas about the factoring and multiplication preprocessors and the decoding of solutions. *)
From Coq Require Import String Ascii ZArith List Bool Lia Permutation Sorted.
From Verif Require Import Spec PyBase MSet MText MQueue MDb MSolver MMain SpecInput SpecRun PLib PClause
  PRename PLo PNorm PEval PText PQueue PNode PStep PRun PStats PSolver PSolve PSearch PGraph PReader PMain
  PP1 PP2.
Import ListNotations.
Open Scope Z_scope.

(* ---- numbers in binary ---- *)
Lemma bits_value_app a b : bits_value (a ++ b) = bits_value a + 2 ^ Z.of_nat (List.length a) * bits_value b.
Proof.
  induction a as [|x a IH]; [change (2 ^ Z.of_nat (List.length (@nil bool))) with 1; cbn [app bits_value]; lia|]. cbn [app bits_value List.length]. rewrite IH, Nat2Z.inj_succ, Z.pow_succ_r by lia. lia.
Qed.
Lemma bits_value_range a : 0 <= bits_value a < 2 ^ Z.of_nat (List.length a).
Proof.
  induction a as [|x a IH]; [cbn; lia|]. cbn [bits_value List.length]. rewrite Nat2Z.inj_succ, Z.pow_succ_r by lia.
  destruct x; lia.
Qed.
Lemma bits_value_inj a b : List.length a = List.length b -> bits_value a = bits_value b -> a = b.
Proof.
  revert b. induction a as [|x a IH]; intros [|y b]; cbn [List.length bits_value]; intros L E; try discriminate; auto.
  injection L as L. assert (x = y) by (destruct x, y; auto; lia). subst. f_equal. apply IH; auto. lia.
Qed.
Lemma bits_value_false n : bits_value (repeat false n) = 0.
Proof. induction n; cbn [repeat bits_value]; lia. Qed.
Lemma pos_bits_value p : bits_value (pos_bits p) = Zpos p.
Proof. induction p; cbn [pos_bits bits_value]; lia. Qed.
Lemma pos_bits_low p : 2 ^ Z.of_nat (List.length (pos_bits p)) <= 2 * Zpos p.
Proof.
  induction p; cbn [pos_bits List.length]; try (rewrite Nat2Z.inj_succ, Z.pow_succ_r by lia; cbn [List.length Z.of_nat]; lia).
Qed.
Lemma pos_bits_ne p : pos_bits p <> [].
Proof. destruct p; discriminate. Qed.
Lemma pad_bits_fits n len : 0 < n -> (Z.of_nat (List.length (pad_bits n len)) <= len <-> n < 2 ^ len).
Proof.
  intros Hn. destruct n as [|p|p]; try lia. unfold pad_bits, bin_rev. rewrite app_length, repeat_length.
  pose proof (pos_bits_low p) as L. pose proof (bits_value_range (pos_bits p)) as R. rewrite pos_bits_value in R.
  set (k := List.length (pos_bits p)) in *.
  assert (Hk : (0 < k)%nat) by (unfold k; destruct (pos_bits p) eqn:E; [edestruct pos_bits_ne; eauto|simpl; lia]).
  split; intros H.
  - apply Z.lt_le_trans with (2 ^ Z.of_nat k); [lia|]. apply Z.pow_le_mono_r; lia.
  - assert (Z.of_nat k <= len); [|lia]. destruct (Z_le_gt_dec (Z.of_nat k) len); auto. exfalso.
    destruct (Z_lt_le_dec len 0); [rewrite Z.pow_neg_r in H; lia|].
    assert (2 ^ (len + 1) <= 2 ^ Z.of_nat k) by (apply Z.pow_le_mono_r; lia).
    rewrite Z.pow_add_r in H0 by lia. change (2 ^ 1) with 2 in H0. lia.
Qed.
Lemma pad_bits_length n len : 0 < n -> n < 2 ^ len -> Z.of_nat (List.length (pad_bits n len)) = len.
Proof.
  intros H1 H2. pose proof (proj2 (pad_bits_fits n len H1) H2) as H. unfold pad_bits in *.
  rewrite app_length, repeat_length in *. lia.
Qed.
Lemma pad_bits_value n len : 0 < n -> bits_value (pad_bits n len) = n.
Proof.
  intros H. destruct n as [|p|p]; try lia. unfold pad_bits, bin_rev.
  rewrite bits_value_app, bits_value_false, pos_bits_value. lia.
Qed.

(* ---- the values of lists of variables ---- *)
Lemma value_of_app a xs ys : value_of a (xs ++ ys) = value_of a xs + 2 ^ Z.of_nat (List.length xs) * value_of a ys.
Proof. unfold value_of. rewrite map_app, bits_value_app, map_length. auto. Qed.
Lemma value_of_ext a b xs : (forall v, In v xs -> a v = b v) -> value_of a xs = value_of b xs.
Proof. intros H. unfold value_of. f_equal. apply map_ext_in; auto. Qed.
(* assignment with v changed to b *)
Definition upd (a : assignment) (v : Z) (b : bool) : assignment := fun u => if u =? v then b else a u.
Lemma upd_same a v b : upd a v b v = b.
Proof. unfold upd. rewrite Z.eqb_refl. auto. Qed.
Lemma upd_other a v b u : u <> v -> upd a v b u = a u.
Proof. unfold upd. destruct (Z.eqb_spec u v); congruence. Qed.
Lemma value_upd_le a v xs : value_of (upd a v false) xs <= value_of (upd a v true) xs.
Proof.
  unfold value_of. induction xs as [|x xs IH]; cbn [map bits_value]; [lia|].
  unfold upd at 1 3. destruct (x =? v); destruct (a x); lia.
Qed.
Lemma value_upd_lt a v xs : In v xs -> value_of (upd a v false) xs < value_of (upd a v true) xs.
Proof.
  induction xs as [|x xs IH]; [intros []|]. intros Hv. pose proof (value_upd_le a v xs) as Hle.
  unfold value_of in *. cbn [map bits_value]. destruct (Z.eqb_spec x v) as [->|Hn].
  - rewrite !upd_same. lia.
  - rewrite !upd_other by auto. destruct Hv as [->|Hv]; [congruence|]. specialize (IH Hv). lia.
Qed.
Lemma value_upd_notin a v b xs : ~ In v xs -> value_of (upd a v b) xs = value_of a xs.
Proof. intros H. apply value_of_ext. intros u Hu. apply upd_other. congruence. Qed.

Lemma one_to_in n v : In v (one_to n) <-> 1 <= v <= Z.of_nat n.
Proof.
  unfold one_to. rewrite in_map_iff. split.
  - intros (k & <- & H). apply in_seq in H. lia.
  - intros H. exists (Z.to_nat v). split; [lia|]. apply in_seq. lia.
Qed.
Lemma next_vars_in k n v : In v (next_vars k n) <-> k + 1 <= v <= k + n.
Proof.
  unfold next_vars. rewrite in_map_iff. split.
  - intros (i & <- & H). apply in_seq in H. lia.
  - intros H. exists (Z.to_nat (v - k)). split; [lia|]. apply in_seq. lia.
Qed.
Lemma next_vars_length k n : List.length (next_vars k n) = Z.to_nat n.
Proof. unfold next_vars. rewrite map_length, seq_length. auto. Qed.
Lemma one_to_next_vars n : one_to (Z.to_nat n) = next_vars 0 n.
Proof. unfold one_to, next_vars. apply map_ext. intros; lia. Qed.
Lemma seq_plus n a m : seq (n + a) m = map (Nat.add n) (seq a m).
Proof. revert a. induction m as [|m IH]; intros a; cbn [seq map]; auto. f_equal. rewrite <- IH. f_equal. lia. Qed.
Lemma next_vars_app k n m : 0 <= n -> 0 <= m -> next_vars k (n + m) = next_vars k n ++ next_vars (k + n) m.
Proof.
  intros Hn Hm. unfold next_vars. rewrite Z2Nat.inj_add by auto. rewrite seq_app, map_app. f_equal.
  rewrite (Nat.add_comm 1), seq_plus, map_map. apply map_ext. intros i. lia.
Qed.

(* ---- the factoring preprocessor ---- *)
Definition set_units (us : list Z) (d : list (Z * bool)) : list (Z * bool) :=
  fold_left (fun d v => dset Z.eqb (Z.abs v) (0 <? v) d) us d.
Lemma unit_scan_spec cs i d n : 0 <= i ->
  unit_scan cs i d n = (set_units (unit_literals (map raw cs)) d,
                        n + 2 ^ i * bits_value (map (Z.ltb 0) (unit_literals (map raw cs)))).
Proof.
  revert i d n. induction cs as [|c cs IH]; intros i d n Hi; cbn [unit_scan map unit_literals flat_map].
  - cbn. f_equal. lia.
  - destruct (raw c) as [|v [|w r]]; cbn [app]; try (apply IH; auto).
    rewrite IH by lia. unfold set_units. cbn [fold_left map bits_value]. f_equal.
    rewrite Z.pow_add_r by lia. fold (unit_literals (map raw cs)). change (2 ^ 1) with 2. lia.
Qed.
Lemma set_units_NoDup us d : NoDup (dkeys d) -> NoDup (dkeys (set_units us d)).
Proof. revert d. induction us as [|u us IH]; intros d H; cbn; auto. apply IH. apply dset_NoDup; auto. apply zspec. Qed.
Lemma filter_twice {A} (f g : A -> bool) l : filter f (filter g l) = filter (fun x => g x && f x) l.
Proof. induction l as [|x l IH]; cbn [filter]; auto. destruct (g x); cbn [filter andb]; rewrite IH; auto. Qed.
Lemma set_units_keys us d : dkeys (set_units us d) =
  dkeys d ++ filter (fun v => negb (dmem Z.eqb v d)) (first_occurrences (map Z.abs us)).
Proof.
  revert d. induction us as [|u us IH]; intros d; cbn [set_units fold_left map first_occurrences filter].
  - rewrite app_nil_r; auto.
  - change (fold_left _ us ?x) with (set_units us x). rewrite IH, (dset_keys _ zspec).
    destruct (dmem Z.eqb (Z.abs u) d) eqn:E; cbn [negb].
    + f_equal. rewrite filter_twice. apply filter_ext. intros v. unfold dmem.
      destruct (Z.eqb_spec v (Z.abs u)) as [->|Hn].
      * rewrite (dget_dset_same _ zspec). unfold dmem in E. destruct (dget Z.eqb (Z.abs u) d); [auto|discriminate].
      * rewrite (dget_dset_other _ zspec) by congruence. cbn [negb]. rewrite andb_true_r || rewrite andb_true_l; auto.
    + rewrite <- app_assoc. cbn [app]. do 2 f_equal. rewrite filter_twice. apply filter_ext. intros v. unfold dmem.
      destruct (Z.eqb_spec v (Z.abs u)) as [->|Hn].
      * rewrite (dget_dset_same _ zspec). unfold dmem in E. destruct (dget Z.eqb (Z.abs u) d); [discriminate|auto].
      * rewrite (dget_dset_other _ zspec) by congruence. cbn [negb]. rewrite andb_true_r || rewrite andb_true_l; auto.
Qed.
Lemma set_units_in us d v b : In (v, b) (set_units us d) ->
  In (v, b) d \/ exists u, In u us /\ v = Z.abs u /\ b = (0 <? u).
Proof.
  revert d. induction us as [|u us IH]; intros d; cbn [set_units fold_left]; auto.
  intros H. apply IH in H as [H|(w & H1 & H2)].
  - apply dset_In in H as [[-> ->]|H]; [|auto|apply zspec]. right. exists u. split; [left|]; auto.
  - right. exists w. split; [right|]; auto.
Qed.
Lemma unit_literals_in F l : In l (unit_literals F) <-> In [l] F.
Proof.
  unfold unit_literals. rewrite in_flat_map. split.
  - intros (c & Hc & Hl). destruct c as [|x [|y r]]; try destruct Hl as [<-|[]]; try destruct Hl. auto.
  - intros H. exists [l]. split; auto. left; auto.
Qed.
Lemma unit_true a l : clause_true a [l] <-> lit_true a l = true.
Proof. split; [intros (x & [<-|[]] & H); auto|intros H; exists l; split; [left|]; auto]. Qed.
Lemma lit_true_sign a l : l <> 0 -> lit_true a l = true -> a (Z.abs l) = (0 <? l).
Proof.
  intros Hl. unfold lit_true. destruct (Z.ltb_spec l 0).
  - replace (- l) with (Z.abs l) by lia. destruct (a (Z.abs l)), (Z.ltb_spec 0 l); try lia; auto; discriminate.
  - replace (Z.abs l) with l by lia. destruct (Z.ltb_spec 0 l); auto; lia.
Qed.

(* m overridden by d *)
Definition override (d : list (Z * bool)) (m : assignment) : assignment :=
  fun v => match dget Z.eqb v d with Some b => b | None => m v end.
Lemma override_extends d m : NoDup (dkeys d) -> extends (override d m) d.
Proof. intros N v b H. unfold override. rewrite (dget_In_NoDup _ zspec _ _ _ N H). auto. Qed.
Lemma restrict_all_vars d F v : In v (fvars (restrict_all d F)) -> ~ In v (dkeys d) /\ In v (fvars F).
Proof.
  intros H. apply in_fvars in H as (c & Hc & Hv). unfold restrict_all in Hc.
  apply in_map_iff in Hc as (c0 & <- & Hc0). apply filter_In in Hc0 as [Hc0 _].
  unfold cvars in Hv. apply in_map_iff in Hv as (l & <- & Hl). apply filter_In in Hl as [Hl Ha]. split.
  - intros Hk. rewrite assigned_dget in Ha. apply (dmem_In _ zspec) in Hk. rewrite Hk in Ha. discriminate.
  - apply in_fvars. exists c0. split; auto. apply in_map; auto.
Qed.
Lemma cnf_true_ext a b F : (forall v, In v (fvars F) -> a v = b v) -> cnf_true a F -> cnf_true b F.
Proof.
  intros H Ha c Hc. destruct (Ha c Hc) as (l & Hl & Ht). exists l. split; auto. rewrite <- Ht. unfold lit_true.
  assert (In (Z.abs l) (fvars F)) by (apply in_fvars; exists c; split; auto; apply in_map; auto).
  destruct (Z.ltb_spec l 0).
  - replace (- l) with (Z.abs l) by lia. rewrite H; auto.
  - replace l with (Z.abs l) by lia. rewrite H; auto.
Qed.
Lemma override_restrict d m F : cnf_true m (restrict_all d F) -> cnf_true (override d m) (restrict_all d F).
Proof.
  apply cnf_true_ext. intros v Hv. apply restrict_all_vars in Hv as [Hv _]. unfold override.
  apply (dget_None _ zspec) in Hv. rewrite Hv. auto.
Qed.

Lemma factorize_spec s x y z rest : raws s = [x; y; z] :: rest -> 0 < y ->
  (forall c l, In c (raws s) -> In l c -> l <> 0) ->
  let units := unit_literals (raws s) in
  let number := bits_value (map (Z.ltb 0) units) in
  let forced := if Z.odd number then [[1]; [y]] else [] in
  let vm := set_units (units ++ concat forced) [] in
  factorize s = Some (mkFact number (first_occurrences (map Z.abs units)) (y - 1) (Z.abs z - y),
                      substitute_vars (set_evaluated s vm) vm).
Proof.
  intros E Hy Hz units number forced vm. unfold factorize, sabry_head.
  assert (exists c cs, clauses s = c :: cs /\ raw c = [x; y; z]) as (c & cs & Ec & Er).
  { unfold raws in E. destruct (clauses s) as [|c cs]; [discriminate|]. injection E as E _. eauto. }
  rewrite Ec, Er. rewrite <- Ec. rewrite unit_scan_spec by lia. fold (raws s). fold units. fold number.
  replace (0 + 2 ^ 0 * number) with number by (change (2 ^ 0) with 1; lia).
  assert (Ek : dkeys (set_units units []) = first_occurrences (map Z.abs units)).
  { rewrite set_units_keys. cbn [dkeys map app]. rewrite filter_all_id; auto. }
  rewrite Ek. cbn [f1_len]. do 2 f_equal.
  assert (Ev : (if Z.odd number then dset Z.eqb (y - 1 + 1) true (dset Z.eqb 1 true (set_units units []))
                else set_units units []) = vm).
  { unfold vm, forced. destruct (Z.odd number); cbn [concat app]; [|rewrite app_nil_r; auto].
    unfold set_units. rewrite fold_left_app. cbn [fold_left].
    replace (y - 1 + 1) with y by lia. rewrite (Z.abs_eq y) by lia. rewrite (proj2 (Z.ltb_lt 0 y)) by lia. auto. }
  rewrite Ev. auto.
Qed.

(* ---- slices and decoding ---- *)
Lemma py_slice_eq {A} (l : list A) a b : 0 <= a <= b ->
  py_slice l a b = firstn (Z.to_nat (b - a)) (skipn (Z.to_nat a) l).
Proof.
  intros H. unfold py_slice, slice_bound. destruct (Z.ltb_spec a 0); [lia|]. destruct (Z.ltb_spec b 0); [lia|].
  set (n := Z.of_nat (List.length l)). assert (Hn : n = Z.of_nat (List.length l)) by auto.
  destruct (Z_le_gt_dec a n).
  - rewrite (Z.min_l a n) by auto. destruct (Z_le_gt_dec b n).
    + rewrite Z.min_l by auto. auto.
    + rewrite Z.min_r by lia. rewrite !firstn_all2; auto; rewrite skipn_length; lia.
  - rewrite (Z.min_r a n), (Z.min_r b n) by lia. rewrite !skipn_all2 by lia. rewrite !firstn_nil. auto.
Qed.
Lemma sorted_prefix ks m n : StronglySorted Z.lt ks -> (forall v, In v ks -> m + 1 <= v) ->
  incl (next_vars m (Z.of_nat n)) ks -> firstn n ks = next_vars m (Z.of_nat n).
Proof.
  revert m ks. induction n as [|n IH]; intros m ks S L I; auto.
  assert (Ea : next_vars m (Z.of_nat (Datatypes.S n)) = (m + 1) :: next_vars (m + 1) (Z.of_nat n)).
  { replace (Z.of_nat (Datatypes.S n)) with (1 + Z.of_nat n) by lia. rewrite next_vars_app by lia. reflexivity. }
  rewrite Ea in *. destruct ks as [|k ks]; [destruct (I (m + 1)); left; auto|]. cbn [firstn].
  apply StronglySorted_inv in S as [S F]. rewrite Forall_forall in F.
  assert (Ek : k = m + 1).
  { destruct (I (m + 1)) as [|H]; [left; auto|auto|]. specialize (F _ H). specialize (L k (or_introl eq_refl)). lia. }
  subst k. f_equal. apply IH; auto.
  - intros v Hv. specialize (F v Hv). lia.
  - intros v Hv. destruct (I v) as [H|H]; [right; auto| |auto]. apply next_vars_in in Hv. lia.
Qed.
Lemma values_of_keys asg (sol : list (Z * bool)) : extends asg sol -> map snd sol = map asg (dkeys sol).
Proof.
  intros H. unfold dkeys. rewrite map_map. apply map_ext_in. intros [k b] Hi. cbn. symmetry. apply H; auto.
Qed.
Lemma int_bits_value bs : bs <> [] -> int_bits bs = Ok (bits_value bs).
Proof. destruct bs; [congruence|auto]. Qed.
Lemma next_vars_ne k n : 0 < n -> next_vars k n <> [].
Proof. intros H E. apply (f_equal (@List.length _)) in E. rewrite next_vars_length in E. simpl in E. lia. Qed.

Lemma decode_factors_spec info sol asg : 0 < f1_len info -> 0 < f2_len info ->
  f1_len info + f2_len info <= Z.of_nat (List.length (f_num_bits info)) ->
  StronglySorted Z.lt (dkeys sol) -> (forall v, In v (dkeys sol) -> 1 <= v) ->
  incl (next_vars 0 (f1_len info + f2_len info)) (dkeys sol) -> extends asg sol ->
  decode_factors info sol =
    Ok (value_of asg (next_vars 0 (f1_len info)), value_of asg (next_vars (f1_len info) (f2_len info))).
Proof.
  intros H1 H2 Hn S L I E. unfold decode_factors. set (f1 := f1_len info) in *. set (f2 := f2_len info) in *.
  set (n := Z.of_nat _) in *. rewrite !py_slice_eq by lia. cbn [Z.to_nat skipn].
  replace (n - 0) with n by lia. replace (f1 - 0) with f1 by lia. replace (f1 + f2 - f1) with f2 by lia.
  pose proof (sorted_prefix (dkeys sol) 0 (Z.to_nat (f1 + f2)) S) as P. rewrite Z2Nat.id in P by lia.
  specialize (P L I). rewrite next_vars_app in P by lia. cbn [Z.add] in P.
  assert (Es : firstn (Z.to_nat (f1 + f2)) (map snd sol) = map asg (next_vars 0 f1) ++ map asg (next_vars f1 f2)).
  { rewrite (values_of_keys asg sol E), firstn_map, P, map_app. auto. }
  assert (Hl1 : List.length (map asg (next_vars 0 f1)) = Z.to_nat f1) by (rewrite map_length, next_vars_length; auto).
  assert (Hl2 : List.length (map asg (next_vars f1 f2)) = Z.to_nat f2) by (rewrite map_length, next_vars_length; auto).
  assert (A : firstn (Z.to_nat f1) (firstn (Z.to_nat n) (map snd sol)) = map asg (next_vars 0 f1)).
  { rewrite firstn_firstn. replace (Init.Nat.min (Z.to_nat f1) (Z.to_nat n)) with (Z.to_nat f1) by lia.
    replace (Z.to_nat f1) with (Init.Nat.min (Z.to_nat f1) (Z.to_nat (f1 + f2))) by lia.
    rewrite <- firstn_firstn, Es. rewrite <- Hl1 at 1. rewrite firstn_app, firstn_all, Nat.sub_diag. cbn. apply app_nil_r. }
  assert (B : firstn (Z.to_nat f2) (skipn (Z.to_nat f1) (firstn (Z.to_nat n) (map snd sol))) = map asg (next_vars f1 f2)).
  { rewrite firstn_skipn_comm, firstn_firstn.
    replace (Init.Nat.min (Z.to_nat f1 + Z.to_nat f2) (Z.to_nat n)) with (Z.to_nat (f1 + f2)) by lia.
    rewrite Es. rewrite <- Hl1 at 1. rewrite skipn_app, skipn_all, Nat.sub_diag. reflexivity. }
  rewrite A, B. rewrite !int_bits_value; cbn [bind]; auto.
  - intros E0. apply map_eq_nil in E0. eapply next_vars_ne; eauto.
  - intros E0. apply map_eq_nil in E0. eapply (next_vars_ne 0 f1); eauto.
Qed.

(* ---- the multiplication preprocessor ---- *)
Lemma extends_combine asg ks bs : List.length ks = List.length bs ->
  (extends asg (combine ks bs) <-> map asg ks = bs).
Proof.
  revert bs. induction ks as [|k ks IH]; intros [|b bs]; cbn [List.length combine map]; intros L; try discriminate.
  - split; auto. intros _ v c [].
  - injection L as L. specialize (IH bs L). split.
    + intros H. f_equal; [apply H; left; auto|]. apply IH. intros v c Hi. apply H. right; auto.
    + intros H. injection H as H1 H2. intros v c [Hi|Hi]; [congruence|]. apply IH; auto.
Qed.
Lemma result_bits_eq cs : concat (map (fun c => map Z.abs (raw c)) (filter is_unit cs)) =
  map Z.abs (unit_literals (map raw cs)).
Proof.
  induction cs as [|c cs IH]; cbn [map filter unit_literals flat_map]; auto. unfold is_unit.
  destruct (raw c) as [|v [|w r]] eqn:E; auto. cbn [map concat app]. rewrite E. cbn [map app]. f_equal. auto.
Qed.
Lemma non_units_eq cs : map raw (filter (fun c => negb (is_unit c)) cs) = non_units (map raw cs).
Proof.
  induction cs as [|c cs IH]; cbn [map filter non_units]; auto. unfold is_unit.
  destruct (raw c) as [|v [|w r]] eqn:E; cbn [List.length Nat.eqb negb map]; rewrite ?E; f_equal; auto.
Qed.
Lemma combine_keys {A B} (ks : list A) (bs : list B) : List.length ks = List.length bs -> map fst (combine ks bs) = ks.
Proof. revert bs. induction ks as [|k ks IH]; intros [|b bs]; cbn; intros L; try discriminate; auto. f_equal. auto. Qed.
Lemma next_vars_NoDup k n : NoDup (next_vars k n).
Proof. unfold next_vars. apply FinFun.Injective_map_NoDup; [|apply seq_NoDup]. intros i j H. lia. Qed.

Lemma multiply_spec s x y z rest a b : raws s = [x; y; z] :: rest -> 1 < a -> 1 < b ->
  let f1 := y - 1 in let f2 := Z.abs z - y in
  let hi := Z.max a b in let lo := Z.min a b in
  multiply s a b =
    if (hi <? 2 ^ f1) && (lo <? 2 ^ f2)
    then let vm := combine (next_vars 0 (f1 + f2)) (pad_bits hi f1 ++ pad_bits lo f2) in
         let s1 := set_clauses s (filter (fun c => negb (is_unit c)) (clauses s)) in
         Some (map Z.abs (unit_literals (raws s)), f1, f2, substitute_vars (set_evaluated s1 vm) vm)
    else None.
Proof.
  intros E Ha Hb f1 f2 hi lo. unfold multiply, sabry_head.
  assert (exists c cs, clauses s = c :: cs /\ raw c = [x; y; z]) as (c & cs & Ec & Er).
  { unfold raws in E. destruct (clauses s) as [|c cs]; [discriminate|]. injection E as E _. eauto. }
  rewrite Ec, Er. rewrite <- Ec. fold f1. fold f2.
  assert (Ep : (if a <? b then (b, a) else (a, b)) = (hi, lo)).
  { unfold hi, lo. destruct (Z.ltb_spec a b); f_equal; lia. }
  rewrite Ep. assert (H1 : 0 < hi) by lia. assert (H2 : 0 < lo) by lia.
  pose proof (pad_bits_fits hi f1 H1) as P1. pose proof (pad_bits_fits lo f2 H2) as P2.
  rewrite !Z.ltb_antisym, <- negb_andb.
  assert (Eq : (Z.of_nat (List.length (pad_bits hi f1)) <=? f1) && (Z.of_nat (List.length (pad_bits lo f2)) <=? f2)
          = (hi <? 2 ^ f1) && (lo <? 2 ^ f2)).
  { f_equal; apply eq_true_iff_eq; rewrite Z.leb_le, Z.ltb_lt; auto. }
  rewrite Eq. rewrite !Z.ltb_antisym in *. destruct (negb _ && negb _) eqn:E2; cbn [negb]; auto.
  apply andb_true_iff in E2 as [E3 E4]. rewrite <- Z.ltb_antisym, Z.ltb_lt in E3, E4.
  pose proof (pad_bits_length hi f1 H1 E3) as L1. pose proof (pad_bits_length lo f2 H2 E4) as L2.
  rewrite result_bits_eq. fold (raws s).
  assert (El : map Z.of_nat (seq 1 (List.length (pad_bits hi f1 ++ pad_bits lo f2))) = next_vars 0 (f1 + f2)).
  { fold (one_to (List.length (pad_bits hi f1 ++ pad_bits lo f2))). rewrite <- one_to_next_vars. f_equal. rewrite app_length. lia. }
  rewrite El. auto.
Qed.

(* ---- the preprocessed set is a proper input of the solver unless a clause was emptied ---- *)
Lemma preprocessed_ok s s1 d : root_ok s -> incl (clauses s1) (clauses s) -> svalue s1 = svalue s ->
  final_names_map s1 = final_names_map s -> (forall c l, In c (raws s) -> In l c -> l <> 0) ->
  NoDup (dkeys d) -> (forall v, In v (dkeys d) -> 0 <= v) ->
  let s' := substitute_vars (set_evaluated s1 d) d in
  raws s' <> [] -> ~ In [] (raws s') -> root_ok s'.
Proof.
  intros RO I Hv Hf Hz N P s' Hne He.
  assert (Hz1 : Forall (fun l => l <> 0) (concat (raws (set_evaluated s1 d)))).
  { apply Forall_forall. intros l Hl. apply in_concat in Hl as (c & Hc & Hl). apply (Hz c l); auto.
    unfold raws in *. cbn [clauses set_evaluated] in Hc. apply in_map_iff in Hc as (k & <- & Hk). apply in_map; auto. }
  pose proof (substitute_spec (set_evaluated s1 d) d N Hz1) as F2. fold s' in F2.
  pose proof (substitute_raws (set_evaluated s1 d) d N Hz1) as Er. fold s' in Er.
  assert (Hin : forall c', In c' (clauses s') -> exists c, In c (clauses s) /\ subst_result d c c').
  { intros c' Hc'. revert F2 Hc'. cbn [clauses set_evaluated]. generalize (clauses s').
    assert (K : forall c, In c (filter (fun c => negb (existsb (satisfied_by d) (raw c))) (clauses s1)) -> In c (clauses s)).
    { intros c Hc. apply filter_In in Hc as [Hc _]. auto. }
    revert K. generalize (filter (fun c => negb (existsb (satisfied_by d) (raw c))) (clauses s1)).
    intros l K l' F2 Hi. induction F2 as [|c c2 l l' H F2 IH]; [destruct Hi|].
    destruct Hi as [<-|Hi]; [exists c; split; auto; apply K; left; auto|]. apply IH; auto. intros k Hk. apply K; right; auto. }
  split; try apply RO.
  - intros E. apply Hne. unfold raws. rewrite E. auto.
  - intros c Hc ->. auto.
  - intros c Hc. unfold raws in Hc. apply in_map_iff in Hc as (k & <- & Hk). destruct (Hin k Hk) as (c0 & H0 & (-> & _)).
    apply filter_distinct. apply (ro_distinct s RO). apply in_map; auto.
  - intros k Hk. destruct (Hin k Hk) as (c0 & H0 & (E1 & _ & _ & E4)). rewrite E4.
    rewrite (ro_undec s RO c0 H0). destruct (raw k) eqn:Ek; auto. exfalso. apply He. rewrite <- Ek. apply in_map; auto.
  - change (svalue s1 = None). rewrite Hv. apply RO.
  - change (final_names_map s1 = []). rewrite Hf. apply RO.
  - exact N.
  - exact P.
  - intros v Hk Hf0. rewrite Er in Hf0. apply restrict_all_vars in Hf0 as [Hf0 _]. apply Hf0. exact Hk.
Qed.

(* variables left open by a solution do not matter, so none that an output number depends on is open *)
Lemma determined d F xs (g : assignment -> Z) : NoDup (dkeys d) ->
  (forall asg, extends asg d -> cnf_true asg F) ->
  (forall asg, cnf_true asg F -> value_of asg xs = g asg) ->
  forall v, In v xs -> (forall asg b, g (upd asg v b) = g asg) -> In v (dkeys d).
Proof.
  intros N HF Hg v Hv Hind. destruct (in_dec Z.eq_dec v (dkeys d)) as [|Hn]; auto. exfalso.
  set (m := override d (fun _ => false)).
  assert (E : forall b, extends (upd m v b) d).
  { intros b w c Hw. rewrite upd_other; [apply (override_extends d _ N); auto|].
    intros ->. apply Hn. apply in_map_iff. exists (v, c); auto. }
  pose proof (Hg _ (HF _ (E true))) as E1. pose proof (Hg _ (HF _ (E false))) as E2. rewrite Hind in E1, E2.
  pose proof (value_upd_lt m v xs Hv). lia.
Qed.
Lemma factors_determined d F xs ys n : NoDup (dkeys d) -> 0 < n ->
  (forall asg, extends asg d -> cnf_true asg F) ->
  (forall v, In v xs -> ~ In v ys) ->
  (forall asg, cnf_true asg F -> value_of asg xs * value_of asg ys = n) ->
  forall v, In v xs -> In v (dkeys d).
Proof.
  intros N Hn HF D Hp v Hv. destruct (in_dec Z.eq_dec v (dkeys d)) as [|Hk]; auto. exfalso.
  set (m := override d (fun _ => false)).
  assert (E : forall b, extends (upd m v b) d).
  { intros b w c Hw. rewrite upd_other; [apply (override_extends d _ N); auto|].
    intros ->. apply Hk. apply in_map_iff. exists (v, c); auto. }
  pose proof (Hp _ (HF _ (E true))) as E1. pose proof (Hp _ (HF _ (E false))) as E2.
  rewrite (value_upd_notin m v true ys) in E1 by auto. rewrite (value_upd_notin m v false ys) in E2 by auto. pose proof (value_upd_lt m v xs Hv).
  
  assert (E3 : (value_of (upd m v true) xs - value_of (upd m v false) xs) * value_of m ys = 0) by (rewrite Z.mul_sub_distr_r; lia).
  apply Z.mul_eq_0 in E3 as [E3|E3]; [lia|]. rewrite E3 in E1. lia.
Qed.
Lemma value_odd asg v vs : Z.odd (value_of asg (v :: vs)) = asg v.
Proof.
  unfold value_of. cbn [map bits_value]. rewrite Z.odd_add_mul_2. destruct (asg v); auto.
Qed.
Lemma app_eq_split {A} (a b c d : list A) : List.length a = List.length c -> a ++ b = c ++ d -> a = c /\ b = d.
Proof.
  revert c. induction a as [|x a IH]; intros [|y c]; cbn; intros L E; try discriminate; auto.
  injection L as L. injection E as -> E. destruct (IH c L E) as [-> ->]. auto.
Qed.
