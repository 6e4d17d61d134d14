(* PRename.v -- lemmas about Set.rename_vars. *)
From Coq Require Import String Ascii ZArith List Bool Lia Permutation Sorted.
From Verif Require Import Spec PyBase MSet MText MQueue MDb MSolver SpecRun PLib PClause.
Import ListNotations.
Open Scope Z_scope.

(* ---- 1..n ---- *)
Lemma one_to_length n : List.length (one_to n) = n.
Proof. unfold one_to; rewrite map_length, seq_length; auto. Qed.
Lemma one_to_S n : one_to (S n) = one_to n ++ [Z.of_nat (S n)].
Proof. unfold one_to. rewrite seq_S, map_app; reflexivity. Qed.
Lemma one_to_In n v : In v (one_to n) <-> 1 <= v <= Z.of_nat n.
Proof.
  unfold one_to. rewrite in_map_iff. split.
  - intros (k & <- & H). apply in_seq in H. lia.
  - intros H. exists (Z.to_nat v). split; [lia|]. apply in_seq; lia.
Qed.
Lemma one_to_NoDup n : NoDup (one_to n).
Proof. apply FinFun.Injective_map_NoDup; [intros a b H; lia | apply seq_NoDup]. Qed.
Lemma one_to_nth n i : (i < n)%nat -> nth_error (one_to n) i = Some (Z.of_nat i + 1).
Proof.
  intros H. unfold one_to. rewrite nth_error_map.
  replace (nth_error (seq 1 n) i) with (Some (1 + i)%nat).
  - simpl. f_equal; lia.
  - symmetry. rewrite (nth_error_nth' _ 0%nat) by (rewrite seq_length; auto).
    rewrite seq_nth; auto.
Qed.

Lemma dedup_acc_ext s1 s2 l :
  (forall x, In x s1 <-> In x s2) -> dedup_acc s1 l = dedup_acc s2 l.
Proof.
  revert s1 s2; induction l as [|x t IH]; simpl; intros s1 s2 H; auto.
  assert (E : zmem x s1 = zmem x s2).
  { destruct (zmem_spec x s1), (zmem_spec x s2); auto; exfalso; firstorder. }
  rewrite E. destruct (zmem x s2); auto. f_equal. apply IH.
  intros y; simpl; rewrite H; tauto.
Qed.
Lemma dedup_acc_filter seen l :
  dedup_acc seen l = filter (fun y => negb (zmem y seen)) (dedup l).
Proof.
  unfold dedup. assert (G : forall s1 s2, (forall x, In x s1 -> In x s2) ->
    dedup_acc s2 l = filter (fun y => negb (zmem y s2)) (dedup_acc s1 l)).
  { induction l as [|x t IH]; simpl; intros s1 s2 H; auto.
    destruct (zmem_spec x s2) as [H2|H2].
    - destruct (zmem_spec x s1) as [H1|H1]; auto.
      simpl. destruct (zmem_spec x s2); [|contradiction]. simpl.
      apply IH. intros y [->|Hy]; auto.
    - destruct (zmem_spec x s1) as [H1|H1]; [exfalso; auto|]. simpl.
      destruct (zmem_spec x s2); [contradiction|]. simpl. f_equal.
      rewrite (IH (x :: s1) (x :: s2)).
      + apply filter_ext_in. intros a Ha. apply dedup_acc_In in Ha as [_ Ha]. simpl in Ha.
        simpl. destruct (Z.eqb_spec a x); simpl; auto. exfalso; auto.
      + simpl; intuition. }
  apply G. simpl; tauto.
Qed.
Lemma dedup_cons x t : dedup (x :: t) = x :: filter (fun y => negb (y =? x)) (dedup t).
Proof.
  unfold dedup at 1. simpl. f_equal. rewrite dedup_acc_filter. apply filter_ext.
  intros a; simpl. rewrite orb_false_r; auto.
Qed.
Lemma first_occurrences_dedup l : first_occurrences l = dedup l.
Proof. induction l as [|x t IH]; auto. simpl. rewrite IH, dedup_cons; auto. Qed.
Lemma dedup_acc_app seen a b :
  dedup_acc seen (a ++ b) = dedup_acc seen a ++ dedup_acc (seen ++ dedup_acc seen a) b.
Proof.
  revert seen; induction a as [|x t IH]; simpl; intros seen.
  - rewrite app_nil_r; auto.
  - destruct (zmem x seen); auto. simpl. f_equal. rewrite IH. f_equal.
    apply dedup_acc_ext. intros y. simpl. rewrite !in_app_iff; simpl; tauto.
Qed.

(* ---- the names map ---- *)
Definition nm_ok (nm : list (Z * Z)) (id : Z) : Prop :=
  NoDup (dkeys nm) /\ map snd nm = one_to (List.length nm) /\ id = Z.of_nat (List.length nm) + 1.
Definition rho (nm : list (Z * Z)) (v : Z) : Z :=
  match dget Z.eqb v nm with Some n => n | None => 0 end.

Lemma dkeys_length {A B} (d : list (A * B)) : List.length (dkeys d) = List.length d.
Proof. apply map_length. Qed.

Lemma nm_ok_nil : nm_ok [] 1.
Proof. split; [constructor | auto]. Qed.
Lemma nm_ok_add nm id v :
  nm_ok nm id -> ~ In v (dkeys nm) -> nm_ok (nm ++ [(v, id)]) (id + 1).
Proof.
  intros (H1 & H2 & H3) Hv. unfold nm_ok. rewrite app_length; simpl. repeat split.
  - unfold dkeys; rewrite map_app; simpl. apply NoDup_rev in H1.
    rewrite <- (rev_involutive (_ ++ _)). apply NoDup_rev. rewrite rev_app_distr; simpl.
    constructor; auto. rewrite <- in_rev; auto.
  - rewrite map_app, H2; simpl. rewrite Nat.add_comm; simpl Nat.add. rewrite one_to_S.
    f_equal. f_equal. lia.
  - lia.
Qed.

Lemma nm_ok_nth nm id v y :
  nm_ok nm id -> dget Z.eqb v nm = Some y ->
  1 <= y <= Z.of_nat (List.length nm) /\ nth_error (dkeys nm) (Z.to_nat (y - 1)) = Some v.
Proof.
  intros (H1 & H2 & _) Hg. apply (dget_In _ zspec) in Hg.
  apply In_nth_error in Hg as [i Hi].
  assert (Hl : (i < List.length nm)%nat) by (apply nth_error_Some; congruence).
  assert (Hy : nth_error (map snd nm) i = Some y) by (rewrite nth_error_map, Hi; auto).
  rewrite H2, one_to_nth in Hy by auto. inv Hy.
  split; [lia|]. replace (Z.to_nat _) with i by lia.
  unfold dkeys; rewrite nth_error_map, Hi; auto.
Qed.
Lemma nm_ok_get nm id v : nm_ok nm id -> In v (dkeys nm) ->
  dget Z.eqb v nm = Some (rho nm v).
Proof.
  intros _ Hv. unfold rho. destruct (dget Z.eqb v nm) eqn:E; auto.
  apply (dget_None _ zspec) in E; contradiction.
Qed.
Lemma rho_range nm id v : nm_ok nm id -> In v (dkeys nm) -> 1 <= rho nm v <= Z.of_nat (List.length nm).
Proof. intros H Hv. eapply nm_ok_nth; eauto using nm_ok_get. Qed.
Lemma rho_nth nm id v : nm_ok nm id -> In v (dkeys nm) ->
  nth_error (dkeys nm) (Z.to_nat (rho nm v - 1)) = Some v.
Proof. intros H Hv. eapply nm_ok_nth; eauto using nm_ok_get. Qed.
Lemma rho_inj nm id : nm_ok nm id -> injective_on (rho nm) (dkeys nm).
Proof.
  intros H x y Hx Hy E. pose proof (rho_nth nm id x H Hx) as H1.
  pose proof (rho_nth nm id y H Hy) as H2. rewrite E in H1. congruence.
Qed.
Lemma rho_map_keys nm id : nm_ok nm id -> map (rho nm) (dkeys nm) = one_to (List.length nm).
Proof.
  intros (H1 & H2 & _). rewrite <- H2. unfold dkeys. rewrite map_map.
  apply map_ext_in. intros [k v] Hi. simpl. unfold rho.
  rewrite (dget_In_NoDup _ zspec k v); auto.
Qed.

(* extending the map at the end does not change what is there *)
Lemma rho_app nm ext v : In v (dkeys nm) -> rho (nm ++ ext) v = rho nm v.
Proof.
  unfold rho, dkeys. induction nm as [|[k y] t IH]; simpl; [tauto|].
  intros Hv. destruct (Z.eqb_spec v k); auto. apply IH. destruct Hv; congruence.
Qed.

Lemma rename_lit_abs f l : Z.abs (rename_lit f l) = Z.abs (f (Z.abs l)).
Proof.
  unfold rename_lit. destruct (Z.ltb_spec l 0).
  - rewrite Z.abs_opp. f_equal. f_equal. lia.
  - f_equal. f_equal. lia.
Qed.
Lemma rename_lit_ext f g l : f (Z.abs l) = g (Z.abs l) -> rename_lit f l = rename_lit g l.
Proof.
  unfold rename_lit. intros E. destruct (Z.ltb_spec l 0).
  - f_equal. replace (- l) with (Z.abs l) by lia; auto.
  - replace l with (Z.abs l) by lia; auto.
Qed.

Lemma rename_lit_sign f x new :
  f (Z.abs x) = new -> new * (if x <? 0 then -1 else 1) = rename_lit f x.
Proof.
  unfold rename_lit. intros <-. destruct (Z.ltb_spec x 0).
  - replace (- x) with (Z.abs x) by lia. lia.
  - replace (f x) with (f (Z.abs x)) by (f_equal; lia). lia.
Qed.

Lemma rename_raw_spec l nm id l' nm' id' :
  nm_ok nm id -> rename_raw l nm id = (l', nm', id') ->
  nm_ok nm' id' /\ (exists ext, nm' = nm ++ ext) /\
  dkeys nm' = dkeys nm ++ dedup_acc (dkeys nm) (cvars l) /\
  l' = map (rename_lit (rho nm')) l.
Proof.
  revert nm id l' nm' id'; induction l as [|x t IH]; simpl; intros nm id l' nm' id' Hok E.
  - inv E. repeat split; auto; try apply Hok. exists []; rewrite app_nil_r; auto.
    rewrite app_nil_r; auto.
  - destruct (dget Z.eqb (Z.abs x) nm) as [new|] eqn:Eg.
    + destruct (rename_raw t nm id) as [[t' nm2] id2] eqn:Er. inv E.
      destruct (IH _ _ _ _ _ Hok Er) as (I1 & (ext & ->) & I3 & I4).
      pose proof (dget_Some_key _ zspec _ _ _ Eg) as Hk.
      apply zmem_In in Hk as Hz. rewrite Hz. repeat split; eauto; try apply I1.
      f_equal; auto. apply rename_lit_sign.
      rewrite rho_app by auto; unfold rho; rewrite Eg; auto.
    + destruct (rename_raw t _ _) as [[t' nm2] id2] eqn:Er. inv E.
      apply (dget_None _ zspec) in Eg. rewrite (dset_new _ zspec) in Er by auto.
      destruct (IH _ _ _ _ _ (nm_ok_add _ _ _ Hok Eg) Er) as (I1 & (ext & ->) & I3 & I4).
      apply zmem_false in Eg as Hz. rewrite Hz. repeat split; try apply I1.
      * exists ([(Z.abs x, id)] ++ ext). rewrite app_assoc; auto.
      * rewrite I3. unfold dkeys; rewrite map_app; simpl. rewrite <- app_assoc; simpl. f_equal.
        f_equal. apply dedup_acc_ext. intros y; rewrite in_app_iff; simpl; tauto.
      * f_equal; auto. apply rename_lit_sign.
        rewrite rho_app by (unfold dkeys; rewrite map_app, in_app_iff; simpl; auto).
        unfold rho. rewrite (dget_In_NoDup _ zspec _ id); auto.
        -- apply (nm_ok_add _ _ _ Hok Eg).
        -- apply in_app_iff; simpl; auto.
Qed.

Lemma map_rename_ext f g l : (forall v, In v (cvars l) -> f v = g v) ->
  map (rename_lit f) l = map (rename_lit g) l.
Proof.
  intros H. apply map_ext_in. intros x Hx. apply rename_lit_ext, H, in_map; auto.
Qed.

Lemma rename_clauses_spec cs nm id cs' nm' id' :
  nm_ok nm id -> rename_clauses cs nm id = (cs', nm', id') ->
  nm_ok nm' id' /\ (exists ext, nm' = nm ++ ext) /\
  dkeys nm' = dkeys nm ++ dedup_acc (dkeys nm) (fvars (map raw cs)) /\
  cs' = map (fun c => set_raw c (map (rename_lit (rho nm')) (raw c))) cs.
Proof.
  revert nm id cs' nm' id'; induction cs as [|c t IH]; simpl; intros nm id cs' nm' id' Hok E.
  - inv E. repeat split; auto; try apply Hok. exists []; rewrite app_nil_r; auto.
    rewrite app_nil_r; auto.
  - destruct (rename_raw (raw c) nm id) as [[r nm1] id1] eqn:E1.
    destruct (rename_clauses t nm1 id1) as [[t' nm2] id2] eqn:E2. inv E.
    destruct (rename_raw_spec _ _ _ _ _ _ Hok E1) as (A1 & (e1 & ->) & A3 & A4).
    destruct (IH _ _ _ _ _ A1 E2) as (B1 & (e2 & ->) & B3 & B4).
    repeat split; try apply B1.
    + exists (e1 ++ e2); rewrite app_assoc; auto.
    + unfold fvars; simpl. rewrite dedup_acc_app, B3, A3, app_assoc. reflexivity.
    + f_equal; auto. f_equal. rewrite A4. apply map_rename_ext. intros v Hv.
      symmetry; apply rho_app. rewrite A3, in_app_iff, dedup_acc_In.
      destruct (in_dec Z.eq_dec v (dkeys nm)); auto.
Qed.

(* ---- highest_var ---- *)
Lemma count_literals_nil l : count_literals l = [] <-> l = [].
Proof.
  unfold count_literals. split; [|intros ->; auto].
  assert (G : forall l d, fold_left (fun d l => dset Z.eqb l
     (match dget Z.eqb l d with Some n => n + 1 | None => 1 end) d) l d = [] -> d = []).
  { clear l. induction l as [|x t IH]; simpl; intros d H; auto. apply IH in H.
    destruct d as [|[k v] d]; simpl in *; auto. destruct (x =? k); discriminate. }
  intros H. destruct l as [|x t]; auto. simpl in H. apply G in H. discriminate.
Qed.
Lemma highest_var_total l : l <> [] -> exists h, highest_var l = Ok h.
Proof.
  intros H. unfold highest_var. destruct (count_literals l) eqn:E; eauto.
  apply (proj1 (count_literals_nil l)) in E. contradiction.
Qed.


Lemma names_ok_index s v :
  names_ok s -> final_names_map s <> [] -> In v (fvars (raws s)) ->
  exists n, py_index (final_names_map s) (v - 1) = Ok n /\ name_at s v = Some n.
Proof.
  intros [E|H] Hn Hv; [contradiction|]. specialize (H v Hv).
  destruct (py_index_nonneg (final_names_map s) (v - 1)) as (n & H1 & H2); [lia|].
  exists n; split; auto. unfold name_at. destruct (final_names_map s); [contradiction|].
  destruct (Z.leb_spec 1 v); [auto | lia].
Qed.

Lemma raws_map_raw (s : cset) : map raw (clauses s) = raws s. Proof. reflexivity. Qed.
Lemma cvars_map_rename f l : (forall v, In v (cvars l) -> 0 <= f v) ->
  cvars (map (rename_lit f) l) = map f (cvars l).
Proof.
  unfold cvars; induction l as [|x t IH]; simpl; intros H; auto. rewrite IH by auto.
  f_equal. rewrite rename_lit_abs. apply Z.abs_eq, H; auto.
Qed.
Lemma fvars_Perm F G : Permutation F G -> Permutation (fvars F) (fvars G).
Proof. intros H. unfold fvars. apply Permutation_concat, Permutation_map; auto. Qed.
Lemma in_fvars v F : In v (fvars F) <-> exists c, In c F /\ In v (cvars c).
Proof.
  unfold fvars. rewrite in_concat. split.
  - intros (x & Hx & Hv). apply in_map_iff in Hx as (c & <- & Hc). eauto.
  - intros (c & Hc & Hv). exists (cvars c); split; auto. apply in_map; auto.
Qed.
Lemma in_cvars v c : In v (cvars c) <-> exists l, In l c /\ Z.abs l = v.
Proof. unfold cvars. rewrite in_map_iff. split; intros (l & H1 & H2); eauto. Qed.
Lemma concat_map_abs F : map Z.abs (concat F) = fvars F.
Proof. unfold fvars, cvars. rewrite concat_map; auto. Qed.
Lemma fvars_nil F : concat F = [] <-> fvars F = [].
Proof. rewrite <- concat_map_abs. destruct (concat F); simpl; split; congruence. Qed.

(* full description of a successful renaming *)
Lemma Forall2_len {A B} (R : A -> B -> Prop) l r :
  Forall2 R l r -> List.length l = List.length r.
Proof. induction 1; simpl; auto. Qed.

Record renamed (f : Z -> Z) (s s' : cset) : Prop := mkRenamed {
  rn_image : map f (dedup (fvars (raws s))) = one_to (List.length (dedup (fvars (raws s))));
  rn_clauses : clauses s' =
               map (fun c => set_raw c (sort_abs (map (rename_lit f) (raw c)))) (clauses s);
  rn_names : forall v, In v (fvars (raws s)) -> name_at s' (f v) = name_at s v;
  rn_length : List.length (final_names_map s') = List.length (dedup (fvars (raws s)));
  rn_value : svalue s' = svalue s;
  rn_id : sid s' = sid s;
  rn_hash : computed_hash s' = computed_hash s;
  rn_evaluated : evaluated_vars s' = evaluated_vars s;
  rn_original : original_values s' = original_values s
}.

Lemma concat_map_length_eq {A B} (F : list (list A)) (G : list (list B)) :
  Forall2 (fun x y => List.length x = List.length y) F G ->
  (concat F = [] <-> concat G = []).
Proof.
  induction 1 as [|x y F G Hl HF IH]; simpl; [tauto|].
  split; intros E; apply app_eq_nil in E as [E1 E2]; subst; simpl in Hl.
  - destruct y; [apply IH; auto | discriminate].
  - destruct x; [apply IH; auto | discriminate].
Qed.

Lemma rename_vars_total s :
  concat (raws s) <> [] -> names_ok s -> exists s', rename_vars s = Ok s'.
Proof.
  intros Hne Hn. unfold rename_vars.
  destruct (rename_clauses (clauses s) [] 1) as [[cs nm] id] eqn:E.
  destruct (rename_clauses_spec _ _ _ _ _ _ nm_ok_nil E) as (Hok & _ & Hk & Hcs).
  destruct (highest_var_total (concat (map raw cs))) as [h Hh].
  { intros H. apply Hne. rewrite Hcs, map_map in H. simpl in H. revert H.
    apply concat_map_length_eq. unfold raws.
    clear. induction (clauses s); simpl; constructor; auto. rewrite map_length; auto. }
  rewrite Hh. simpl.
  destruct (final_names_map s) as [|f0 ft] eqn:Ef; simpl; eauto.
  destruct (mapM_total (fun v => py_index (f0 :: ft) (v - 1)) (dkeys nm)) as [r Hr].
  - intros v Hv. destruct (names_ok_index s v Hn) as (n & H1 & _); [congruence| |].
    + rewrite Hk in Hv; simpl in Hv. apply (proj1 (dedup_In _ _)) in Hv; auto.
    + rewrite Ef in H1; eauto.
  - rewrite Hr; simpl; eauto.
Qed.

Lemma rename_vars_nil s : concat (raws s) = [] -> rename_vars s = Err ValueError.
Proof.
  intros Hne. unfold rename_vars.
  destruct (rename_clauses (clauses s) [] 1) as [[cs nm] id] eqn:E.
  destruct (rename_clauses_spec _ _ _ _ _ _ nm_ok_nil E) as (Hok & _ & Hk & Hcs).
  replace (concat (map raw cs)) with (@nil Z); auto.
  symmetry. rewrite Hcs, map_map; simpl. revert Hne. apply concat_map_length_eq.
  unfold raws. clear. induction (clauses s); simpl; constructor; auto. rewrite map_length; auto.
Qed.

Lemma rename_vars_spec s s' :
  names_ok s -> rename_vars s = Ok s' -> exists f, renamed f s s'.
Proof.
  intros Hn. unfold rename_vars.
  destruct (rename_clauses (clauses s) [] 1) as [[cs nm] id] eqn:E.
  destruct (rename_clauses_spec _ _ _ _ _ _ nm_ok_nil E) as (Hok & _ & Hk & Hcs).
  intros H. apply bind_ok in H as (h & Hh & H). apply bind_ok in H as (fnm & Hf & H). inv H.
  simpl in Hk. change (dedup_acc [] (fvars (map raw (clauses s))))
    with (dedup (fvars (raws s))) in Hk.
  assert (Hlen : List.length nm = List.length (dedup (fvars (raws s))))
    by (rewrite <- Hk, dkeys_length; auto).
  assert (Hfl : List.length fnm = List.length nm).
  { destruct (final_names_map s) as [|f0 ft].
    - inv Hf; apply dkeys_length.
    - apply mapM_ok in Hf. apply Forall2_len in Hf. rewrite <- Hf; apply dkeys_length. }
  exists (rho nm). constructor; simpl; auto.
  - rewrite <- Hk at 1. rewrite (rho_map_keys nm id Hok). congruence.
  - rewrite map_map; simpl. reflexivity.
  - intros v Hv.
    assert (Hkv : In v (dkeys nm)) by (rewrite Hk; apply dedup_In; auto).
    pose proof (rho_range nm id v Hok Hkv) as Hr. pose proof (rho_nth nm id v Hok Hkv) as Hnth.
    unfold name_at at 1; simpl.
    destruct fnm as [|g0 gt] eqn:Eg; [simpl in Hfl; lia|]. rewrite <- Eg in *.
    destruct (Z.leb_spec 1 (rho nm v)); [|lia].
    destruct (final_names_map s) as [|f0 ft] eqn:Ef.
    + inv Hf. rewrite Hnth. unfold name_at; rewrite Ef; auto.
    + apply mapM_ok in Hf.
      assert (G : forall (l : list Z) (r : list Z) i v,
        Forall2 (fun x y => py_index (f0 :: ft) (x - 1) = Ok y) l r ->
        nth_error l i = Some v -> exists y, nth_error r i = Some y /\ py_index (f0 :: ft) (v - 1) = Ok y).
      { clear. intros l r i v HF; revert i. induction HF; intros [|i] Hi; simpl in *; try discriminate.
        - inv Hi; eauto. - eauto. }
      destruct (G _ _ _ _ Hf Hnth) as (y & Hy1 & Hy2). rewrite Hy1.
      destruct (names_ok_index s v Hn) as (n & H1 & H2); auto; [congruence|].
      rewrite Ef in H1. congruence.
  - congruence.
Qed.

(* consequences of [renamed] *)
Lemma map_dedup_inj f l n :
  map f (dedup l) = one_to n -> injective_on f l /\ (forall v, In v l -> 1 <= f v <= Z.of_nat n).
Proof.
  intros H. split.
  - intros x y Hx Hy E. apply dedup_In in Hx, Hy.
    apply In_nth_error in Hx as [i Hi]. apply In_nth_error in Hy as [j Hj].
    assert (Hi' : nth_error (map f (dedup l)) i = Some (f x)) by (rewrite nth_error_map, Hi; auto).
    assert (Hj' : nth_error (map f (dedup l)) j = Some (f x)) by (rewrite nth_error_map, Hj, E; auto).
    rewrite H in Hi', Hj'. pose proof (one_to_NoDup n) as Hnd.
    rewrite NoDup_nth_error in Hnd. assert (i = j).
    { apply Hnd; [apply nth_error_Some; congruence | congruence]. }
    subst; congruence.
  - intros v Hv. apply one_to_In. rewrite <- H. apply in_map, dedup_In; auto.
Qed.

Section Renamed.
  Context {f : Z -> Z} {s s' : cset} (R : renamed f s s').
  Let n := List.length (dedup (fvars (raws s))).
  Lemma rn_inj : injective_on f (fvars (raws s)).
  Proof. eapply map_dedup_inj, (rn_image _ _ _ R). Qed.
  Lemma rn_range v : In v (fvars (raws s)) -> 1 <= f v <= Z.of_nat n.
  Proof. eapply map_dedup_inj, (rn_image _ _ _ R). Qed.
  Lemma rn_onto w : 1 <= w <= Z.of_nat n -> exists v, In v (fvars (raws s)) /\ f v = w.
  Proof.
    intros Hw. apply one_to_In in Hw. unfold n in Hw. rewrite <- (rn_image _ _ _ R) in Hw.
    apply in_map_iff in Hw as (v & E & Hv). exists v; split; auto. apply dedup_In; auto.
  Qed.
  Lemma rn_raws : raws s' = map (fun c => sort_abs (map (rename_lit f) c)) (raws s).
  Proof. unfold raws. rewrite (rn_clauses _ _ _ R), !map_map. reflexivity. Qed.
  Lemma rn_vars w : In w (fvars (raws s')) <-> 1 <= w <= Z.of_nat n.
  Proof.
    rewrite rn_raws, in_fvars. split.
    - intros (c & Hc & Hw). apply in_map_iff in Hc as (d & <- & Hd).
      apply (Permutation_in _ (cvars_Perm _ _ (sort_abs_Perm _))) in Hw.
      apply in_cvars in Hw as (l & Hl & <-). apply in_map_iff in Hl as (m & <- & Hm).
      rewrite rename_lit_abs. assert (Hv : In (Z.abs m) (fvars (raws s)))
        by (apply in_fvars; exists d; split; auto; apply in_map; auto).
      pose proof (rn_range _ Hv). lia.
    - intros Hw. destruct (rn_onto w Hw) as (v & Hv & <-).
      apply in_fvars in Hv as (c & Hc & Hv). exists (sort_abs (map (rename_lit f) c)).
      split; [apply (in_map (fun c => sort_abs (map (rename_lit f) c))); auto|].
      apply (Permutation_in _ (Permutation_sym (cvars_Perm _ _ (sort_abs_Perm _)))).
      apply in_cvars in Hv as (l & Hl & <-). apply in_cvars. exists (rename_lit f l).
      split; [apply in_map; auto|]. rewrite rename_lit_abs.
      assert (Hv : In (Z.abs l) (fvars (raws s)))
        by (apply in_fvars; exists c; split; auto; apply in_map; auto).
      pose proof (rn_range _ Hv). lia.
  Qed.
  Lemma rn_sorted c : In c (raws s') -> sorted_clause c.
  Proof. rewrite rn_raws. intros H; apply in_map_iff in H as (d & <- & _). apply sort_abs_sorted. Qed.
  Lemma rn_nonempty : (forall c, In c (raws s) -> c <> []) -> forall c, In c (raws s') -> c <> [].
  Proof.
    rewrite rn_raws. intros H c Hc E. apply in_map_iff in Hc as (d & Ed & Hd).
    apply (H d Hd). rewrite E in Ed. apply (f_equal (@List.length Z)) in Ed.
    rewrite (Permutation_length (sort_abs_Perm _)), map_length in Ed. destruct d; auto; discriminate.
  Qed.
  Lemma rn_names_ok : names_ok s'.
  Proof. right. intros v Hv. apply rn_vars in Hv. rewrite (rn_length _ _ _ R). auto. Qed.
  Lemma dedup_count_range (l : list Z) m :
    (forall w, In w l <-> 1 <= w <= Z.of_nat m) -> List.length (dedup l) = m.
  Proof.
    intros H. rewrite <- (one_to_length m). apply Permutation_length, NoDup_Permutation.
    - apply dedup_NoDup. - apply one_to_NoDup.
    - intros x. rewrite dedup_In, one_to_In. apply H.
  Qed.
  Lemma rn_count : List.length (dedup (fvars (raws s'))) = n.
  Proof. apply dedup_count_range, rn_vars. Qed.
  Lemma rn_distinct : (forall c, In c (raws s) -> distinct_vars c) ->
    forall c, In c (raws s') -> distinct_vars c.
  Proof.
    rewrite rn_raws. intros H c Hc. apply in_map_iff in Hc as (d & <- & Hd).
    apply (distinct_vars_Perm (map (rename_lit f) d)); [apply Permutation_sym, sort_abs_Perm|].
    unfold distinct_vars. rewrite cvars_map_rename.
    - assert (Hi : injective_on f (cvars d)).
      { intros x y Hx Hy. apply rn_inj; apply in_fvars; eauto. }
      specialize (H d Hd). unfold distinct_vars in H.
      clear -Hi H. induction (cvars d) as [|x t IH]; simpl; constructor; inv H.
      + intros Hx. apply in_map_iff in Hx as (y & E & Hy). apply Hi in E; simpl; auto. congruence.
      + apply IH; auto. intros a b Ha Hb; apply Hi; simpl; auto.
    - intros v Hv. assert (In v (fvars (raws s))) as Hv' by (apply in_fvars; eauto).
      pose proof (rn_range _ Hv'). lia.
  Qed.
End Renamed.
