(* PLib.v -- lemmas about PyBase. *)
From Coq Require Import String Ascii ZArith List Bool Lia Permutation Sorted RelationClasses.
From Verif Require Import Spec PyBase MSet MText MQueue MDb MSolver SpecRun.
Import ListNotations.
Open Scope Z_scope.

Ltac inv H := inversion H; subst; clear H.

(* ---- result ---- *)
Lemma bind_ok {A B} (r : result A) (k : A -> result B) b :
  bind r k = Ok b -> exists a, r = Ok a /\ k a = Ok b.
Proof. destruct r; simpl; intros; try discriminate; eauto. Qed.

Lemma mapM_ok {A B} (f : A -> result B) l r :
  mapM f l = Ok r -> Forall2 (fun x y => f x = Ok y) l r.
Proof.
  revert r; induction l as [|x t IH]; simpl; intros r H.
  - inv H; constructor.
  - apply bind_ok in H as (y & Hy & H). apply bind_ok in H as (ys & Hys & H). inv H.
    constructor; auto.
Qed.

Lemma mapM_total {A B} (f : A -> result B) l :
  (forall x, In x l -> exists y, f x = Ok y) -> exists r, mapM f l = Ok r.
Proof.
  induction l as [|x t IH]; simpl; intros H; [eauto|].
  destruct (H x) as [y Hy]; auto. destruct IH as [ys Hys]; auto.
  exists (y :: ys). rewrite Hy; simpl. rewrite Hys; reflexivity.
Qed.

Lemma mapM_of_fun {A B} (f : A -> result B) (g : A -> B) l :
  (forall x, In x l -> f x = Ok (g x)) -> mapM f l = Ok (map g l).
Proof.
  induction l as [|x t IH]; simpl; intros H; [reflexivity|].
  rewrite H by auto; simpl. rewrite IH by auto. reflexivity.
Qed.

(* ---- text equality ---- *)
Lemma text_eqb_spec a b : reflect (a = b) (text_eqb a b).
Proof.
  revert b; induction a as [|x a IH]; destruct b as [|y b]; simpl; try (constructor; congruence).
  destruct (Ascii.eqb_spec x y); simpl; [|constructor; congruence].
  destruct (IH b); constructor; congruence.
Qed.
Lemma text_eqb_refl a : text_eqb a a = true.
Proof. destruct (text_eqb_spec a a); congruence. Qed.
Lemma text_eqb_eq a b : text_eqb a b = true <-> a = b.
Proof. destruct (text_eqb_spec a b); split; congruence. Qed.

(* ---- dictionaries ---- *)
Section Dict.
  Context {K V : Type} (eqb : K -> K -> bool)
          (eqb_spec : forall a b, reflect (a = b) (eqb a b)).

  Lemma dget_dset_same k v (d : list (K * V)) : dget eqb k (dset eqb k v d) = Some v.
  Proof.
    induction d as [|[k' v'] t IH]; simpl.
    - destruct (eqb_spec k k); congruence.
    - destruct (eqb_spec k k'); simpl; destruct (eqb_spec k k'); congruence.
  Qed.
  Lemma dget_dset_other k k2 v (d : list (K * V)) :
    k <> k2 -> dget eqb k2 (dset eqb k v d) = dget eqb k2 d.
  Proof.
    intros Hne; induction d as [|[k' v'] t IH]; simpl.
    - destruct (eqb_spec k2 k); congruence.
    - destruct (eqb_spec k k'); simpl; destruct (eqb_spec k2 k'); congruence.
  Qed.
  Lemma dget_In k v (d : list (K * V)) : dget eqb k d = Some v -> In (k, v) d.
  Proof.
    induction d as [|[k' v'] t IH]; simpl; [discriminate|].
    destruct (eqb_spec k k'); intros H; [inv H; auto | auto].
  Qed.
  Lemma dget_None k (d : list (K * V)) : dget eqb k d = None <-> ~ In k (dkeys d).
  Proof.
    unfold dkeys; induction d as [|[k' v'] t IH]; simpl; [tauto|].
    destruct (eqb_spec k k').
    - split; [discriminate | intros H; exfalso; apply H; auto].
    - rewrite IH; split; intros H; [intros [E|E]; [congruence | auto] | auto].
  Qed.
  Lemma dget_Some_key k v (d : list (K * V)) : dget eqb k d = Some v -> In k (dkeys d).
  Proof. intros H; apply dget_In in H. apply in_map_iff; exists (k, v); auto. Qed.
  Lemma dget_In_NoDup k v (d : list (K * V)) :
    NoDup (dkeys d) -> In (k, v) d -> dget eqb k d = Some v.
  Proof.
    induction d as [|[k' v'] t IH]; simpl; intros Hn Hi; [tauto|].
    inv Hn. destruct Hi as [E|Hi].
    - inv E. destruct (eqb_spec k k); congruence.
    - destruct (eqb_spec k k') as [->|]; auto.
      exfalso; apply H1, in_map_iff; exists (k', v); auto.
  Qed.
  Lemma dset_keys k v (d : list (K * V)) :
    dkeys (dset eqb k v d) = if dmem eqb k d then dkeys d else dkeys d ++ [k].
  Proof.
    unfold dkeys, dmem; induction d as [|[k' v'] t IH]; simpl; auto.
    destruct (eqb_spec k k'); simpl; auto.
    rewrite IH. destruct (dget eqb k t); reflexivity.
  Qed.
  Lemma dset_new k v (d : list (K * V)) : ~ In k (dkeys d) -> dset eqb k v d = d ++ [(k, v)].
  Proof.
    unfold dkeys; induction d as [|[k' v'] t IH]; simpl; intros H; auto.
    destruct (eqb_spec k k') as [->|]; [exfalso; auto|]. f_equal; auto.
  Qed.
  Lemma dmem_In k (d : list (K * V)) : dmem eqb k d = true <-> In k (dkeys d).
  Proof.
    unfold dmem; destruct (dget eqb k d) eqn:E.
    - apply dget_Some_key in E; tauto.
    - apply dget_None in E; split; [discriminate | tauto].
  Qed.
  Lemma dmem_false k (d : list (K * V)) : dmem eqb k d = false <-> ~ In k (dkeys d).
  Proof. rewrite <- dmem_In; destruct (dmem eqb k d); split; congruence. Qed.
  Lemma dset_NoDup k v (d : list (K * V)) : NoDup (dkeys d) -> NoDup (dkeys (dset eqb k v d)).
  Proof.
    intros H; rewrite dset_keys. destruct (dmem eqb k d) eqn:E; auto.
    apply dmem_false in E. apply NoDup_rev in H. rewrite <- (rev_involutive (dkeys d ++ [k])).
    apply NoDup_rev. rewrite rev_app_distr; simpl. constructor; auto.
    rewrite <- in_rev; auto.
  Qed.
  Lemma dset_keys_incl k v (d : list (K * V)) x :
    In x (dkeys (dset eqb k v d)) <-> x = k \/ In x (dkeys d).
  Proof.
    rewrite dset_keys. destruct (dmem eqb k d) eqn:E.
    - apply dmem_In in E. split; [auto | intros [->|]; auto].
    - rewrite in_app_iff; simpl. intuition.
  Qed.
  Lemma dset_In k v (d : list (K * V)) k2 v2 :
    In (k2, v2) (dset eqb k v d) -> (k2 = k /\ v2 = v) \/ In (k2, v2) d.
  Proof.
    induction d as [|[k' v'] t IH]; simpl.
    - intros [E|[]]; inv E; auto.
    - destruct (eqb_spec k k') as [->|]; simpl; intros [E|E].
      + inv E; auto.
      + auto.
      + auto.
      + apply IH in E as [?|?]; auto.
  Qed.
  Lemma dset_length k v (d : list (K * V)) :
    List.length (dset eqb k v d) = (if dmem eqb k d then List.length d else S (List.length d)).
  Proof.
    unfold dmem; induction d as [|[k' v'] t IH]; simpl; auto.
    destruct (eqb_spec k k'); simpl; auto. rewrite IH. destruct (dget eqb k t); auto.
  Qed.
  Lemma In_dset_other k v (d : list (K * V)) k2 v2 :
    In (k2, v2) d -> k2 <> k -> In (k2, v2) (dset eqb k v d).
  Proof.
    induction d as [|[k' v'] t IH]; simpl; [tauto|].
    destruct (eqb_spec k k') as [->|]; simpl; intros [E|E] Hne; auto.
    inv E; congruence.
  Qed.
End Dict.

Definition zspec := Z.eqb_spec.
Definition tspec := text_eqb_spec.

(* ---- membership, removal, dedup ---- *)
Lemma zmem_spec x l : reflect (In x l) (zmem x l).
Proof.
  induction l as [|y t IH]; simpl; [constructor; auto|].
  destruct (Z.eqb_spec x y); simpl; [constructor; auto|].
  destruct IH; constructor; [auto | intros [E|E]; congruence].
Qed.
Lemma zmem_In x l : zmem x l = true <-> In x l.
Proof. destruct (zmem_spec x l); split; congruence. Qed.
Lemma zmem_false x l : zmem x l = false <-> ~ In x l.
Proof. destruct (zmem_spec x l); split; congruence. Qed.

Lemma remove_first_Perm x l : In x l -> Permutation l (x :: remove_first x l).
Proof.
  induction l as [|y t IH]; simpl; [tauto|]. intros [->|H].
  - destruct (Z.eqb_spec x x); [reflexivity | congruence].
  - destruct (Z.eqb_spec x y) as [->|]; [reflexivity|].
    rewrite (IH H) at 1. apply perm_swap.
Qed.
Lemma remove_first_notin x l : ~ In x l -> remove_first x l = l.
Proof.
  induction l as [|y t IH]; simpl; auto. intros H.
  destruct (Z.eqb_spec x y); [exfalso; auto | f_equal; auto].
Qed.
Lemma remove_first_incl x l y : In y (remove_first x l) -> In y l.
Proof.
  induction l as [|z t IH]; simpl; auto. destruct (Z.eqb_spec x z); simpl; intuition.
Qed.

Lemma dedup_acc_In seen l x : In x (dedup_acc seen l) <-> In x l /\ ~ In x seen.
Proof.
  revert seen; induction l as [|y t IH]; simpl; intros seen; [tauto|].
  destruct (zmem_spec y seen) as [Hy|Hy].
  - rewrite IH. split; [tauto|]. intros [[->|H] H2]; tauto.
  - simpl; rewrite IH; simpl. split.
    + intros [->|[H H2]]; [auto | tauto].
    + intros [[->|H] H2]; auto. destruct (Z.eq_dec y x); [auto | right]. tauto.
Qed.
Lemma dedup_In l x : In x (dedup l) <-> In x l.
Proof. unfold dedup; rewrite dedup_acc_In; simpl; tauto. Qed.
Lemma dedup_acc_NoDup seen l : NoDup (dedup_acc seen l).
Proof.
  revert seen; induction l as [|y t IH]; simpl; intros; [constructor|].
  destruct (zmem y seen); auto. constructor; auto.
  rewrite dedup_acc_In; simpl; tauto.
Qed.
Lemma dedup_NoDup l : NoDup (dedup l).
Proof. apply dedup_acc_NoDup. Qed.
Lemma dedup_acc_id seen l : NoDup l -> (forall x, In x l -> ~ In x seen) -> dedup_acc seen l = l.
Proof.
  revert seen; induction l as [|y t IH]; simpl; intros seen Hn Hs; auto.
  inv Hn. destruct (zmem_spec y seen) as [E|E]; [exfalso; eapply Hs; eauto|].
  f_equal; apply IH; auto. intros x Hx [->|H]; auto. eapply Hs; eauto.
Qed.
Lemma dedup_id l : NoDup l -> dedup l = l.
Proof. intros; apply dedup_acc_id; auto. Qed.
Lemma dedup_length_le l : (List.length (dedup l) <= List.length l)%nat.
Proof.
  unfold dedup; generalize (@nil Z); induction l as [|y t IH]; simpl; intros seen; auto.
  destruct (zmem y seen); simpl; [specialize (IH seen) | specialize (IH (y :: seen))]; lia.
Qed.

(* ---- indexing ---- *)
Lemma py_index_nonneg {A} (l : list A) i :
  0 <= i < Z.of_nat (List.length l) ->
  exists x, py_index l i = Ok x /\ nth_error l (Z.to_nat i) = Some x.
Proof.
  intros H. unfold py_index. destruct (Z.ltb_spec i 0); [lia|].
  destruct (Z.ltb_spec i 0); [lia|]. destruct (Z.leb_spec (Z.of_nat (List.length l)) i); [lia|].
  simpl. destruct (nth_error l (Z.to_nat i)) eqn:E; simpl; eauto.
  apply nth_error_None in E. lia.
Qed.
Lemma py_index_ok_nonneg {A} (l : list A) i x :
  0 <= i -> py_index l i = Ok x ->
  i < Z.of_nat (List.length l) /\ nth_error l (Z.to_nat i) = Some x.
Proof.
  intros Hi. unfold py_index. destruct (Z.ltb_spec i 0); [lia|].
  destruct (Z.ltb_spec i 0); [lia|]. destruct (Z.leb_spec (Z.of_nat (List.length l)) i); simpl;
    [discriminate|].
  destruct (nth_error l (Z.to_nat i)); simpl; intros E; inv E; auto.
Qed.

(* ---- sorting ---- *)
Section Sort.
  Context {A : Type} (lt : A -> A -> bool).
  Lemma insert_by_Perm x l : Permutation (insert_by lt x l) (x :: l).
  Proof.
    induction l as [|y t IH]; simpl; auto. destruct (lt y x); auto.
    rewrite IH. apply perm_swap.
  Qed.
  Lemma sort_by_Perm l : Permutation (sort_by lt l) l.
  Proof. induction l as [|x t IH]; simpl; auto. rewrite insert_by_Perm, IH; auto. Qed.

  (* not (y < x) between earlier and later elements *)
  Definition le_of (x y : A) : Prop := lt y x = false.
  Hypothesis lt_asym : forall x y, lt x y = true -> lt y x = false.
  Hypothesis le_trans : forall x y z, lt y x = false -> lt z y = false -> lt z x = false.

  Lemma insert_by_sorted x l : StronglySorted le_of l -> StronglySorted le_of (insert_by lt x l).
  Proof.
    induction 1 as [|y t Hs IH Hy]; simpl; [repeat constructor|].
    destruct (lt y x) eqn:E.
    - constructor; auto. rewrite Forall_forall in *. intros z Hz.
      apply (Permutation_in _ (insert_by_Perm x t)) in Hz. destruct Hz as [<-|Hz]; auto.
      unfold le_of; auto.
    - constructor; [constructor; auto|]. constructor; [exact E|].
      rewrite Forall_forall in *. intros z Hz. unfold le_of in *.
      eapply le_trans; [exact E | auto].
  Qed.
  Lemma sort_by_sorted l : StronglySorted le_of (sort_by lt l).
  Proof. induction l as [|x t IH]; simpl; [constructor | apply insert_by_sorted; auto]. Qed.

  (* a sorted list is left alone *)
  Lemma insert_by_min x l : Forall (le_of x) l -> insert_by lt x l = x :: l.
  Proof. destruct l as [|y t]; simpl; auto. intros H; inv H. unfold le_of in H2; rewrite H2; auto. Qed.
End Sort.

Lemma sort_by_id {A} (lt : A -> A -> bool) l :
  StronglySorted (le_of lt) l -> sort_by lt l = l.
Proof.
  induction 1 as [|x t Hs IH Hx]; simpl; auto. rewrite IH. apply insert_by_min; auto.
Qed.

Lemma Permutation_concat {A} (l l' : list (list A)) :
  Permutation l l' -> Permutation (concat l) (concat l').
Proof.
  induction 1; simpl; auto.
  - apply Permutation_app_head; auto.
  - rewrite !app_assoc. apply Permutation_app_tail, Permutation_app_comm.
  - etransitivity; eauto.
Qed.

Lemma Forall2_Permutation_l {A B} (R : A -> B -> Prop) l1 l2 l1' :
  Forall2 R l1 l2 -> Permutation l1 l1' -> exists l2', Permutation l2 l2' /\ Forall2 R l1' l2'.
Proof.
  intros HF HP. revert l2 HF. induction HP; intros l2 HF.
  - inv HF. exists []; auto.
  - inv HF. destruct (IHHP _ H3) as (l2' & HP2 & HF2). exists (y :: l2'); auto.
  - inv HF. inv H3. exists (y1 :: y0 :: l'0). split; [apply perm_swap | auto].
  - destruct (IHHP1 _ HF) as (l2' & H1 & H2). destruct (IHHP2 _ H2) as (l3' & H3 & H4).
    exists l3'; split; [etransitivity; eauto | auto].
Qed.
