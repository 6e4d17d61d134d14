(* PTrans5.v -- the substitutions, one by one *)
From Coq Require Import String Ascii ZArith List Bool Lia Arith Permutation Sorted.
From Verif Require Import Spec PyBase MSet MText MCnf MFam MTrans SpecCnf SpecFam SpecTrans PText PLib PCnf1 PCnf2 PFam1 PFam2 PFam3 PFam4 PFam5 PFam6 PFam7 PFam8 PFam12 PFam13 PTrans1 PTrans2 PTrans3 PTrans4.
Import ListNotations.
Open Scope Z_scope.

Lemma count_block a p rank v : how_many a (block p rank v) = trues rank (fun i => a (new_variable p v i)).
Proof. unfold trues, block, how_many. induction (range 0 rank) as [|i l IH]; auto. cbn [map filter]. change (block_name p v i) with (new_variable p v i). destruct (a (new_variable p v i)); cbn [List.length]; lia. Qed.
Lemma trues_ext rank x y : (forall i, 0 <= i < rank -> x i = y i) -> trues rank x = trues rank y.
Proof. intros H. unfold trues, how_many. do 2 f_equal. apply filter_ext_in. intros i Hi. apply H. apply range_In in Hi. auto. Qed.
Lemma trues_flip rank i x : 0 <= i < rank -> x i = true -> trues rank (flip_at i x) = trues rank x - 1.
Proof. intros Hi Hx. apply flip_count; auto; [apply range_NoDup|apply range_In; auto]. Qed.
Lemma trues_some rank i k : 0 <= i < rank -> 1 <= k <= rank -> exists x, x i = true /\ trues rank x = k.
Proof. intros Hi Hk. apply some_count; [apply range_NoDup|apply range_In; auto|]. rewrite range_length. lia. Qed.
Lemma trues_positive rank x : 0 < trues rank x <-> exists i, 0 <= i < rank /\ x i = true.
Proof.
  unfold trues, how_many. split.
  - intros H. destruct (filter x (range 0 rank)) as [|i l] eqn:E; [cbn in H; lia|]. assert (K : In i (filter x (range 0 rank))) by (rewrite E; left; auto). apply filter_In in K as [K1 K2]. apply range_In in K1. eauto.
  - intros (i & Hi & Hx). assert (K : In i (filter x (range 0 rank))) by (apply filter_In; split; auto; apply range_In; auto). destruct (filter x (range 0 rank)); [destruct K|cbn; lia].
Qed.
(* names in constraints *)
Lemma inequality_names (vs : list text) k gr cl w : In cl (inequality_constraint vs k gr) -> In w (map snd cl) -> In w vs.
Proof.
  unfold inequality_constraint. cbv zeta. intros Hc Hw. destruct (_ <? _); [destruct Hc|]. destruct (_ <? 0); [destruct Hc as [<-|[]]; destruct Hw|].
  apply in_map_iff in Hc as (d & <- & Hd). rewrite map_map in Hw. cbn [snd] in Hw. rewrite map_id in Hw. eapply combinations_incl; eauto.
Qed.
Lemma parity_names (vs : list text) k cl w : In cl (parity_constraint vs k) -> In w (map snd cl) -> In w vs.
Proof.
  unfold parity_constraint. intros Hc Hw. apply filter_In in Hc as [Hc _]. apply products_In in Hc. remember (map (fun v => [(true, v); (false, v)]) vs) as ds eqn:E. revert vs E.
  induction Hc as [|l d cl ds Hl Hc IH]; intros vs E; [destruct Hw|]. destruct vs as [|v vs]; [discriminate|]. cbn in E. injection E as -> ->. cbn in Hw. destruct Hw as [Hw|Hw]; [left; destruct Hl as [<-|[<-|[]]]; auto|right; apply IH; auto].
Qed.
(* ---- or ---- *)
Lemma or_names rank p v cl w : In cl (or_literal rank p v) -> In w (map snd cl) -> In w (block [] rank v).
Proof.
  unfold or_literal. cbv zeta. destruct p; intros Hc Hw.
  - destruct Hc as [<-|[]]. rewrite map_map in Hw. cbn [snd] in Hw. rewrite map_id in Hw. auto.
  - apply in_map_iff in Hc as (n & <- & Hn). destruct Hw as [<-|[]]. auto.
Qed.
Lemma or_trues a rank v : existsb a (block [] rank v) = (0 <? trues rank (fun i => a (new_variable [] v i))).
Proof.
  rewrite <- count_block. apply eq_true_iff_eq. rewrite existsb_exists, Z.ltb_lt. pose proof (at_least_one a (block [] rank v)) as H. rewrite one_clause in H. split; intros K; [apply H in K; lia|apply H; lia].
Qed.
Lemma or_all c rank : made c -> exists F, OrSubstitution c rank = Ok F /\ replaced_by c [] rank (fun x => exists i, 0 <= i < rank /\ x i = true) F /\ (1 <= rank -> faithful c [] rank F).
Proof.
  intros M. assert (G : forall x, (0 <? trues rank x) = true <-> exists i, 0 <= i < rank /\ x i = true) by (intros x; rewrite Z.ltb_lt; apply trues_positive).
  assert (L : forall p v a, all_hold a (or_literal rank p v) <-> (0 <? trues rank (fun i => a (new_variable [] v i))) = p) by (intros; rewrite or_ok, or_trues; tauto).
  destruct (common_ok [] rank (or_literal rank) (fun x => 0 <? trues rank x) _ G L (or_names rank) c M) as (F & E & R & _). exists F. split; auto. split; auto.
  intros H. apply (common_faithful [] rank (or_literal rank) (fun x => 0 <? trues rank x) _ G L (or_names rank)); auto.
  - intros x y K. rewrite (trues_ext rank x y K). auto.
  - intros i Hi. destruct (trues_some rank i 1 Hi ltac:(lia)) as (x & X & T). exists x. rewrite trues_flip, T by auto. auto.
Qed.
(* ---- majority ---- *)
Lemma maj_half rank n : ((rank + 1) / 2 <=? n) = true <-> rank <= 2 * n.
Proof. rewrite Z.leb_le. pose proof (Z.div_mod (rank + 1) 2 ltac:(lia)). pose proof (Z.mod_pos_bound (rank + 1) 2 ltac:(lia)). lia. Qed.
Lemma maj_names rank p v cl w : In cl (maj_literal rank p v) -> In w (map snd cl) -> In w (block [] rank v).
Proof. unfold maj_literal. cbv zeta. destruct p; apply inequality_names. Qed.
Lemma maj_all c rank : made c -> exists F, MajoritySubstitution c rank = Ok F /\ replaced_by c [] rank (fun x => rank <= 2 * trues rank x) F /\ (1 <= rank -> faithful c [] rank F).
Proof.
  intros M. assert (G : forall x, ((rank + 1) / 2 <=? trues rank x) = true <-> rank <= 2 * trues rank x) by (intros; apply maj_half).
  assert (L : forall p v a, all_hold a (maj_literal rank p v) <-> ((rank + 1) / 2 <=? trues rank (fun i => a (new_variable [] v i))) = p) by (intros; rewrite maj_ok, count_block; tauto).
  destruct (common_ok [] rank (maj_literal rank) (fun x => (rank + 1) / 2 <=? trues rank x) _ G L (maj_names rank) c M) as (F & E & R & _). exists F. split; auto. split; auto.
  intros H. apply (common_faithful [] rank (maj_literal rank) (fun x => (rank + 1) / 2 <=? trues rank x) _ G L (maj_names rank)); auto.
  - intros x y K. rewrite (trues_ext rank x y K). auto.
  - intros i Hi. destruct (trues_some rank i ((rank + 1) / 2) Hi) as (x & X & T).
    { pose proof (Z.div_mod (rank + 1) 2 ltac:(lia)). pose proof (Z.mod_pos_bound (rank + 1) 2 ltac:(lia)). lia. }
    exists x. rewrite trues_flip, T by auto. split; [apply Z.leb_refl|apply Z.leb_gt; lia].
Qed.
(* ---- xor ---- *)
Lemma xor_names rank p v cl w : In cl (xor_literal rank p v) -> In w (map snd cl) -> In w (block [] rank v).
Proof. unfold xor_literal. apply parity_names. Qed.
Lemma xor_all c rank : made c -> exists F, XorSubstitution c rank = Ok F /\ replaced_by c [] rank (fun x => Z.Odd (trues rank x)) F /\ (1 <= rank -> faithful c [] rank F).
Proof.
  intros M. assert (G : forall x, Z.odd (trues rank x) = true <-> Z.Odd (trues rank x)) by (intros; apply Z.odd_spec).
  assert (L : forall p v a, all_hold a (xor_literal rank p v) <-> Z.odd (trues rank (fun i => a (new_variable [] v i))) = p) by (intros; rewrite xor_ok, count_block; tauto).
  destruct (common_ok [] rank (xor_literal rank) (fun x => Z.odd (trues rank x)) _ G L (xor_names rank) c M) as (F & E & R & _). exists F. split; auto. split; auto.
  intros H. apply (common_faithful [] rank (xor_literal rank) (fun x => Z.odd (trues rank x)) _ G L (xor_names rank)); auto.
  - intros x y K. rewrite (trues_ext rank x y K). auto.
  - intros i Hi. destruct (trues_some rank i 1 Hi ltac:(lia)) as (x & X & T). exists x. rewrite trues_flip, T by auto. auto.
Qed.
(* ---- exactly one ---- *)
Lemma pairs_members {A} (l : list A) x y : In (x, y) (pairs l) -> In x l /\ In y l.
Proof.
  induction l as [|z l IH]; cbn [pairs]; [intros []|]. intros H. apply in_app_iff in H as [H|H]; [|destruct (IH H); split; right; auto].
  apply in_map_iff in H as (u & E & Hu). injection E as <- <-. split; [left|right]; auto.
Qed.
Lemma exactly_names (vs : list text) cl w : In cl (map (pair true) vs :: map (fun s => [(false, fst s); (false, snd s)]) (pairs vs)) -> In w (map snd cl) -> In w vs.
Proof.
  intros [<-|Hc] Hw; [rewrite map_map in Hw; cbn [snd] in Hw; rewrite map_id in Hw; auto|]. apply in_map_iff in Hc as ([x y] & <- & Hp). apply pairs_members in Hp as [Hx Hy]. destruct Hw as [<-|[<-|[]]]; auto.
Qed.
Lemma one_names rank p v cl w : In cl (one_literal rank p v) -> In w (map snd cl) -> In w (block (txt "X_") rank v).
Proof.
  unfold one_literal. cbv zeta. destruct p; [apply exactly_names|]. intros Hc Hw. apply in_map_iff in Hc as (x & <- & Hx). destruct Hw as [<-|Hw]; auto.
  rewrite map_map in Hw. cbn [snd] in Hw. rewrite map_id in Hw. apply filter_In in Hw. tauto.
Qed.
Lemma one_all c rank : made c -> exists F, ExactlyOneSubstitution c rank = Ok F /\ replaced_by c (txt "X_") rank (fun x => trues rank x = 1) F /\ (1 <= rank -> faithful c (txt "X_") rank F).
Proof.
  intros M. assert (G : forall x, (trues rank x =? 1) = true <-> trues rank x = 1) by (intros; apply Z.eqb_eq).
  assert (L : forall p v a, all_hold a (one_literal rank p v) <-> (trues rank (fun i => a (new_variable (txt "X_") v i)) =? 1) = p) by (intros; rewrite one_ok, count_block by apply block_NoDup; tauto).
  destruct (common_ok (txt "X_") rank (one_literal rank) (fun x => trues rank x =? 1) _ G L (one_names rank) c M) as (F & E & R & _). exists F. split; auto. split; auto.
  intros H. apply (common_faithful (txt "X_") rank (one_literal rank) (fun x => trues rank x =? 1) _ G L (one_names rank)); auto.
  - intros x y K. rewrite (trues_ext rank x y K). auto.
  - intros i Hi. destruct (trues_some rank i 1 Hi ltac:(lia)) as (x & X & T). exists x. rewrite trues_flip, T by auto. auto.
Qed.
(* ---- all equal ---- *)
Definition equal_all (rank : Z) (x : Z -> bool) : bool := forallb x (range 0 rank) || forallb (fun i => negb (x i)) (range 0 rank).
Lemma equal_all_spec rank x : equal_all rank x = true <-> forall i j, 0 <= i < rank -> 0 <= j < rank -> x i = x j.
Proof.
  unfold equal_all. rewrite orb_true_iff, !forallb_forall. split.
  - intros [H|H] i j Hi Hj; apply (proj2 (range_In 0 rank i)) in Hi; apply (proj2 (range_In 0 rank j)) in Hj; [rewrite (H i Hi), (H j Hj); auto|]. pose proof (H i Hi). pose proof (H j Hj). destruct (x i), (x j); auto; discriminate.
  - intros H. destruct (existsb x (range 0 rank)) eqn:E.
    + apply existsb_exists in E as (i & Hi & E). left. intros j Hj. apply range_In in Hi, Hj. rewrite (H j i); auto.
    + right. intros i Hi. apply negb_true_iff. destruct (x i) eqn:K; auto. rewrite <- E. symmetry. apply existsb_exists. eauto.
Qed.
Lemma equal_all_ext rank x y : (forall i, 0 <= i < rank -> x i = y i) -> equal_all rank x = equal_all rank y.
Proof. intros H. apply eq_true_iff_eq. rewrite !equal_all_spec. split; intros K i j Hi Hj; [rewrite <- !H by auto|rewrite !H by auto]; auto. Qed.
Lemma same_block a rank v : all_same a (block [] rank v) = equal_all rank (fun i => a (new_variable [] v i)).
Proof.
  apply eq_true_iff_eq. rewrite all_same_spec, equal_all_spec. split; intros H.
  - intros i j Hi Hj. apply H; apply block_In; eauto.
  - intros x y Hx Hy. apply block_In in Hx as (i & Hi & ->). apply block_In in Hy as (j & Hj & ->). auto.
Qed.
Lemma eq_names rank p v cl w : In cl (eq_literal rank p v) -> In w (map snd cl) -> In w (block [] rank v).
Proof.
  unfold eq_literal. cbv zeta. destruct p; intros Hc Hw.
  - apply in_map_iff in Hc as ([x y] & <- & Hp). apply permutations2_In in Hp as (Hx & Hy & _); [|apply block_NoDup]. destruct Hw as [<-|[<-|[]]]; auto.
  - destruct Hc as [<-|[<-|[]]]; rewrite map_map in Hw; cbn [snd] in Hw; rewrite map_id in Hw; auto.
Qed.
Lemma flip_breaks rank i : 2 <= rank -> 0 <= i < rank -> equal_all rank (flip_at i (fun _ => true)) = false.
Proof.
  intros H Hi. apply not_true_iff_false. rewrite equal_all_spec. intros K. unfold flip_at in K. cbn [negb] in K.
  destruct (Z.eq_dec i 0) as [->|NE]; [specialize (K 0 1)|specialize (K 0 i)]; rewrite Z.eqb_refl in K.
  - replace (1 =? 0) with false in K by auto. discriminate K; lia.
  - replace (0 =? i) with false in K by (symmetry; apply Z.eqb_neq; lia). discriminate K; lia.
Qed.
Lemma eq_all c rank : made c -> exists F, AllEqualSubstitution c rank = Ok F /\ replaced_by c [] rank (fun x => forall i j, 0 <= i < rank -> 0 <= j < rank -> x i = x j) F /\ (2 <= rank -> faithful c [] rank F).
Proof.
  intros M. assert (L : forall p v a, all_hold a (eq_literal rank p v) <-> equal_all rank (fun i => a (new_variable [] v i)) = p) by (intros; rewrite eq_ok, same_block by apply block_NoDup; tauto).
  destruct (common_ok [] rank (eq_literal rank) (equal_all rank) _ (equal_all_spec rank) L (eq_names rank) c M) as (F & E & R & _). exists F. split; auto. split; auto.
  intros H. apply (common_faithful [] rank (eq_literal rank) (equal_all rank) _ (equal_all_spec rank) L (eq_names rank)); auto; [apply equal_all_ext| |lia].
  intros i Hi. exists (fun _ => true). split; [apply equal_all_spec; auto|apply flip_breaks; auto].
Qed.
Lemma neq_names rank p v cl w : In cl (neq_literal rank p v) -> In w (map snd cl) -> In w (block [] rank v).
Proof. apply eq_names. Qed.
Lemma neq_all c rank : made c -> exists F, NotAllEqualSubstitution c rank = Ok F /\ replaced_by c [] rank (fun x => exists i j, 0 <= i < rank /\ 0 <= j < rank /\ x i <> x j) F /\ (2 <= rank -> faithful c [] rank F).
Proof.
  intros M. assert (L : forall p v a, all_hold a (neq_literal rank p v) <-> negb (equal_all rank (fun i => a (new_variable [] v i))) = p) by (intros; rewrite neq_ok, same_block by apply block_NoDup; tauto).
  assert (G : forall x, negb (equal_all rank x) = true <-> exists i j, 0 <= i < rank /\ 0 <= j < rank /\ x i <> x j).
  { intros x. rewrite negb_true_iff. split.
    - unfold equal_all. rewrite orb_false_iff. intros [E1 E2].
      assert (Q : forall (h : Z -> bool), forallb h (range 0 rank) = false -> exists i, 0 <= i < rank /\ h i = false).
      { intros h. intros E. destruct (existsb (fun i => negb (h i)) (range 0 rank)) eqn:K; [apply existsb_exists in K as (i & Hi & K); apply range_In in Hi; apply negb_true_iff in K; eauto|].
        exfalso. apply not_true_iff_false in E. apply E. apply forallb_forall. intros i Hi. destruct (h i) eqn:Y; auto. rewrite <- K. apply existsb_exists. exists i. rewrite Y. auto. }
      apply Q in E1 as (i & Hi & E1). apply Q in E2 as (j & Hj & E2). exists i, j. split; auto. split; auto. apply negb_false_iff in E2. congruence.
    - intros (i & j & Hi & Hj & NE). apply not_true_iff_false. rewrite equal_all_spec. auto. }
  destruct (common_ok [] rank (neq_literal rank) (fun x => negb (equal_all rank x)) _ G L (neq_names rank) c M) as (F & E & R & _). exists F. split; auto. split; auto.
  intros H. apply (common_faithful [] rank (neq_literal rank) (fun x => negb (equal_all rank x)) _ G L (neq_names rank)); auto; [intros x y K; rewrite (equal_all_ext rank x y K); auto| |lia].
  intros i Hi. exists (flip_at i (fun _ => true)). rewrite flip_breaks by auto. split; auto. apply negb_false_iff. apply equal_all_spec. intros j k _ _. unfold flip_at. destruct (j =? i), (k =? i); auto.
Qed.
(* ---- if then else ---- *)
Lemma ite_names p v cl w : In cl (ite_literal p v) -> In w (map snd cl) -> In w (block [] 3 v).
Proof.
  unfold ite_literal. cbv zeta. intros Hc Hw. apply block_In. destruct Hc as [<-|[<-|[]]]; destruct Hw as [<-|[<-|[]]]; cbn [snd]; eexists; (split; [|reflexivity]); lia.
Qed.
Lemma ite_all c : made c -> exists F, IfThenElseSubstitution c = Ok F /\ replaced_by c [] 3 (fun x => if x 0 then x 1 = true else x 2 = true) F /\ faithful c [] 3 F.
Proof.
  intros M. assert (G : forall x : Z -> bool, (if x 0 then x 1 else x 2) = true <-> if x 0 then x 1 = true else x 2 = true) by (intros x; destruct (x 0); tauto).
  assert (L : forall p v a, all_hold a (ite_literal p v) <-> (if a (new_variable [] v 0) then a (new_variable [] v 1) else a (new_variable [] v 2)) = p) by (intros; apply ite_ok).
  destruct (common_ok [] 3 ite_literal (fun x => if x 0 then x 1 else x 2) _ G L ite_names c M) as (F & E & R & _). exists F. split; auto. split; auto.
  apply (common_faithful [] 3 ite_literal (fun x => if x 0 then x 1 else x 2) _ G L ite_names); auto; [| |lia].
  - intros x y K. rewrite !K by lia. auto.
  - intros i Hi. assert (Q : i = 0 \/ i = 1 \/ i = 2) by lia. destruct Q as [->|[->| ->]]; [exists (fun j => j <? 2)|exists (fun j => j <? 2)|exists (fun j => j =? 2)]; auto.
Qed.
