(* PClause.v -- lemmas about Clause.py / Set.add_clause. *)
From Coq Require Import String Ascii ZArith List Bool Lia Permutation Sorted.
From Verif Require Import Spec PyBase MSet MText MQueue MDb MSolver SpecRun PLib.
Import ListNotations.
Open Scope Z_scope.

(* ---- sort_abs ---- *)
Lemma abs_lt_asym x y : abs_lt x y = true -> abs_lt y x = false.
Proof. unfold abs_lt; rewrite Z.ltb_lt, Z.ltb_ge; lia. Qed.
Lemma abs_lt_le_trans x y z : abs_lt y x = false -> abs_lt z y = false -> abs_lt z x = false.
Proof. unfold abs_lt; rewrite !Z.ltb_ge; lia. Qed.

Lemma SS_map {A B} (f : A -> B) (R : B -> B -> Prop) l :
  StronglySorted (fun x y => R (f x) (f y)) l <-> StronglySorted R (map f l).
Proof.
  induction l as [|x t IH]; simpl; [split; constructor|].
  split; intros H; inv H; constructor; try (apply IH; auto).
  - rewrite Forall_map; auto.
  - rewrite Forall_map in *; auto.
Qed.
Lemma SS_impl {A} (R S : A -> A -> Prop) l :
  (forall x y, R x y -> S x y) -> StronglySorted R l -> StronglySorted S l.
Proof.
  intros HI; induction 1 as [|x t Hs IH Hx]; constructor; auto.
  revert Hx; apply Forall_impl; auto.
Qed.
Lemma SS_app {A} (R : A -> A -> Prop) l1 l2 :
  StronglySorted R (l1 ++ l2) <->
  StronglySorted R l1 /\ StronglySorted R l2 /\ (forall x y, In x l1 -> In y l2 -> R x y).
Proof.
  induction l1 as [|x t IH]; simpl.
  - split; [intros; repeat split; auto; [constructor | tauto] | tauto].
  - split.
    + intros H; inv H. apply IH in H2 as (H1 & H2 & H4). rewrite Forall_app in H3.
      destruct H3 as [Ha Hb]. repeat split; auto.
      * constructor; auto.
      * intros a b [->|Ha'] Hb'; [rewrite Forall_forall in Hb; auto | auto].
    + intros (H1 & H2 & H3). inv H1. constructor; [apply IH; repeat split; auto|].
      apply Forall_app; split; auto. apply Forall_forall; auto.
Qed.

Lemma sort_abs_Perm l : Permutation (sort_abs l) l.
Proof. apply sort_by_Perm. Qed.
Lemma le_abs_iff l : StronglySorted (le_of abs_lt) l <-> sorted_clause l.
Proof.
  unfold sorted_clause, cvars. rewrite <- SS_map. unfold le_of, abs_lt.
  split; apply SS_impl; intros x y H; [apply Z.ltb_ge in H; lia | apply Z.ltb_ge; lia].
Qed.
Lemma sort_abs_sorted l : sorted_clause (sort_abs l).
Proof.
  apply le_abs_iff, sort_by_sorted; [apply abs_lt_asym | apply abs_lt_le_trans].
Qed.
Lemma sort_abs_id l : sorted_clause l -> sort_abs l = l.
Proof. intros H; apply sort_by_id, le_abs_iff; auto. Qed.
Lemma sort_abs_idem l : sort_abs (sort_abs l) = sort_abs l.
Proof. apply sort_abs_id, sort_abs_sorted. Qed.

Lemma cvars_Perm l l' : Permutation l l' -> Permutation (cvars l) (cvars l').
Proof. apply Permutation_map. Qed.
Lemma distinct_vars_Perm l l' : Permutation l l' -> distinct_vars l -> distinct_vars l'.
Proof. unfold distinct_vars; intros H; apply Permutation_NoDup, cvars_Perm; auto. Qed.

(* sorted and distinct: strictly ascending, hence unique among permutations *)
Lemma sorted_distinct_strict l :
  sorted_clause l -> distinct_vars l -> StronglySorted Z.lt (cvars l).
Proof.
  unfold sorted_clause, distinct_vars. induction 1 as [|x t Hs IH Hx]; intros Hn; constructor.
  - inv Hn; auto.
  - inv Hn. rewrite Forall_forall in *. intros y Hy. specialize (Hx y Hy).
    assert (x <> y) by (intros ->; auto). lia.
Qed.
Lemma distinct_vars_cons x l : distinct_vars (x :: l) <-> ~ In (Z.abs x) (cvars l) /\ distinct_vars l.
Proof. unfold distinct_vars; simpl; split; [intros H; inv H; auto | intros []; constructor; auto]. Qed.

Lemma sorted_perm_unique l l' :
  sorted_clause l -> sorted_clause l' -> distinct_vars l -> Permutation l l' -> l = l'.
Proof.
  revert l'; induction l as [|x t IH]; intros l' Hs Hs' Hd HP.
  - apply Permutation_nil in HP; auto.
  - destruct l' as [|y t']; [apply Permutation_sym, Permutation_nil in HP; discriminate|].
    assert (x = y).
    { assert (Hx : In x (y :: t')) by (apply (Permutation_in _ HP); simpl; auto).
      assert (Hy : In y (x :: t)) by (apply (Permutation_in _ (Permutation_sym HP)); simpl; auto).
      destruct Hx as [->|Hx]; auto. destruct Hy as [->|Hy]; auto.
      exfalso. apply sorted_distinct_strict in Hd; auto. unfold cvars in Hd; simpl in Hd. inv Hd.
      rewrite Forall_forall in H2. specialize (H2 (Z.abs y)). unfold sorted_clause in Hs'. simpl in Hs'.
      inv Hs'. rewrite Forall_forall in H4. specialize (H4 (Z.abs x)).
      assert (Z.abs x < Z.abs y) by (apply H2, in_map; auto).
      assert (Z.abs y <= Z.abs x) by (apply H4, in_map; auto). lia. }
    subst y. f_equal. apply IH.
    + unfold sorted_clause in *; simpl in *; inv Hs; auto.
    + unfold sorted_clause in *; simpl in *; inv Hs'; auto.
    + apply distinct_vars_cons in Hd; tauto.
    + eapply Permutation_cons_inv; eauto.
Qed.
Lemma sort_abs_perm_eq l l' : distinct_vars l -> Permutation l l' -> sort_abs l = sort_abs l'.
Proof.
  intros Hd HP. apply sorted_perm_unique; try apply sort_abs_sorted.
  - eapply distinct_vars_Perm; [apply Permutation_sym, sort_abs_Perm | auto].
  - rewrite !sort_abs_Perm; auto.
Qed.

(* ---- clause_init ---- *)
Lemma clause_init_distinct c :
  distinct_vars c -> clause_init c = mkClause (sort_abs c) None false 0.
Proof.
  intros Hd. unfold clause_init.
  assert (Hn : NoDup (cvars (sort_abs c))).
  { apply (distinct_vars_Perm c); [apply Permutation_sym, sort_abs_Perm | auto]. }
  destruct (sort_abs c) as [|x [|y t]] eqn:E; try reflexivity.
  simpl in Hn. inv Hn. inv H2.
  destruct (Z.eqb_spec (Z.abs x) (Z.abs y)); [exfalso; apply H1; simpl; auto|].
  destruct t as [|z [|]]; try reflexivity.
  destruct (Z.eqb_spec (Z.abs y) (Z.abs z)); [exfalso; apply H3; simpl; auto | reflexivity].
Qed.

Lemma abs_eq_cases x y : Z.abs x = Z.abs y -> x = y \/ x = - y. Proof. lia. Qed.

Lemma complementary_Perm c c' : Permutation c c' -> complementary c -> complementary c'.
Proof. intros HP (v & H0 & H1 & H2). exists v; repeat split; auto; eapply Permutation_in; eauto. Qed.

(* the sorted literals decide the constant: what the code checks *)
Lemma clause_init_value c :
  cvalue (clause_init c) = Some true \/
  (cvalue (clause_init c) = None /\ raw (clause_init c) = sort_abs c).
Proof.
  unfold clause_init. destruct (sort_abs c) as [|x [|y t]]; auto.
  destruct (Z.abs x =? Z.abs y); simpl; auto.
  destruct t as [|z [|]]; simpl; auto. destruct (Z.abs y =? Z.abs z); auto.
Qed.
Lemma clause_init_raw_nil_or c :
  raw (clause_init c) = [] \/ raw (clause_init c) = sort_abs c.
Proof.
  unfold clause_init. destruct (sort_abs c) as [|x [|y t]]; auto.
  destruct (Z.abs x =? Z.abs y); simpl; auto.
  destruct t as [|z [|]]; simpl; auto. destruct (Z.abs y =? Z.abs z); auto.
Qed.
Lemma clause_init_index c : initial_index (clause_init c) = 0.
Proof.
  unfold clause_init. destruct (sort_abs c) as [|x [|y t]]; auto.
  destruct (Z.abs x =? Z.abs y); simpl; auto.
  destruct t as [|z [|]]; simpl; auto. destruct (Z.abs y =? Z.abs z); auto.
Qed.
Lemma clause_init_true_raw c : cvalue (clause_init c) = Some true -> raw (clause_init c) = [].
Proof.
  unfold clause_init. destruct (sort_abs c) as [|x [|y t]]; simpl; try discriminate.
  destruct (Z.abs x =? Z.abs y); simpl; auto.
  destruct t as [|z [|]]; simpl; try discriminate. destruct (Z.abs y =? Z.abs z); simpl; auto; discriminate.
Qed.

Lemma NoDup_eq_abs (x y : Z) l : NoDup (x :: l) -> In y l -> Z.abs x = Z.abs y -> x = - y /\ y <> 0.
Proof. intros Hn Hy Ha. inv Hn. assert (x <> y) by congruence. lia. Qed.

Lemma clause_init_taut_sound c :
  NoDup c -> cvalue (clause_init c) = Some true -> complementary c.
Proof.
  intros Hn H. apply (complementary_Perm (sort_abs c)); [apply sort_abs_Perm|].
  assert (Hn' : NoDup (sort_abs c)) by (eapply Permutation_NoDup; [apply Permutation_sym, sort_abs_Perm | auto]).
  revert H; unfold clause_init. destruct (sort_abs c) as [|x [|y t]]; simpl; try discriminate.
  destruct (Z.eqb_spec (Z.abs x) (Z.abs y)) as [E|E]; simpl.
  - intros _. destruct (NoDup_eq_abs x y (y :: t) Hn') as [E1 E2]; simpl; auto.
    exists y; repeat split; simpl; auto.
  - destruct t as [|z [|]]; simpl; try discriminate.
    destruct (Z.eqb_spec (Z.abs y) (Z.abs z)) as [E'|E']; simpl; try discriminate. intros _.
    inv Hn'. destruct (NoDup_eq_abs y z [z] H2) as [E1 E2]; simpl; auto.
    exists z; repeat split; simpl; auto.
Qed.

Lemma clause_init_taut_complete c :
  NoDup c -> (List.length c <= 3)%nat -> complementary c -> cvalue (clause_init c) = Some true.
Proof.
  intros Hn Hl HC. apply (complementary_Perm _ (sort_abs c)) in HC;
    [|apply Permutation_sym, sort_abs_Perm].
  rewrite <- (Permutation_length (sort_abs_Perm c)) in Hl.
  pose proof (sort_abs_sorted c) as Hs. unfold clause_init.
  destruct HC as (v & H0 & H1 & H2).
  destruct (sort_abs c) as [|x [|y [|z [|]]]]; simpl in *; try lia.
  - destruct (Z.eqb_spec (Z.abs x) (Z.abs y)); simpl; auto. lia.
  - unfold sorted_clause in Hs; simpl in Hs.
    apply StronglySorted_inv in Hs as [Hs1 Hf1]. apply StronglySorted_inv in Hs1 as [_ Hf2].
    rewrite Forall_forall in Hf1, Hf2.
    pose proof (Hf1 (Z.abs y)). pose proof (Hf1 (Z.abs z)). pose proof (Hf2 (Z.abs z)). simpl in *.
    destruct (Z.eqb_spec (Z.abs x) (Z.abs y)); simpl; auto.
    destruct (Z.eqb_spec (Z.abs y) (Z.abs z)); simpl; auto. lia.
Qed.

(* general characterisation of what is detected: the two smallest variables coincide, or there are
   exactly three literals and the two largest coincide *)
Lemma clause_init_taut_iff c :
  cvalue (clause_init c) = Some true <->
  match sort_abs c with
  | [x; y; z] => Z.abs x = Z.abs y \/ Z.abs y = Z.abs z
  | x :: y :: _ => Z.abs x = Z.abs y
  | _ => False
  end.
Proof.
  unfold clause_init. destruct (sort_abs c) as [|x [|y t]]; simpl; try (split; [discriminate | tauto]).
  destruct (Z.eqb_spec (Z.abs x) (Z.abs y)); simpl.
  - destruct t as [|z [|]]; tauto.
  - destruct t as [|z [|]]; simpl; try (split; [discriminate | congruence]).
    destruct (Z.eqb_spec (Z.abs y) (Z.abs z)); simpl; [tauto|].
    split; [discriminate | tauto].
Qed.

(* ---- raw_lt: strict total order ---- *)
Lemma raw_lt_irrefl a : raw_lt a a = false.
Proof. induction a as [|x a IH]; simpl; auto. rewrite Z.eqb_refl; auto. Qed.

Lemma raw_lt_nil_l b : raw_lt [] b = match b with [] => false | _ => true end.
Proof. destruct b; reflexivity. Qed.
Lemma raw_lt_nil_r a : raw_lt a [] = false.
Proof. destruct a; reflexivity. Qed.

(* literal order: by variable, positive first *)
Definition lit_lt (x y : Z) : Prop := Z.abs x < Z.abs y \/ (Z.abs x = Z.abs y /\ y < x).
Lemma raw_lt_cons x a y b :
  raw_lt (x :: a) (y :: b) = true <-> lit_lt x y \/ (x = y /\ raw_lt a b = true).
Proof.
  simpl. unfold lit_lt. destruct (Z.eqb_spec x y) as [->|Hxy].
  - split; [auto | intros [H|[_ H]]; [lia | auto]].
  - destruct (Z.eqb_spec (Z.abs x) (Z.abs y)).
    + rewrite Z.ltb_lt; split; [auto | intros [H|[H _]]; [lia | congruence]].
    + rewrite Z.leb_le; split; [left; lia | intros [H|[H _]]; [lia | congruence]].
Qed.
Lemma lit_lt_trans x y z : lit_lt x y -> lit_lt y z -> lit_lt x z.
Proof. unfold lit_lt; lia. Qed.
Lemma lit_lt_total x y : lit_lt x y \/ x = y \/ lit_lt y x.
Proof. unfold lit_lt; lia. Qed.
Lemma lit_lt_irrefl x : ~ lit_lt x x. Proof. unfold lit_lt; lia. Qed.

Lemma raw_lt_trans a b c : raw_lt a b = true -> raw_lt b c = true -> raw_lt a c = true.
Proof.
  revert b c; induction a as [|x a IH]; intros b c H1 H2.
  - destruct c; [destruct b; discriminate | reflexivity].
  - destruct b as [|y b]; [discriminate|]. destruct c as [|z c]; [discriminate|].
    apply raw_lt_cons in H1, H2. apply raw_lt_cons.
    destruct H1 as [H1|[-> H1]], H2 as [H2|[-> H2]]; eauto using lit_lt_trans.
Qed.
Lemma raw_lt_total a b : raw_lt a b = true \/ a = b \/ raw_lt b a = true.
Proof.
  revert b; induction a as [|x a IH]; intros [|y b]; auto.
  destruct (lit_lt_total x y) as [H|[->|H]].
  - left; apply raw_lt_cons; auto.
  - destruct (IH b) as [H|[->|H]]; auto; [left | right; right]; apply raw_lt_cons; auto.
  - right; right; apply raw_lt_cons; auto.
Qed.
Lemma raw_lt_asym a b : raw_lt a b = true -> raw_lt b a = false.
Proof.
  intros H; destruct (raw_lt b a) eqn:E; auto.
  pose proof (raw_lt_trans _ _ _ H E) as HH. rewrite raw_lt_irrefl in HH; discriminate.
Qed.
Lemma raw_le_trans a b c : raw_lt b a = false -> raw_lt c b = false -> raw_lt c a = false.
Proof.
  intros H1 H2. destruct (raw_lt c a) eqn:E; auto.
  destruct (raw_lt_total a b) as [H|[->|H]]; try congruence.
  pose proof (raw_lt_trans _ _ _ E H); congruence.
Qed.
Lemma clause_lt_asym x y : clause_lt x y = true -> clause_lt y x = false.
Proof. apply raw_lt_asym. Qed.
Lemma clause_le_trans x y z : clause_lt y x = false -> clause_lt z y = false -> clause_lt z x = false.
Proof. apply raw_le_trans. Qed.

(* ---- add_clause ---- *)
(* what a sequence of added clauses leaves behind *)
Lemma add_clause_clauses s c :
  svalue s <> Some false ->
  clauses (add_clause s c) = clauses s ++ (match cvalue c with None => [c] | _ => [] end).
Proof.
  unfold add_clause. destruct (svalue s) as [[]|] eqn:E; intros H; try congruence;
    destruct (cvalue c) as [[]|]; simpl; rewrite ?app_nil_r; auto; destruct (clauses s) eqn:E2; simpl; auto.
Qed.

Definition undecided (c : clause) : bool := match cvalue c with None => true | _ => false end.

Lemma fold_add_false s cs :
  svalue s = Some false -> fold_left add_clause cs s = s.
Proof.
  revert s; induction cs as [|c t IH]; simpl; intros s H; auto.
  rewrite IH; unfold add_clause; rewrite H; auto.
Qed.

(* the value of a set under construction is a function of what was added *)
Definition build_value (cs : list clause) : option bool :=
  if existsb (fun c => match cvalue c with Some false => true | _ => false end) cs then Some false
  else match filter undecided cs with
       | [] => match cs with [] => None | _ => Some true end
       | _ => None
       end.

Lemma fold_add_nofalse cs s :
  svalue s <> Some false ->
  (clauses s = [] -> svalue s = Some true \/ cs <> [] \/ svalue s = None) ->
  (clauses s <> [] -> svalue s = None) ->
  (forall c, In c cs -> cvalue c <> Some false) ->
  let s' := fold_left add_clause cs s in
  clauses s' = clauses s ++ filter undecided cs /\
  (svalue s' = match clauses s ++ filter undecided cs with
               | [] => match cs with [] => svalue s | _ => Some true end
               | _ => None end).
Proof.
  revert s; induction cs as [|c t IH]; simpl; intros s Hv H1 H2 Hc.
  - rewrite app_nil_r; split; auto. destruct (clauses s) eqn:E; auto. apply H2; congruence.
  - assert (Hcf : cvalue c <> Some false) by auto.
    pose proof (add_clause_clauses s c Hv) as Hcl.
    assert (Hsv : svalue (add_clause s c) =
                  match clauses (add_clause s c) with [] => Some true | _ => None end).
    { rewrite Hcl. unfold add_clause.
      destruct (clauses s) as [|c1 cl1] eqn:E3.
      - destruct (svalue s) as [[]|]; try congruence;
          destruct (cvalue c) as [[]|]; try congruence; reflexivity.
      - rewrite H2 by congruence.
        destruct (cvalue c) as [[]|]; try congruence; simpl; try reflexivity.
        apply H2; congruence. }
    destruct (IH (add_clause s c)) as [I1 I2]; auto.
    + rewrite Hsv; destruct (clauses (add_clause s c)); congruence.
    + intros E; left; rewrite Hsv, E; auto.
    + intros E; rewrite Hsv. destruct (clauses (add_clause s c)); congruence.
    + cbn zeta in I1, I2. rewrite I1, I2, Hsv.
      assert (HE : clauses (add_clause s c) ++ filter undecided t =
                   clauses s ++ (if undecided c then c :: filter undecided t else filter undecided t)).
      { rewrite Hcl. unfold undecided at 2. destruct (cvalue c); rewrite <- app_assoc; reflexivity. }
      rewrite HE. split; auto.
      set (L := clauses s ++ (if undecided c then _ else _)) in *.
      destruct L eqn:E4; auto.
      destruct t; auto. destruct (clauses (add_clause s c)) eqn:E5; auto.
      simpl in HE. discriminate.
Qed.

Lemma add_clause_keeps_nonfalse s c :
  svalue s <> Some false -> cvalue c <> Some false -> svalue (add_clause s c) <> Some false.
Proof.
  unfold add_clause. intros H1 H2. destruct (svalue s) as [[]|] eqn:E; try congruence;
  destruct (cvalue c) as [[]|]; try congruence; destruct (clauses s); simpl; congruence.
Qed.
Lemma fold_add_false_in cs s :
  (exists c, In c cs /\ cvalue c = Some false) -> svalue (fold_left add_clause cs s) = Some false.
Proof.
  revert s; induction cs as [|c t IH]; intros s (c0 & Hi & Hv); [destruct Hi|].
  simpl. destruct Hi as [->|Hi]; [|apply IH; eauto].
  assert (H : svalue (add_clause s c0) = Some false).
  { unfold add_clause; rewrite Hv; destruct (svalue s) as [[]|] eqn:E; auto. }
  rewrite fold_add_false; auto.
Qed.
