(* PFam9.v -- closed walks through all edges, alternately coloured: the converse of the parity arguments for even
   colourings and subset cardinality formulas *)
From Coq Require Import String Ascii ZArith List Bool Lia Arith Permutation Sorted.
From Verif Require Import Spec PyBase MSet MText MCnf MFam SpecCnf SpecFam PText PLib PCnf1 PCnf2 PFam1 PFam2 PFam3 PFam4 PFam5 PFam6 PFam7.
Import ListNotations.
Open Scope Z_scope.

Ltac parity := Z.to_euclidean_division_equations; lia.
Definition one (v x : Z) : Z := if x =? v then 1 else 0.
Definition ends (v : Z) (e : Z * Z) : Z := one v (fst e) + one v (snd e).
Definition src (p : bool * (Z * Z)) : Z := if fst p then snd (snd p) else fst (snd p).
Definition tgt (p : bool * (Z * Z)) : Z := if fst p then fst (snd p) else snd (snd p).
Fixpoint trail (x : Z) (l : list (bool * (Z * Z))) (y : Z) : Prop :=
  match l with [] => x = y | p :: t => src p = x /\ trail (tgt p) t y end.
Lemma one_nonneg v x : 0 <= one v x <= 1.
Proof. unfold one. destruct (x =? v); lia. Qed.
Lemma ends_nonneg v e : 0 <= ends v e.
Proof. unfold ends. pose proof (one_nonneg v (fst e)). pose proof (one_nonneg v (snd e)). lia. Qed.
Lemma ends_step v p : ends v (snd p) = one v (src p) + one v (tgt p).
Proof. unfold ends, src, tgt. destruct p as [[] [x y]]; cbn; lia. Qed.
Lemma ends_total_nonneg v E : 0 <= total (ends v) E.
Proof. induction E as [|e E IH]; [cbn; lia|]. rewrite total_cons. pose proof (ends_nonneg v e). lia. Qed.
Lemma ends_zero v E : total (ends v) E = 0 <-> forall e, In e E -> fst e <> v /\ snd e <> v.
Proof.
  induction E as [|e E IH]; [cbn; intuition|]. rewrite total_cons. pose proof (ends_nonneg v e). pose proof (ends_total_nonneg v E).
  assert (K : ends v e = 0 <-> fst e <> v /\ snd e <> v).
  { unfold ends, one. destruct (Z.eqb_spec (fst e) v), (Z.eqb_spec (snd e) v); lia. }
  split.
  - intros S. assert (ends v e = 0) by lia. assert (total (ends v) E = 0) by lia. intros e' [<-|H']; [tauto|]. apply IH; auto.
  - intros S. rewrite (proj2 K), (proj2 IH); auto. intros e' H'. apply S. right. auto. apply S. left. auto.
Qed.
Lemma trail_app x l1 y l2 z : trail x l1 y -> trail y l2 z -> trail x (l1 ++ l2) z.
Proof. revert x. induction l1 as [|p l1 IH]; cbn; intros x H1 H2; [subst; auto|]. destruct H1. eauto. Qed.
Lemma trail_split x l y w : trail x l y -> In w (x :: map tgt l) -> exists l1 l2, l = l1 ++ l2 /\ trail x l1 w /\ trail w l2 y.
Proof.
  revert x. induction l as [|p l IH]; intros x H K.
  - destruct K as [->|[]]. exists [], []. cbn. auto.
  - destruct K as [->|K]; [exists [], (p :: l); cbn; auto|]. destruct H as [H1 H2]. destruct (IH _ H2 K) as (l1 & l2 & -> & A & B).
    exists (p :: l1), l2. cbn. auto.
Qed.
Lemma trail_ends v x l y : trail x l y -> total (ends v) (map snd l) mod 2 = (one v x + one v y) mod 2.
Proof.
  revert x. induction l as [|p l IH]; intros x H; cbn [map].
  - cbn in H. subst. cbn. parity.
  - destruct H as [H1 H2]. apply IH in H2. rewrite total_cons, ends_step, H1. parity.
Qed.
Lemma walk n : forall E x y, List.length E = n -> (forall v, total (ends v) E mod 2 = (one v x + one v y) mod 2) ->
  exists l R, trail x l y /\ Permutation (map snd l ++ R) E /\ total (ends y) R = 0.
Proof.
  induction n as [|n IH]; intros E x y L P.
  - destruct E; [|discriminate]. specialize (P x). cbn in P. unfold one in P. rewrite Z.eqb_refl in P. destruct (Z.eqb_spec y x) as [->|]; [|discriminate].
    exists [], []. cbn. auto.
  - destruct (Z.eq_dec (total (ends x) E) 0) as [Z0|NZ].
    + pose proof (P x) as Px. rewrite Z0 in Px. unfold one in Px. rewrite Z.eqb_refl in Px. destruct (Z.eqb_spec y x) as [->|]; [|discriminate].
      exists [], E. cbn. auto.
    + assert (X : exists e, In e E /\ (fst e = x \/ snd e = x)).
      { destruct (existsb (fun e => (fst e =? x) || (snd e =? x)) E) eqn:B.
        - apply existsb_exists in B as (e & He & B). exists e. split; auto. apply orb_true_iff in B as [B|B]; apply Z.eqb_eq in B; auto.
        - exfalso. apply NZ. apply ends_zero. intros e He. assert (Q : forall e, In e E -> (fst e =? x) || (snd e =? x) = false).
          { intros e' H'. destruct ((fst e' =? x) || (snd e' =? x)) eqn:Y; auto. rewrite <- B. symmetry. apply existsb_exists. eauto. }
          specialize (Q e He). apply orb_false_iff in Q as [Q1 Q2]. apply Z.eqb_neq in Q1, Q2. auto. }
      destruct X as (e & He & Ex). apply in_split in He as (E1 & E2 & ->).
      set (p := (negb (fst e =? x), e) : bool * (Z * Z)). assert (Sp : src p = x).
      { unfold p, src. cbn [fst snd]. destruct (Z.eqb_spec (fst e) x); cbn; auto. destruct Ex; congruence. }
      destruct (IH (E1 ++ E2) (tgt p) y) as (l & R & T & Q & Z0).
      * rewrite app_length in *. cbn in L. lia.
      * intros v. specialize (P v). rewrite total_app, total_cons in P. change e with (snd p) in P. rewrite ends_step, Sp in P. rewrite total_app. parity.
      * exists (p :: l), R. split; [cbn; auto|]. split; auto. cbn [map app]. change (snd p) with e. eapply perm_trans; [apply perm_skip, Q|]. apply Permutation_middle.
Qed.
Lemma extend r n : forall R T, List.length R = n -> trail r T r -> (forall v, total (ends v) R mod 2 = 0) ->
  exists T' R', trail r T' r /\ Permutation (map snd T' ++ R') (map snd T ++ R) /\ (forall v, total (ends v) R' mod 2 = 0) /\
    forall w, In w (r :: map tgt T') -> total (ends w) R' = 0.
Proof.
  induction n as [n IH] using lt_wf_ind. intros R T L HT P.
  destruct (existsb (fun w => negb (total (ends w) R =? 0)) (r :: map tgt T)) eqn:B.
  - apply existsb_exists in B as (w & Hw & B). apply negb_true_iff, Z.eqb_neq in B. destruct (trail_split _ _ _ _ HT Hw) as (T1 & T2 & -> & A1 & A2).
    destruct (walk _ R w w eq_refl) as (l & R1 & W & Q & Z0). { intros v. rewrite P. parity. }
    assert (L1 : (List.length R1 < n)%nat).
    { pose proof (Permutation_length Q) as QL. rewrite app_length, map_length in QL. destruct l as [|p l]; [|cbn in QL; lia]. exfalso. apply B.
      cbn [map app] in Q. rewrite <- Z0. symmetry. apply total_perm. exact Q. }
    destruct (IH _ L1 R1 (T1 ++ l ++ T2) eq_refl) as (T' & R' & A & C & D & F).
    + eapply trail_app; eauto. eapply trail_app; eauto.
    + intros v. specialize (P v). rewrite <- (total_perm _ _ _ Q), total_app in P. pose proof (trail_ends v _ _ _ W). parity.
    + exists T', R'. split; auto. split; [|auto]. eapply perm_trans; [exact C|]. rewrite !map_app. rewrite <- !app_assoc. apply Permutation_app_head.
      rewrite (app_assoc (map snd l)). rewrite (Permutation_app_comm (map snd l) (map snd T2)). rewrite <- app_assoc. apply Permutation_app_head. exact Q.
  - exists T, R. split; auto. split; auto. split; auto. intros w Hw. destruct (Z.eq_dec (total (ends w) R) 0) as [|N]; auto. exfalso.
    assert (X : existsb (fun w => negb (total (ends w) R =? 0)) (r :: map tgt T) = true); [|congruence]. apply existsb_exists. exists w. split; auto.
    apply negb_true_iff, Z.eqb_neq. auto.
Qed.

(* alternate colours along a trail *)
Definition weight (b : bool) : Z := if b then 1 else -1.
Fixpoint alternate (b : bool) (l : list (bool * (Z * Z))) : list (bool * (Z * Z)) :=
  match l with [] => [] | p :: t => (b, snd p) :: alternate (negb b) t end.
Definition surplus (v : Z) (c : bool * (Z * Z)) : Z := weight (fst c) * ends v (snd c).
Lemma alternate_edges l : forall b, map snd (alternate b l) = map snd l.
Proof. induction l as [|p l IH]; intros b; cbn; [auto|]. rewrite IH. auto. Qed.
Lemma alternate_surplus v l : forall b x y, trail x l y ->
  total (surplus v) (alternate b l) = weight b * one v x - (if Nat.even (List.length l) then weight b else - weight b) * one v y.
Proof.
  induction l as [|p l IH]; intros b x y H.
  - cbn in H |- *. subst. lia.
  - destruct H as [H1 H2]. cbn [alternate]. rewrite total_cons, (IH _ _ _ H2). unfold surplus. cbn [fst snd]. rewrite ends_step, H1.
    cbn [List.length]. rewrite Nat.even_succ, <- Nat.negb_even. destruct (Nat.even (List.length l)), b; cbn [negb weight]; lia.
Qed.
Definition closed_set (l : list Z) (E : list (Z * Z)) : Prop := forall e, In e E -> (In (fst e) l <-> In (snd e) l).
Definition inside (l : list Z) (E : list (Z * Z)) : list (Z * Z) := filter (fun e => zmem (fst e) l) E.
Lemma filter_perm {A} (f : A -> bool) l l' : Permutation l l' -> Permutation (filter f l) (filter f l').
Proof. induction 1; cbn; auto; try (destruct (f x); auto); try (destruct (f y); auto); try apply perm_swap. eapply perm_trans; eauto. Qed.
Lemma trail_inside x l y : trail x l y -> forall e, In e (map snd l) -> In (fst e) (x :: map tgt l) /\ In (snd e) (x :: map tgt l).
Proof.
  revert x. induction l as [|p l IH]; intros x H e He; [destruct He|]. destruct H as [H1 H2].
  assert (K : In (src p) (x :: map tgt (p :: l)) /\ In (tgt p) (x :: map tgt (p :: l))) by (rewrite H1; cbn; auto).
  destruct He as [<-|He].
  - unfold src, tgt in K. destruct p as [[] [a b]]; cbn [fst snd] in *; tauto.
  - destruct (IH _ H2 e He) as [A B]. cbn [map]. split; right; auto.
Qed.
Lemma balanced_colouring n : forall E, List.length E = n -> (forall v, total (ends v) E mod 2 = 0) ->
  (forall l, closed_set l E -> Z.of_nat (List.length (inside l E)) mod 2 = 0) ->
  exists C, Permutation (map snd C) E /\ forall v, total (surplus v) C = 0.
Proof.
  induction n as [n IH] using lt_wf_ind. intros E L P H. destruct E as [|e0 E0] eqn:EE; [exists []; cbn; auto|]. rewrite <- EE in *. set (r := fst e0).
  destruct (extend r _ E [] eq_refl eq_refl P) as (T & R & HT & Q & PR & Z0). cbn [map app] in Q. set (l := r :: map tgt T) in *.
  assert (IT : forall e, In e (map snd T) -> In (fst e) l /\ In (snd e) l) by (apply trail_inside with (y := r); auto).
  assert (IR : forall e, In e R -> ~ In (fst e) l /\ ~ In (snd e) l).
  { intros e He. split; intros K; apply Z0 in K; apply (proj1 (ends_zero _ R)) with (e := e) in K; tauto. }
  assert (CL : closed_set l E).
  { intros e He. apply (Permutation_in _ (Permutation_sym Q)) in He. apply in_app_iff in He as [He|He]; [apply IT in He|apply IR in He]; tauto. }
  assert (IN : forall m, (forall e, In e R -> zmem (fst e) m = false) -> filter (fun e => zmem (fst e) m) R = []).
  { intros m. clear. induction R as [|x R IH]; intros K; auto. cbn [filter]. rewrite K by (left; auto). apply IH. intros; apply K; right; auto. }
  assert (Leven : Nat.even (List.length T) = true).
  { specialize (H l CL). unfold inside in H. rewrite <- (Permutation_length (filter_perm _ _ _ Q)) in H. rewrite filter_app, app_length in H.
    rewrite (IN l) in H by (intros e He; apply zmem_false; apply IR; auto).
    assert (F : forall m : list (Z * Z), (forall e, In e m -> zmem (fst e) l = true) -> filter (fun e => zmem (fst e) l) m = m).
    { clear. induction m as [|x m IH]; intros K; auto. cbn [filter]. rewrite K by (left; auto). f_equal. apply IH. intros; apply K; right; auto. }
    rewrite F in H by (intros e He; apply zmem_In; apply IT; auto). rewrite map_length in H. cbn [List.length] in H. rewrite Nat.add_0_r in H.
    apply Nat.even_spec. exists (Z.to_nat (Z.of_nat (List.length T) / 2)). parity. }
  assert (LR : (List.length R < n)%nat).
  { pose proof (Permutation_length Q) as QL. rewrite app_length, map_length in QL. destruct T as [|p T]; [|cbn in QL; lia]. exfalso.
    cbn [map app] in Q. assert (K : In e0 R) by (apply (Permutation_in _ (Permutation_sym Q)); rewrite EE; left; auto). apply IR in K. destruct K as [K _]. apply K. left. auto. }
  destruct (IH _ LR R eq_refl PR) as (C & QC & SC).
  - intros m Cm. set (m' := filter (fun v => negb (zmem v l)) m).
    assert (MI : forall e, In e R -> (In (fst e) m' <-> In (fst e) m) /\ (In (snd e) m' <-> In (snd e) m)).
    { intros e He. apply IR in He as [A B]. apply zmem_false in A, B. unfold m'. rewrite !filter_In, A, B. tauto. }
    assert (TI : forall e, In e (map snd T) -> ~ In (fst e) m' /\ ~ In (snd e) m').
    { intros e He. apply IT in He as [A B]. apply zmem_In in A, B. unfold m'. rewrite !filter_In, A, B. cbn. split; intros [_ K]; discriminate. }
    assert (Cm' : closed_set m' E).
    { intros e He. apply (Permutation_in _ (Permutation_sym Q)) in He. apply in_app_iff in He as [He|He]; [apply TI in He; tauto|].
      pose proof (MI e He). specialize (Cm e He). tauto. }
    specialize (H m' Cm'). unfold inside in *. rewrite <- (Permutation_length (filter_perm _ _ _ Q)) in H. rewrite filter_app, app_length in H.
    replace (filter (fun e => zmem (fst e) m') (map snd T)) with (@nil (Z * Z)) in H.
    + rewrite (filter_ext_in (fun e => zmem (fst e) m) (fun e => zmem (fst e) m')); [exact H|]. intros e He. destruct (MI e He) as [A _].
      destruct (zmem (fst e) m) eqn:X, (zmem (fst e) m') eqn:Y; auto; rewrite ?zmem_In in *; rewrite ?zmem_false in *; tauto.
    + revert TI. generalize (map snd T) as q. clear. induction q as [|x q IH]; intros K; auto. cbn [filter]. rewrite (proj2 (zmem_false _ _)) by (apply K; left; auto).
      apply IH. intros; apply K; right; auto.
  - exists (alternate true T ++ C). split.
    + rewrite map_app, alternate_edges. eapply perm_trans; [apply Permutation_app_head, QC|exact Q].
    + intros v. rewrite total_app, SC, (alternate_surplus v T true r r HT), Leven. cbn. lia.
Qed.

(* a colouring of the edges of a simple graph *)
Lemma edge_values (E : list (Z * Z)) (C : list (bool * (Z * Z))) :
  NoDup E -> (forall u v, In (u, v) E -> ~ In (v, u) E) -> Permutation (map snd C) E ->
  exists a : text -> bool, forall f : Z * Z -> Z,
    total (fun e => (if a (edge_name (fst e) (snd e)) then 1 else -1) * f e) E = total (fun c => weight (fst c) * f (snd c)) C.
Proof.
  intros N O Q.
  set (a := fun t => existsb (fun c => fst c && text_eqb (edge_name (fst (snd c)) (snd (snd c))) t) C).
  assert (NC : NoDup (map snd C)) by (eapply Permutation_NoDup; [apply Permutation_sym; exact Q|auto]).
  assert (X : forall b e, In (b, e) C -> a (edge_name (fst e) (snd e)) = b).
  { intros b e H. assert (He : In e E) by (apply (Permutation_in _ Q), in_map_iff; exists (b, e); auto).
    destruct (a (edge_name (fst e) (snd e))) eqn:A.
    - apply existsb_exists in A as ([b' e'] & H' & A). cbn [fst snd] in A. apply andb_true_iff in A as [-> A].
      destruct (text_eqb_spec (edge_name (fst e') (snd e')) (edge_name (fst e) (snd e))) as [A'|]; [|discriminate].
      assert (He' : In e' E) by (apply (Permutation_in _ Q), in_map_iff; exists (true, e'); auto).
      assert (e' = e).
      { apply edge_name_inj in A'. destruct e as [x y], e' as [x' y']. cbn [fst snd] in *. destruct A' as [[-> ->]|[-> ->]]; auto. exfalso. apply (O _ _ He He'). }
      subst e'. clear -NC H H'. induction C as [|c C IH]; [destruct H|]. cbn in NC. inversion NC as [|? ? N1 N2]; subst. destruct H as [->|H], H' as [E'|H'].
      + congruence.
      + exfalso. apply N1. apply in_map_iff. exists (true, e). auto.
      + subst c. exfalso. apply N1. apply in_map_iff. exists (b, e). auto.
      + auto.
    - destruct b; auto. exfalso. assert (Y : a (edge_name (fst e) (snd e)) = true); [|congruence]. apply existsb_exists. exists (true, e). split; auto. cbn. apply text_eqb_refl. }
  exists a. intros f. rewrite <- (total_perm _ _ _ Q).
  assert (M : forall h : Z * Z -> Z, total h (map snd C) = total (fun c => h (snd c)) C).
  { intros h. clear. induction C as [|c C IH]; auto. cbn [map]. rewrite !total_cons, IH. auto. }
  rewrite M. apply total_ext. intros [b e] H. cbn [fst snd]. rewrite (X b e H). unfold weight. auto.
Qed.
Lemma around g (f : Z -> Z -> Z) v : simple_graph g ->
  total (f v) (neighbors g v) = total (fun e => (if fst e =? v then f (fst e) (snd e) else 0) + (if snd e =? v then f (snd e) (fst e) else 0)) (g_edges g).
Proof.
  intros G. pose proof (handshake g f [v] G) as H. cbn [total fold_right zmem] in H. rewrite Z.add_0_r in H. rewrite H by (constructor; [intros []|constructor]).
  apply total_ext. intros e _. rewrite !orb_false_r. auto.
Qed.
Lemma around_ends g v : simple_graph g -> total (ends v) (g_edges g) = degree g v.
Proof.
  intros G. unfold degree. rewrite length_total. rewrite (around g (fun _ _ => 1) v G). apply total_ext. intros e _. unfold ends, one. auto.
Qed.
Lemma even_satisfiable g : simple_graph g -> (forall v, In v (g_nodes g) -> degree g v mod 2 = 0) ->
  (has_model (flat_map (even_vertex g) (g_nodes g)) <->
   forall l, NoDup l -> incl l (g_nodes g) -> (forall u w, In u l -> adjacent g u w -> In w l) ->
     Z.of_nat (List.length (filter (fun e => zmem (fst e) l) (g_edges g))) mod 2 = 0).
Proof.
  intros G D. split.
  - intros (a & H). pose proof (proj1 (even_models g a G D) H) as H0. intros l N I C. apply (even_components g a l); auto.
  - intros H. destruct (balanced_colouring _ (g_edges g) eq_refl) as (C & Q & S).
    + intros v. rewrite around_ends by auto. destruct (zmem v (g_nodes g)) eqn:Z1; [apply D, zmem_In; auto|]. apply zmem_false in Z1.
      unfold degree. assert (neighbors g v = []) as ->; [|auto]. destruct (neighbors g v) as [|u n] eqn:E; auto. exfalso. apply Z1.
      assert (A : adjacent g v u) by (apply neighbors_In; auto; rewrite E; left; auto). apply (adjacent_nodes g v u G A).
    + intros l CL. set (l' := filter (fun v => zmem v l) (g_nodes g)).
      assert (X : forall v, In v l' <-> In v (g_nodes g) /\ In v l) by (intros v; unfold l'; rewrite filter_In, zmem_In; tauto).
      unfold inside. rewrite (filter_ext_in (fun e => zmem (fst e) l) (fun e => zmem (fst e) l')).
      * apply H; [apply NoDup_filter, G|intros x Hx; apply X in Hx; tauto|]. intros u w Hu A. apply X in Hu as [Hu Hl].
        destruct (adjacent_nodes g u w G A) as [_ Hw]. apply X. split; auto. destruct A as [A|A]; specialize (CL _ A); cbn [fst snd] in CL; tauto.
      * intros [x y] He. destruct (sg_ends g G _ _ He) as [Hx _]. cbn [fst]. specialize (X x).
        destruct (zmem x l) eqn:E1, (zmem x l') eqn:E2; auto; rewrite ?zmem_In in *; rewrite ?zmem_false in *; tauto.
    + destruct (edge_values (g_edges g) C (sg_edges g G) (sg_once g G) Q) as (a & Ha). exists a. apply even_models; auto. intros v Hv.
      rewrite how_many_total. unfold degree. rewrite length_total.
      assert (K : total (fun u => if a (edge_name u v) then 1 else -1) (neighbors g v) = 0).
      { rewrite (around g (fun v u => if a (edge_name u v) then 1 else -1) v G). specialize (S v). unfold surplus in S. rewrite <- (Ha (ends v)) in S. refine (eq_trans _ S).
        apply total_ext. intros [x y] _. unfold ends, one. cbn [fst snd]. rewrite (edge_name_sym y x). destruct (x =? v), (y =? v), (a (edge_name x y)); lia. }
      rewrite <- total_scale. cut (total (fun x => 2 * (if a (edge_name x v) then 1 else 0)) (neighbors g v) - total (fun _ => 1) (neighbors g v) = 0); [lia|].
      refine (eq_trans _ K). clear. induction (neighbors g v) as [|x l IH]; auto. rewrite !total_cons. destruct (a (edge_name x v)); lia.
Qed.
(* subset cardinality formulas *)
Lemma left_around b (f : Z -> Z -> Z) u : total (f u) (left_neighbors b u) = total (fun e => if fst e =? u then f (fst e) (snd e) else 0) (b_edges b).
Proof.
  unfold left_neighbors. rewrite (total_perm _ _ _ (sort_by_Perm Z.ltb _)).
  transitivity (total (fun e => f u (snd e)) (filter (fun e => fst e =? u) (b_edges b))).
  + generalize (filter (fun e => fst e =? u) (b_edges b)) as l. induction l as [|x l IH]; auto. cbn [map]. rewrite !total_cons, IH. auto.
  + rewrite total_filter. apply total_ext. intros [x y] _. cbn [fst snd]. destruct (Z.eqb_spec x u) as [->|]; auto.
Qed.
Lemma right_around b (f : Z -> Z -> Z) v : total (fun u => f u v) (right_neighbors b v) = total (fun e => if snd e =? v then f (fst e) (snd e) else 0) (b_edges b).
Proof.
  unfold right_neighbors. rewrite (total_perm _ _ _ (sort_by_Perm Z.ltb _)).
  transitivity (total (fun e => f (fst e) v) (filter (fun e => snd e =? v) (b_edges b))).
  + generalize (filter (fun e => snd e =? v) (b_edges b)) as l. induction l as [|x l IH]; auto. cbn [map]. rewrite !total_cons, IH. auto.
  + rewrite total_filter. apply total_ext. intros [x y] _. cbn [fst snd]. destruct (Z.eqb_spec y v) as [->|]; auto.
Qed.
Lemma total_zero {A} (f : A -> Z) l : (forall x, In x l -> f x = 0) -> total f l = 0.
Proof. intros H. rewrite (total_ext f (fun _ => 0)) by auto. rewrite total_const. lia. Qed.
Lemma total_even {A} (f : A -> Z) l : (forall x, In x l -> f x mod 2 = 0) -> total f l mod 2 = 0.
Proof.
  induction l as [|x l IH]; intros H; auto. rewrite total_cons. pose proof (H x (or_introl eq_refl)). assert (total f l mod 2 = 0) by (apply IH; intros; apply H; right; auto). parity.
Qed.
Lemma sc_satisfiable b e : bipartite_graph b ->
  (has_model (sc_clauses b e) <->
   (forall u, In u (b_left b) -> Z.of_nat (List.length (left_neighbors b u)) mod 2 = 0) /\
   (forall v, In v (b_right b) -> Z.of_nat (List.length (right_neighbors b v)) mod 2 = 0)).
Proof.
  intros G. split; [apply sc_even; auto|]. intros [DL DR].
  assert (SIDE : forall x y, In (x, y) (b_edges b) -> In x (b_left b) /\ In y (b_right b) /\ ~ In x (b_right b) /\ ~ In y (b_left b)).
  { intros x y H. destruct (bg_ends b G x y H) as [A B]. split; auto. split; auto. split; [apply (bg_apart b G); auto|]. intros K. apply (bg_apart b G y); auto. }
  assert (EL : forall v, In v (b_left b) -> total (ends v) (b_edges b) = Z.of_nat (List.length (left_neighbors b v))).
  { intros v Hv. rewrite length_total, (left_around b (fun _ _ => 1) v). apply total_ext. intros [x y] He. apply SIDE in He as (A & B & C & D). unfold ends, one. cbn [fst snd].
    destruct (Z.eqb_spec y v) as [->|]; [contradiction|lia]. }
  assert (ER : forall v, In v (b_right b) -> total (ends v) (b_edges b) = Z.of_nat (List.length (right_neighbors b v))).
  { intros v Hv. rewrite length_total, (right_around b (fun _ _ => 1) v). apply total_ext. intros [x y] He. apply SIDE in He as (A & B & C & D). unfold ends, one. cbn [fst snd].
    destruct (Z.eqb_spec x v) as [->|]; [contradiction|lia]. }
  destruct (balanced_colouring _ (b_edges b) eq_refl) as (C & Q & S).
  - intros v. destruct (in_dec Z.eq_dec v (b_left b)) as [A|A]; [rewrite EL; auto|]. destruct (in_dec Z.eq_dec v (b_right b)) as [B|B]; [rewrite ER; auto|].
    assert (total (ends v) (b_edges b) = 0) as ->; [|auto]. apply ends_zero. intros [x y] He. apply SIDE in He as (X & Y & _). cbn. split; intros ->; auto.
  - intros l CL. unfold inside. rewrite length_total, total_filter.
    rewrite <- (left_count b (fun u _ => if zmem u l then 1 else 0) G). apply total_even. intros u Hu. destruct (zmem u l).
    + rewrite <- length_total. auto.
    + rewrite total_const. auto.
  - destruct (edge_values (b_edges b) C (bg_edges b G)) as (a & Ha); auto.
    { intros u v H K. apply SIDE in H, K. tauto. }
    exists a. apply sc_models; auto.
    assert (HALF : forall (l : list Z) (h : Z -> bool), total (fun x => if h x then 1 else -1) l = 0 -> 2 * how_many h l = Z.of_nat (List.length l)).
    { intros l h K. rewrite how_many_total, length_total, <- total_scale. cut (total (fun x => 2 * (if h x then 1 else 0)) l - total (fun _ => 1) l = 0); [lia|].
      refine (eq_trans _ K). clear. induction l as [|x l IH]; auto. rewrite !total_cons. destruct (h x); lia. }
    split.
    + intros u Hu. assert (K : 2 * how_many (fun v => a (edge_name u v)) (left_neighbors b u) = Z.of_nat (List.length (left_neighbors b u))).
      { apply HALF. rewrite (left_around b (fun u v => if a (edge_name u v) then 1 else -1) u). specialize (S u). unfold surplus in S. rewrite <- (Ha (ends u)) in S. refine (eq_trans _ S).
        apply total_ext. intros [x y] He. apply SIDE in He as (X & Y & X' & Y'). unfold ends, one. cbn [fst snd]. destruct (Z.eqb_spec y u) as [->|]; [contradiction|].
        destruct (x =? u), (a (edge_name x y)); lia. }
      unfold at_least_half. lia.
    + intros v Hv. assert (K : 2 * how_many (fun u => a (edge_name u v)) (right_neighbors b v) = Z.of_nat (List.length (right_neighbors b v))).
      { apply HALF. rewrite (right_around b (fun u v => if a (edge_name u v) then 1 else -1) v). specialize (S v). unfold surplus in S. rewrite <- (Ha (ends v)) in S. refine (eq_trans _ S).
        apply total_ext. intros [x y] He. apply SIDE in He as (X & Y & X' & Y'). unfold ends, one. cbn [fst snd]. destruct (Z.eqb_spec x v) as [->|]; [contradiction|].
        destruct (y =? v), (a (edge_name x y)); lia. }
      unfold at_most_half. lia.
Qed.
