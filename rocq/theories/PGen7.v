(* PGen7.v -- shape of what the array multipliers emit: outputs are positive literals (or zero), and the
   first gate is the conjunction of the two lowest input bits. *)
From Coq Require Import ZArith List Bool Lia Arith.
From Verif Require Import MGen PGen4.
Import ListNotations.
Open Scope Z_scope.

Definition pos (b : bit) : Prop := match b with Bool x => x = false | BitVar _ => True | NotBitVar _ => False end.
Definition plain (g : gate) : Prop := match g with GAssert _ _ => False | _ => True end.
(* results satisfy P, and no assertion is emitted *)
Definition yields {A} (P : A -> Prop) (m : sym A) : Prop :=
  forall v a v' ds, m v = Done a v' ds -> P a /\ Forall plain ds.
Lemma y_ret {A} (P : A -> Prop) a : P a -> yields P (sym_ret a).
Proof. intros H v a' v' ds E. injection E as <- _ <-. auto. Qed.
Lemma y_bind {A B} (P : A -> Prop) (Q : B -> Prop) m f : yields P m -> (forall a, P a -> yields Q (f a)) -> yields Q (sym_bind m f).
Proof.
  intros Hm Hf v b v' ds E. unfold sym_bind in E. destruct (m v) as [a v1 d1|] eqn:E1; [|discriminate].
  destruct (f a v1) as [b' v2 d2|] eqn:E2; [|discriminate]. injection E as <- _ <-.
  destruct (Hm _ _ _ _ E1) as [A1 A2]. destruct (Hf a A1 _ _ _ _ E2) as [B1 B2]. split; auto. apply Forall_app. auto.
Qed.
Lemma y_fail {A} (P : A -> Prop) e : yields P (fun _ => Fails e : outcome A).
Proof. intros v a v' ds E. discriminate. Qed.
Lemma y_gate (P : bit -> Prop) g : (forall v, P (BitVar v)) -> (forall v, plain (g v)) -> yields P (new_gate g).
Proof. intros H G v a v' ds E. injection E as <- _ <-. auto. Qed.
Local Notation K := sym_circuit.
Lemma y_mapM {A B} (P : A -> Prop) (Q : B -> Prop) (f : A -> sym B) : (forall a, P a -> yields Q (f a)) ->
  forall l, Forall P l -> yields (Forall Q) (mapM K f l).
Proof.
  intros Hf l H. induction H as [|a l Ha H IH]; cbn [mapM sym_circuit ret bindM]; [apply y_ret; constructor|].
  eapply y_bind; [apply Hf; auto|]. intros b Hb. eapply y_bind; [apply IH|]. intros bs Hbs. apply y_ret. constructor; auto.
Qed.
Lemma y_foldM {A B} (P : A -> Prop) (Q : B -> Prop) (f : B -> A -> sym B) : (forall b a, Q b -> P a -> yields Q (f b a)) ->
  forall l b, Forall P l -> Q b -> yields Q (foldM K f b l).
Proof.
  intros Hf l. induction l as [|a l IH]; intros b H Hb; cbn [foldM sym_circuit ret bindM]; [apply y_ret; auto|].
  inversion H; subst. eapply y_bind; [apply Hf; eauto|]. intros b' Hb'. apply IH; auto.
Qed.
(* gates *)
Lemma y_and2 a b : pos a -> pos b -> yields pos (sym_and2 a b).
Proof. destruct a as [[|]| |], b as [[|]| |]; cbn; intros; try discriminate; try tauto; try (apply y_ret; cbn; auto); apply y_gate; cbn; auto. Qed.
Lemma y_or2 a b : pos a -> pos b -> yields pos (sym_or2 a b).
Proof. destruct a as [[|]| |], b as [[|]| |]; cbn; intros; try discriminate; try tauto; try (apply y_ret; cbn; auto); apply y_gate; cbn; auto. Qed.
Lemma y_xor2 a b : pos a -> pos b -> yields pos (sym_xor2 a b).
Proof. destruct a as [[|]| |], b as [[|]| |]; cbn; intros; try discriminate; try tauto; try (apply y_ret; cbn; auto); apply y_gate; cbn; auto. Qed.
(* selector and first input positive *)
Lemma y_mux3 s a b : pos s -> pos a -> yields pos (sym_mux3 s a b).
Proof.
  destruct s as [[|]| |], a as [[|]| |], b as [[|]| |]; cbn; intros; try discriminate; try tauto;
    try (apply y_ret; cbn; auto); apply y_gate; cbn; auto.
Qed.
Definition any {A} (_ : A) : Prop := True.
Lemma y_mux3_any s a b : yields any (sym_mux3 s a b).
Proof.
  destruct s as [[|]| |], a as [[|]| |], b as [[|]| |]; cbn; intros; try (apply y_ret; exact I); apply y_gate; cbn; intros; exact I.
Qed.
Lemma y_multiplex_any c : forall xs ys, yields any (multiplex_n K c xs ys).
Proof.
  induction xs as [|x xs IH]; intros [|y ys]; cbn [multiplex_n sym_circuit ret bindM mux3]; try (apply y_ret; exact I).
  eapply y_bind; [apply y_mux3_any|]. intros b _. eapply y_bind; [apply IH|]. intros bs _. apply y_ret. exact I.
Qed.
Definition pos2 (p : bit * bit) : Prop := pos (fst p) /\ pos (snd p).
Lemma y_halfAdd a b : pos a -> pos b -> yields pos2 (halfAdd K a b).
Proof.
  intros Ha Hb. unfold halfAdd. eapply y_bind; [apply y_and2; auto|]. intros c Hc. eapply y_bind; [apply y_xor2; auto|].
  intros s Hs. apply y_ret. split; auto.
Qed.
Lemma y_fullAdd c a b : pos c -> pos a -> pos b -> yields pos2 (fullAdd K c a b).
Proof.
  intros Hc Ha Hb. unfold fullAdd. eapply y_bind; [apply y_halfAdd; auto|]. intros [c1 s1] [H1 H2]; cbn in H1, H2.
  eapply y_bind; [apply y_halfAdd; auto|]. intros [c2 s] [H3 H4]; cbn in H3, H4. eapply y_bind; [apply y_xor2; [exact H1|exact H3]|].
  intros o Ho. apply y_ret. split; auto.
Qed.
Definition poss := Forall pos.
Lemma pos_at l i : poss l -> pos (bit_at l i).
Proof. intros H. unfold bit_at. destruct (nth_in_or_default i l low) as [Hi| ->]; [|reflexivity]. unfold poss in H. rewrite Forall_forall in H. auto. Qed.
Lemma zipPad_pos xs ys : poss xs -> poss ys -> Forall pos2 (zipPad xs ys).
Proof. intros H1 H2. apply Forall_forall. intros p Hp. apply in_map_iff in Hp as (i & <- & _). split; apply pos_at; auto. Qed.
Lemma y_n_adder xs ys : poss xs -> poss ys -> yields poss (n_adder K xs ys).
Proof.
  intros H1 H2. unfold n_adder, n_adder_carry.
  apply (y_bind (fun r => poss (fst r) /\ pos (snd r))).
  - apply (y_bind (fun r => pos (fst r) /\ poss (snd r))).
    + apply (y_foldM pos2); [|apply zipPad_pos; auto|split; [reflexivity|constructor]].
      intros [c ss] [a b] [Hc Hs] [Ha Hb]; cbn in *. unfold fullAddBlock. cbn [fst snd].
      eapply y_bind; [apply y_fullAdd; auto|]. intros [c' s] [G1 G2]. apply y_ret. split; cbn; auto.
      apply Forall_app. split; auto.
    + intros [c ss] [Hc Hs]. apply y_ret. cbn in *. auto.
  - intros [ss c] [Hs Hc]. apply y_ret. apply Forall_app. split; auto.
Qed.
(* fast adder: the sums without carry, the generate and the propagate bits are positive *)
Definition posu (u : carry_unit) : Prop := let '(s, t, g, p) := u in poss s /\ pos g /\ pos p.
Lemma y_multiplex c xs : pos c -> poss xs -> forall ys, yields poss (multiplex_n K c xs ys).
Proof.
  intros Hc H. induction H as [|x xs Hx H IH]; intros [|y ys]; cbn [multiplex_n sym_circuit ret bindM mux3]; try (apply y_ret; constructor).
  eapply y_bind; [apply y_mux3; auto|]. intros b Hb. eapply y_bind; [apply IH|]. intros bs Hbs. apply y_ret. constructor; auto.
Qed.
Lemma y_stage u w : posu u -> posu w -> yields posu (stage K (u, w)).
Proof.
  destruct u as [[[s t] g] p], w as [[[s' t'] g'] p']. intros (A1 & A2 & A3) (B1 & B2 & B3). cbn [stage].
  eapply y_bind; [apply y_multiplex; [exact A2|exact B1]|]. intros ns Hns.
  eapply y_bind; [apply y_multiplex_any|]. intros nt _.
  eapply y_bind. { eapply y_bind; [apply y_or2; [exact B2|exact B3]|]. intros a Ha. eapply y_bind; [apply y_or2; [exact B2|exact A3]|]. intros b Hb. apply y_and2; auto. }
  intros p1 Hp1. eapply y_bind. { eapply y_bind; [apply y_or2; [exact B2|exact B3]|]. intros a Ha. eapply y_bind; [apply y_or2; [exact B2|exact A2]|]. intros b Hb. apply y_and2; auto. }
  intros g1 Hg1. apply y_ret. cbn. repeat split; auto. apply Forall_app. split; auto.
Qed.
Lemma listby2_all {A} (P : A -> Prop) : forall n l, (length l <= n)%nat -> Forall P l ->
  Forall (fun p => P (fst p) /\ P (snd p)) (fst (listby2 l)) /\ Forall P (snd (listby2 l)).
Proof.
  induction n as [|n IH]; intros l Hn H; [destruct l; [split; constructor|simpl in Hn; lia]|].
  destruct l as [|a [|b l]]; cbn [listby2]; [split; constructor|split; auto; constructor|].
  inversion H as [|? ? Ha H']; subst. inversion H' as [|? ? Hb H'']; subst. destruct (IH l) as [I1 I2]; [simpl in Hn; lia|auto|].
  destruct (listby2 l) as [g r]. cbn in *. split; [constructor; auto|auto].
Qed.
Lemma listby3_all {A} (P : A -> Prop) : forall n l, (length l <= n)%nat -> Forall P l ->
  Forall (fun p => P (fst (fst p)) /\ P (snd (fst p)) /\ P (snd p)) (fst (listby3 l)) /\ Forall P (snd (listby3 l)).
Proof.
  induction n as [|n IH]; intros l Hn H; [destruct l; [split; constructor|simpl in Hn; lia]|].
  destruct l as [|a [|b [|c l]]]; cbn [listby3]; [split; constructor|split; auto; constructor|split; auto; constructor|].
  inversion H as [|? ? Ha H']; subst. inversion H' as [|? ? Hb H'']; subst. inversion H'' as [|? ? Hc H3]; subst.
  destruct (IH l) as [I1 I2]; [simpl in Hn; lia|auto|].
  destruct (listby3 l) as [g r]. cbn in *. split; [constructor; auto|auto].
Qed.
Lemma y_stages : forall k us, Forall posu us -> yields posu (apply_stages K k us).
Proof.
  assert (L : forall k us, Forall posu us -> (forall us', Forall posu us' -> yields posu (apply_stages K k us')) ->
    yields posu (let '(groups, rest) := listby2 us in sym_bind (mapM K (stage K) groups) (fun wss => apply_stages K k (wss ++ rest)))).
  { intros k us H IH. destruct (listby2_all posu (length us) us (Nat.le_refl _) H) as [I1 I2]. destruct (listby2 us) as [g r]. cbn in I1, I2.
    eapply y_bind; [eapply (y_mapM (fun p => posu (fst p) /\ posu (snd p))); [|exact I1]|].
    - intros [u w] [Hu Hw]. apply y_stage; auto.
    - intros ws Hws. apply IH. apply Forall_app. split; auto. }
  induction k as [|k IH]; intros us H; destruct us as [|u [|u' us]]; cbn [apply_stages sym_circuit ret bindM failM];
    try apply y_fail; try (inversion H; subst; apply y_ret; auto; fail).
  - apply L; auto.
  - apply (L k (u :: u' :: us)); auto.
Qed.
Lemma y_fast_adder xs ys : poss xs -> poss ys -> yields poss (fast_adder K xs ys).
Proof.
  intros H1 H2. unfold fast_adder. eapply y_bind.
  - eapply (y_mapM pos2 posu); [|apply zipPad_pos; auto]. intros [a b] [Ha Hb]; cbn in Ha, Hb. cbn [fast_adder_unit].
    eapply y_bind; [apply y_xor2; auto|]. intros s Hs. eapply y_bind; [apply (y_ret any); exact I|]. intros t _.
    eapply y_bind; [apply y_and2; auto|]. intros g Hg. eapply y_bind; [apply y_or2; auto|]. intros p Hp.
    apply y_ret. cbn. split; [constructor; [auto|constructor]|auto].
  - intros us Hus. eapply y_bind; [apply y_stages; auto|]. intros [[[s t] g] p] (A1 & A2 & A3). apply y_ret.
    apply Forall_app. split; auto.
Qed.
Lemma y_adder a xs ys : poss xs -> poss ys -> yields poss (adder_of K a xs ys).
Proof. destruct a; [apply y_n_adder|apply y_fast_adder]. Qed.
Lemma split_all {A B} (P : A -> Prop) (Q : B -> Prop) l : Forall (fun p => P (fst p) /\ Q (snd p)) l ->
  Forall P (fst (split l)) /\ Forall Q (snd (split l)).
Proof.
  induction 1 as [|[x y] l [Hx Hy] _ [I1 I2]]; [split; constructor|]. cbn [split]. destruct (split l) as [p q]. cbn in *. split; constructor; auto.
Qed.
Lemma y_w3 g : poss (fst (fst g)) /\ poss (snd (fst g)) /\ poss (snd g) -> yields (fun r => poss (fst r) /\ poss (snd r)) (w3_unit K g).
Proof.
  destruct g as [[xs ys] zs]. cbn [fst snd]. intros (H1 & H2 & H3). cbn [w3_unit]. eapply y_bind.
  - eapply (y_mapM (fun t => pos (fst (fst t)) /\ pos (snd (fst t)) /\ pos (snd t)) pos2).
    + intros [[x y] z]. cbn [fst snd]. intros (A1 & A2 & A3). apply y_fullAdd; auto.
    + apply Forall_forall. intros p Hp. apply in_map_iff in Hp as (i & <- & _). cbn [fst snd]. repeat split; apply pos_at; auto.
  - intros l Hl. apply y_ret. apply split_all in Hl. auto.
Qed.
Lemma y_rounds adder : (forall xs ys, poss xs -> poss ys -> yields poss (adder xs ys)) ->
  forall k xss, Forall poss xss -> yields poss (w_adder_rounds K k adder xss).
Proof.
  intros Hadd. induction k as [|k IH]; intros xss H; destruct xss as [|x [|y [|z l]]]; cbn [w_adder_rounds sym_circuit ret bindM failM];
    try apply y_fail; try (apply y_ret; constructor); try (inversion H; subst; apply y_ret; auto; fail);
    try (inversion H as [|? ? A1 A2]; subst; inversion A2; subst; apply Hadd; auto; fail).
  destruct (listby3_all poss _ _ (Nat.le_refl _) H) as [I1 I2]. destruct (listby3 (x :: y :: z :: l)) as [g r]. cbn [fst snd] in I1, I2.
  eapply y_bind; [eapply y_mapM; [apply y_w3|exact I1]|]. intros ng Hng. apply split_all in Hng as [J1 J2].
  destruct (split ng) as [cs ss]. cbn [fst snd] in J1, J2. apply IH. rewrite !Forall_app. repeat split; auto.
  apply Forall_forall. intros c Hc. apply in_map_iff in Hc as (d & <- & Hd). constructor; [reflexivity|]. rewrite Forall_forall in J1. apply (J1 d Hd).
Qed.
Lemma shift_rows_pos rows : Forall poss rows -> forall n, Forall poss (shift_rows n rows).
Proof.
  induction 1 as [|r rows Hr H IH]; intros n; cbn [shift_rows]; constructor; auto. apply Forall_app. split; auto.
  apply Forall_forall. intros b Hb. apply repeat_spec in Hb. subst. reflexivity.
Qed.
Lemma y_wallace adder xs ys : (forall xs ys, poss xs -> poss ys -> yields poss (adder xs ys)) -> poss xs -> poss ys ->
  yields poss (wallace_multiplier K adder xs ys).
Proof.
  intros Ha Hx Hy. unfold wallace_multiplier. eapply y_bind.
  - eapply (y_mapM pos poss); [|exact Hy]. intros b Hb. eapply (y_mapM pos pos); [|exact Hx]. intros a Hpa. apply y_and2; auto.
  - intros rows Hr. apply y_rounds; auto. apply shift_rows_pos; auto.
Qed.
Lemma y_csm_row y : pos y -> forall xs ins, poss xs -> Forall pos2 ins -> yields (Forall pos2) (csm_row K xs y ins).
Proof.
  intros Hy. induction xs as [|x xs IH]; intros [|[c s] ins] Hx Hi; cbn [csm_row sym_circuit ret bindM]; try (apply y_ret; constructor).
  inversion Hx; subst. inversion Hi as [|? ? [A1 A2] A3]; subst. cbn in A1, A2. eapply y_bind.
  - unfold block. eapply y_bind; [apply y_and2; auto|]. intros p Hp. apply y_fullAdd; auto.
  - intros r Hr. eapply y_bind; [apply IH; auto|]. intros rs Hrs. apply y_ret. constructor; auto.
Qed.
Lemma combine_pos : forall a b, poss a -> poss b -> Forall pos2 (combine a b).
Proof. induction a as [|x a IH]; intros [|y b] H1 H2; cbn [combine]; try constructor; inversion H1; inversion H2; subst; [split; auto|auto]. Qed.
Lemma y_middle xs : poss xs -> forall ys cs prev, poss ys -> poss cs -> Forall pos2 prev ->
  yields (fun r => poss (fst r) /\ Forall pos2 (snd r)) (middle_loop K xs cs prev ys).
Proof.
  intros Hx. induction ys as [|y ys IH]; intros cs prev Hy Hc Hp; cbn [middle_loop sym_circuit ret bindM failM]; [apply y_ret; auto|].
  apply split_all in Hp as [P1 P2]. destruct (split prev) as [ca su]. cbn [fst snd] in P1, P2. destruct su as [|s0 st]; [apply y_fail|].
  inversion P2; subst. inversion Hy; subst. eapply y_bind.
  - apply y_csm_row; [assumption|exact Hx|]. apply combine_pos; auto. apply Forall_app. split; auto. constructor; [reflexivity|constructor].
  - intros cur Hcur. apply IH; auto. apply Forall_app. split; auto. 
Qed.
Lemma y_carry_save adder xs ys : (forall xs ys, poss xs -> poss ys -> yields poss (adder xs ys)) -> poss xs -> poss ys ->
  yields poss (carry_save_multiplier K adder xs ys).
Proof.
  intros Ha Hx Hy. unfold carry_save_multiplier. destruct ys as [|y ys]; [apply y_fail|]. inversion Hy; subst. eapply y_bind.
  - apply y_csm_row; [assumption|exact Hx|]. apply Forall_forall. intros p Hp. apply in_map_iff in Hp as (i & <- & _). split; reflexivity.
  - intros fr Hfr. eapply y_bind; [apply y_middle; [exact Hx|assumption|constructor|exact Hfr]|]. intros [cs lr] [G1 G2]. cbn [fst snd] in G1, G2.
    apply split_all in G2 as [P1 P2]. destruct (split lr) as [lc ls]. cbn [fst snd] in P1, P2. destruct ls as [|s0 st]; [apply y_fail|].
    inversion P2; subst. eapply y_bind.
    + apply Ha; [exact P1|]. apply Forall_app. split; [assumption|]. constructor; [reflexivity|constructor].
    + intros rc Hrc. apply y_ret. unfold poss. rewrite !Forall_app. repeat split; auto.
Qed.
(* the multipliers that emit arrays of cells only: the recursive one does so up to 20 bits, and when it splits
   once without subtracting *)
Definition array_multiplier (m : multiplier_arg) (k1 k2 : nat) : Prop :=
  match m with
  | Recursive => (max k1 k2 <= bound)%nat \/ (k2 <= Nat.div2 (k1 + 1) <= bound)%nat
  | _ => True
  end.
Lemma recursive_small {M} (KK : circuit M) depth adder xs ys : (max (length xs) (length ys) <= bound)%nat ->
  recursive_multiplier KK depth bound adder xs ys = wallace_multiplier KK adder xs ys.
Proof. intros H. destruct depth; cbn [recursive_multiplier]; rewrite (proj2 (Nat.leb_le _ _)) by auto; auto. Qed.
Lemma recursive_split {M} (KK : circuit M) depth adder xs ys : (max (length xs) (length ys) > bound)%nat ->
  (length ys <= Nat.div2 (length xs + 1) <= bound)%nat ->
  let h := Nat.div2 (length xs + 1) in
  recursive_multiplier KK (S depth) bound adder xs ys =
    bindM KK (wallace_multiplier KK adder (firstn h (padded (length xs) xs)) (firstn h (padded (length xs) ys))) (fun p3 =>
    bindM KK (wallace_multiplier KK adder (skipn h (padded (length xs) xs)) (firstn h (padded (length xs) ys))) (fun p2 =>
    adder (shift h p2) p3)).
Proof.
  intros H H' h. assert (D : (2 * h <= length xs + 1 <= 2 * h + 1)%nat) by apply PGen3.div2_bounds.
  assert (E : max (length xs) (length ys) = length xs) by (fold h in H'; lia).
  cbn [recursive_multiplier]. rewrite (proj2 (Nat.leb_gt _ _)) by lia. rewrite E. fold h.
  rewrite (proj2 (Nat.leb_le _ _)) by (fold h in H'; lia). fold h in H'.
  rewrite !recursive_small; auto; rewrite ?skipn_length, ?firstn_length, ?PGen2.padded_length; lia.
Qed.
Lemma vars_pos v k : poss (vars_from v k).
Proof. apply Forall_forall. intros b Hb. apply in_map_iff in Hb as (i & <- & _). cbn. auto. Qed.
Lemma firstn_all_pos k l : poss l -> poss (firstn k l).
Proof. intros H. unfold poss in *. rewrite Forall_forall in *. intros b Hb. apply H. rewrite <- (firstn_skipn k l). apply in_app_iff. auto. Qed.
Lemma skipn_all_pos k l : poss l -> poss (skipn k l).
Proof. intros H. unfold poss in *. rewrite Forall_forall in *. intros b Hb. apply H. rewrite <- (firstn_skipn k l). apply in_app_iff. auto. Qed.
Lemma multiplier_pos a m k1 k2 v w : array_multiplier m k1 k2 ->
  yields poss (multiplier_of K a m (vars_from v k1) (vars_from w k2)).
Proof.
  intros H. destruct m; cbn [multiplier_of].
  - apply y_carry_save; [apply y_adder|apply vars_pos|apply vars_pos].
  - apply y_wallace; [apply y_adder|apply vars_pos|apply vars_pos].
  - destruct (Nat.le_gt_cases (max k1 k2) bound) as [L|L].
    + rewrite recursive_small by (rewrite !vars_from_length; auto). apply y_wallace; [apply y_adder|apply vars_pos|apply vars_pos].
    + destruct H as [H|H]; [lia|]. rewrite !vars_from_length. destruct (max k1 k2) as [|depth] eqn:Em; [lia|].
      rewrite recursive_split by (rewrite !vars_from_length; lia). rewrite !vars_from_length.
      assert (PP : forall u k j, poss (padded j (vars_from u k))).
      { intros u k j. unfold padded. apply Forall_forall. intros b Hb. apply in_map_iff in Hb as (i & <- & _). apply pos_at, vars_pos. }
      eapply y_bind; [apply y_wallace; [apply y_adder|apply firstn_all_pos, PP|apply firstn_all_pos, PP]|]. intros p3 H3.
      eapply y_bind; [apply y_wallace; [apply y_adder|apply skipn_all_pos, PP|apply firstn_all_pos, PP]|]. intros p2 H2.
      apply y_adder; auto. unfold shift. apply Forall_app. split; auto. apply Forall_forall. intros b Hb. apply repeat_spec in Hb. subst. reflexivity.
Qed.

(* the first gate *)
Definition starts {A} (g : gate) (v : Z) (m : sym A) : Prop := forall a v' ds, m v = Done a v' ds -> exists ds', ds = g :: ds'.
Lemma starts_bind {A B} g v (m : sym A) (f : A -> sym B) : starts g v m -> starts g v (sym_bind m f).
Proof.
  intros H b v' ds E. unfold sym_bind in E. destruct (m v) as [a v1 d1|] eqn:E1; [|discriminate].
  destruct (f a v1) as [b' v2 d2|] eqn:E2; [|discriminate]. injection E as _ _ <-. destruct (H _ _ _ E1) as (d & ->). eexists; reflexivity.
Qed.
Lemma first_gate a m k1 k2 v w x : array_multiplier m k1 k2 -> (0 < k1)%nat -> (0 < k2)%nat ->
  starts (GAnd (BitVar x) (BitVar v) (BitVar w)) x (multiplier_of K a m (vars_from v k1) (vars_from w k2)).
Proof.
  intros Hm H1 H2. destruct k1 as [|k1]; [lia|]. destruct k2 as [|k2]; [lia|].
  assert (EV : forall u k, vars_from u (S k) = BitVar u :: vars_from (u + 1) k).
  { intros u k. unfold vars_from. cbn [seq map]. f_equal; [f_equal; lia|]. rewrite <- seq_shift, map_map. apply map_ext. intros; f_equal; lia. }
  assert (G : starts (GAnd (BitVar x) (BitVar v) (BitVar w)) x (sym_and2 (BitVar v) (BitVar w))).
  { intros b v' ds E. injection E as _ _ <-. exists []. auto. }
  assert (W : forall xs ys, hd low xs = BitVar v -> hd low ys = BitVar w ->
    starts (GAnd (BitVar x) (BitVar v) (BitVar w)) x (wallace_multiplier K (adder_of K a) xs ys)).
  { intros [|x0 xs] [|y0 ys] E1 E2; try discriminate. cbn [hd] in E1, E2. subst. unfold wallace_multiplier. apply starts_bind.
    cbn [mapM sym_circuit bindM and2]. do 2 apply starts_bind. exact G. }
  destruct m; cbn [multiplier_of].
  - rewrite !EV. unfold carry_save_multiplier. apply starts_bind. cbn [map csm_row sym_circuit bindM]. apply starts_bind. unfold block. apply starts_bind. exact G.
  - apply W; rewrite EV; auto.
  - destruct (Nat.le_gt_cases (max (S k1) (S k2)) bound) as [L|L].
    + rewrite recursive_small by (rewrite !vars_from_length; auto). apply W; rewrite EV; auto.
    + destruct Hm as [H|H]; [lia|]. rewrite !vars_from_length. destruct (max (S k1) (S k2)) as [|depth] eqn:Em; [lia|].
      rewrite recursive_split by (rewrite !vars_from_length; lia). rewrite !vars_from_length. apply starts_bind.
      destruct (Nat.div2 (S k1 + 1)) as [|h] eqn:Eh; [lia|]. apply W; rewrite EV; reflexivity.
Qed.
