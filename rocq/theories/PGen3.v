(* PGen3.v -- the multipliers of MGen.v compute products, in every interpretation with the program logic of
   PGen1.v. *)
From Coq Require Import ZArith List Bool Lia Arith.
From Verif Require Import MGen PGen1 PGen2.
Import ListNotations.
Open Scope Z_scope.

Section Circuits.
Context {M : Type -> Type} (K : circuit M) (L : logic K).
Notation spec := (spec L).
Notation okw := (ok L).
Notation adder_ok := (adder_ok K L).

Ltac step := eapply (spec_bind K L); [assumption| |].
Ltac done := apply (spec_ret K L); [assumption|].

Definition multiplier_ok (m : list bit -> list bit -> M (list bit)) (xs ys : list bit) : Prop :=
  forall w, okw w -> belows (wv w) xs -> belows (wv w) ys ->
  spec (m xs ys) w (fun r w' => belows (wv w') r /\ forall f, wP w' f -> nval f r = nval f xs * nval f ys).

(* ---- Wallace ---- *)
Lemma nval_and_row f y : forall xs row, Forall2 (fun x r => bval f r = bval f x && y) xs row ->
  nval f row = b2z y * nval f xs.
Proof.
  induction 1 as [|x r xs row H _ IH]; cbn [nval]; [ring|]. rewrite IH, H. destruct (bval f x), y; cbn [andb b2z]; ring.
Qed.
Lemma total_rows f X : forall ys rows n, Forall2 (fun y r => nval f r = b2z (bval f y) * X) ys rows ->
  total f (shift_rows n rows) = 2 ^ Z.of_nat n * (nval f ys * X).
Proof.
  intros ys rows n F. revert n. induction F as [|y r ys rows H _ IH]; intros n; [cbn; ring|].
  cbn [shift_rows nval]. unfold total in *. cbn [map zsum fold_right]. change (fold_right Z.add 0) with zsum.
  rewrite IH, nval_app, nval_lows, H, repeat_length, Nat2Z.inj_succ, Z.pow_succ_r by lia. ring.
Qed.
Lemma shift_rows_below v : forall rows n, Forall (belows v) rows -> Forall (belows v) (shift_rows n rows).
Proof.
  induction rows as [|r rows IH]; intros n F; cbn [shift_rows]; auto. inversion F; subst. constructor; auto.
  apply belows_app; auto. apply repeat_low_below.
Qed.
Lemma shift_rows_length : forall rows n, length (shift_rows n rows) = length rows.
Proof. induction rows; intros; simpl; auto. Qed.
Lemma wallace_ok adder xs ys : adder_ok adder -> multiplier_ok (wallace_multiplier K adder) xs ys.
Proof.
  intros AO w O Hx Hy. unfold wallace_multiplier.
  set (R := fun (w : world) (y : bit) (row : list bit) => belows (wv w) row /\
    forall f, wP w f -> nval f row = b2z (bval f y) * nval f xs).
  step.
  - apply (spec_mapM K L _ _ _ R w).
    + intros w1 w2 y row _ L2 [A B]. split; [eapply belows_mono; [apply L2|auto]|]. intros f Hf. apply B, L2; auto.
    + apply le_refl.
    + auto.
    + intros y w1 Iy L1 O1. eapply (spec_mono K L); [auto| |].
      * apply (spec_mapM K L _ _ _ (fun w x r => below (wv w) r /\ forall f, wP w f -> bval f r = bval f x && bval f y) w1).
        -- intros w2 w3 a b _ L3 [A B]. split; [eapply below_mono; [apply L3|auto]|]. intros f Hf. apply B, L3; auto.
        -- apply le_refl.
        -- auto.
        -- intros x w2 Ix L2 O2. assert (V : wv w <= wv w2) by (destruct L1, L2; lia).
           unfold belows in Hx, Hy. rewrite Forall_forall in Hx, Hy.
           apply (spec_and2 K L); auto; (eapply below_mono; [exact V|auto]).
      * intros row w2 L2 O2 F. split.
        -- clear -F. induction F as [|a b l l' [H _] _ IH]; constructor; auto.
        -- intros f Hf. apply nval_and_row. clear -F Hf. induction F as [|a b l l' [_ H] _ IH]; constructor; auto.
  - intros rows w1 L1 O1 F. cbv beta. eapply (spec_mono K L); [auto| |].
    + apply (w_adder_ok K L adder); auto.
      * apply shift_rows_below. clear -F. induction F as [|a b l l' [H _] _ IH]; constructor; auto.
      * rewrite shift_rows_length. intros E. destruct rows as [|r1 [|r2 [|]]]; try discriminate.
        exists (repeat low 1 ++ r2). split; [right; left; auto|discriminate].
    + intros r w2 L2 O2 [A B]. split; auto. intros f Hf. rewrite (B f Hf).
      rewrite (total_rows f (nval f xs) ys rows 0).
      * change (2 ^ Z.of_nat 0) with 1. ring.
      * clear -F L2 Hf. induction F as [|a b l l' [_ H] _ IH]; constructor; auto. apply H, L2; auto.
Qed.

(* ---- carry-save ---- *)
Lemma csm_row_spec : forall xs ins y w, length ins = length xs -> okw w -> belows (wv w) xs -> below (wv w) y ->
  belows (wv w) (map fst ins) -> belows (wv w) (map snd ins) ->
  spec (csm_row K xs y ins) w (fun r w' => belows (wv w') (map fst r) /\ belows (wv w') (map snd r) /\
    length r = length xs /\
    forall f, wP w' f -> nval f (map snd r) + 2 * nval f (map fst r) =
      nval f (map fst ins) + nval f (map snd ins) + b2z (bval f y) * nval f xs).
Proof.
  induction xs as [|x xs IH]; intros [|[c s] ins] y w El O Hx Hy H1 H2; try discriminate; cbn [csm_row].
  - done. repeat split; auto. intros f _. cbn [map nval]. ring.
  - injection El as El. cbn [map fst snd] in H1, H2. inversion Hx; subst. inversion H1; subst. inversion H2; subst.
    unfold block.
    eapply (spec_bind K L) with (Q := fun r w' => below (wv w') (fst r) /\ below (wv w') (snd r) /\
      forall f, wP w' f -> b2z (bval f (snd r)) + 2 * b2z (bval f (fst r)) =
        b2z (bval f c) + b2z (bval f s) + b2z (bval f y) * b2z (bval f x)); auto.
    + step; [apply (spec_and2 K L); auto|]. intros xy w1 L1 O1 [A1 A2]. cbv beta.
      assert (V : wv w <= wv w1) by apply L1.
      eapply (spec_mono K L); [auto|apply fullAdd_spec; auto; eapply below_mono; eauto|].
      intros r w2 L2 O2 (B1 & B2 & B3). split; auto. split; auto. intros f Hf. rewrite (B3 f Hf), (A2 f (proj2 L2 f Hf)).
      destruct (bval f x), (bval f y); reflexivity.
    + intros [c' s'] w1 L1 O1 (A1 & A2 & A3). cbv beta. cbn [fst snd] in *. assert (V : wv w <= wv w1) by apply L1.
      step; [apply (IH ins y); auto; solve [eapply belows_mono; [exact V|auto] | eapply below_mono; [exact V|auto]]|].
      intros rs w2 L2 O2 (B1 & B2 & B3 & B4). cbv beta. done. cbn [map fst snd nval length].
      split; [constructor; [eapply below_mono; [apply L2|auto]|auto]|].
      split; [constructor; [eapply below_mono; [apply L2|auto]|auto]|]. split; [lia|].
      intros f Hf. specialize (B4 f Hf). specialize (A3 f (proj2 L2 f Hf)). nia.
Qed.
Lemma combine_fst {A B} (l : list A) (l' : list B) : length l = length l' -> map fst (combine l l') = l.
Proof. revert l'. induction l; intros [|b l']; simpl; intros; try discriminate; auto. f_equal; auto. Qed.
Lemma combine_snd {A B} (l : list A) (l' : list B) : length l = length l' -> map snd (combine l l') = l'.
Proof. revert l'. induction l; intros [|b l']; simpl; intros; try discriminate; auto. f_equal; auto. Qed.
Lemma nval_snoc_low f l : nval f (l ++ [low]) = nval f l.
Proof. rewrite nval_app. cbn [nval]. change (b2z (bval f low)) with 0. lia. Qed.

Lemma middle_loop_spec xs : xs <> [] -> forall ys done_ys cs prev w, okw w -> belows (wv w) xs -> belows (wv w) ys ->
  belows (wv w) cs -> belows (wv w) (map fst prev) -> belows (wv w) (map snd prev) -> length prev = length xs ->
  (forall f, wP w f -> nval f cs + 2 ^ Z.of_nat (length cs) * (nval f (map snd prev) + 2 * nval f (map fst prev)) =
     nval f xs * nval f done_ys) ->
  length done_ys = S (length cs) ->
  spec (middle_loop K xs cs prev ys) w (fun r w' => belows (wv w') (fst r) /\ belows (wv w') (map fst (snd r)) /\
    belows (wv w') (map snd (snd r)) /\ length (snd r) = length xs /\
    forall f, wP w' f -> nval f (fst r) + 2 ^ Z.of_nat (length (fst r)) *
      (nval f (map snd (snd r)) + 2 * nval f (map fst (snd r))) = nval f xs * nval f (done_ys ++ ys)).
Proof.
  intros Hxs. induction ys as [|y ys IH]; intros dys cs prev w O Hx Hy Hc H1 H2 Hl Hv Hd; cbn [middle_loop].
  - done. cbn [fst snd]. rewrite app_nil_r. repeat split; auto.
  - rewrite split_map. destruct prev as [|[c0 s0] prev]; [destruct xs; [congruence|discriminate]|].
    cbn [map fst snd] in *. inversion Hy; subst. inversion H2 as [|? ? Hs0 Hst]; subst.
    set (carries := c0 :: map fst prev) in *. set (st := map snd prev) in *.
    assert (Lc : length carries = length (st ++ [low])) by (unfold carries, st; rewrite app_length; simpl; rewrite !map_length; lia).
    step.
    + apply csm_row_spec; auto.
      * rewrite combine_length, <- Lc, Nat.min_id. unfold carries. cbn [length] in *. rewrite map_length. lia.
      * rewrite combine_fst; auto.
      * rewrite combine_snd; auto. apply belows_app; auto. constructor; simpl; auto.
    + rewrite combine_fst, combine_snd by auto. intros cur w1 L1 O1 (A1 & A2 & A3 & A4). cbv beta.
      assert (V : wv w <= wv w1) by apply L1.
      eapply (spec_mono K L); [auto|apply (IH (dys ++ [y])); auto; try (eapply belows_mono; [exact V|auto]; fail)|].
      * apply belows_app; [eapply belows_mono; [exact V|auto]|]. constructor; auto. eapply below_mono; [exact V|auto].
      * intros f Hf. specialize (A4 f Hf). specialize (Hv f (proj2 L1 f Hf)). rewrite nval_snoc_low in A4.
        rewrite A4. rewrite !nval_app, Hd, app_length. cbn [nval length]. cbn [nval] in Hv.
        rewrite Nat2Z.inj_add, Z.pow_add_r by lia. change (2 ^ Z.of_nat 1) with 2.
        rewrite (Nat2Z.inj_succ (length cs)), Z.pow_succ_r by lia.
        set (m := 2 ^ Z.of_nat (length cs)) in *. unfold carries in *. cbn [nval] in *. 
        replace (nval f xs * (nval f dys + 2 * m * (b2z (bval f y) + 2 * 0))) with
          (nval f xs * nval f dys + 2 * m * (b2z (bval f y) * nval f xs)) by ring. rewrite <- Hv. ring.
      * rewrite !app_length. simpl. lia.
      * intros r w2 L2 O2 (B1 & B2 & B3 & B4 & B5). repeat split; auto. intros f Hf. rewrite (B5 f Hf), <- app_assoc. reflexivity.
Qed.
Lemma carry_save_ok adder xs ys : xs <> [] -> ys <> [] -> adder_ok adder ->
  multiplier_ok (carry_save_multiplier K adder) xs ys.
Proof.
  intros Hxs Hys AO w O Hx Hy. unfold carry_save_multiplier. destruct ys as [|y ys]; [congruence|].
  inversion Hy; subst.
  assert (Z1 : map fst (map (fun _ : bit => (low, low)) xs) = repeat low (length xs)) by (clear; induction xs; simpl; auto; f_equal; auto).
  assert (Z2 : map snd (map (fun _ : bit => (low, low)) xs) = repeat low (length xs)) by (clear; induction xs; simpl; auto; f_equal; auto).
  step.
  - apply csm_row_spec; auto; rewrite ?Z1, ?Z2, ?map_length; auto; apply repeat_low_below.
  - intros first w1 L1 O1 (A1 & A2 & A3 & A4). cbv beta. rewrite Z1, Z2 in A4. assert (V : wv w <= wv w1) by apply L1.
    step.
    + apply (middle_loop_spec xs Hxs ys [y] [] first); auto; try (eapply belows_mono; [exact V|auto]; fail).
      * constructor.
      * intros f Hf. specialize (A4 f Hf). rewrite nval_lows in A4. cbn [nval length]. change (2 ^ Z.of_nat 0) with 1. rewrite A4. ring.
    + intros [cs last] w2 L2 O2 (B1 & B2 & B3 & B4 & B5). cbv beta. cbn [fst snd app] in *. rewrite split_map.
      destruct last as [|[c0 s0] last]; [destruct xs; [congruence|discriminate]|]. cbn [map fst snd] in *.
      inversion B3 as [|? ? Hs0 Hst]; subst. set (st := map snd last) in *.
      step.
      * apply AO; auto; [apply belows_app; auto; constructor; simpl; auto|simpl; lia].
      * intros rest w3 L3 O3 (C1 & _ & C2). cbv beta. assert (V3 : wv w2 <= wv w3) by apply L3. done.
        split; [repeat apply belows_app; auto; [eapply belows_mono; [exact V3|auto]|constructor; [eapply below_mono; [exact V3|auto]|auto]]|].
        intros f Hf. specialize (C2 f Hf). specialize (B5 f (proj2 L3 f Hf)). rewrite nval_snoc_low in C2.
        rewrite <- B5, nval_app. cbn [app nval length]. rewrite C2. cbn [nval]. ring.
Qed.

(* ---- recursive ---- *)
Lemma div2_bounds n : (2 * Nat.div2 (n + 1) <= n + 1 <= 2 * Nat.div2 (n + 1) + 1)%nat.
Proof. pose proof (Nat.div2_odd (n + 1)) as E. unfold Nat.b2n in E. destruct (Nat.odd (n + 1)); lia. Qed.
Lemma nval_split f h l : (h <= length l)%nat -> nval f l = nval f (firstn h l) + 2 ^ Z.of_nat h * nval f (skipn h l).
Proof. intros H. rewrite <- (firstn_skipn h l) at 1. rewrite nval_app, firstn_length_le by auto. auto. Qed.
Lemma recursive_ok adder bd : (3 <= bd)%nat -> adder_ok adder -> forall depth xs ys,
  (max (length xs) (length ys) <= depth)%nat ->
  multiplier_ok (recursive_multiplier K depth bd adder) xs ys.
Proof.
  intros Hb AO. induction depth as [|depth IH]; intros xs ys Hd w O Hx Hy; cbn [recursive_multiplier].
  - assert (E : (max (length xs) (length ys) <=? bd)%nat = true) by (apply Nat.leb_le; lia). rewrite E.
    apply wallace_ok; auto.
  - set (n := max (length xs) (length ys)) in *. set (h := Nat.div2 (n + 1)).
    destruct (Nat.leb_spec n bd) as [Hn|Hn]; [apply wallace_ok; auto|].
    pose proof (div2_bounds n) as Hh. fold h in Hh.
    set (exs := padded n xs). set (eys := padded n ys).
    assert (Lx : length exs = n) by apply padded_length. assert (Ly : length eys = n) by apply padded_length.
    assert (Bx : belows (wv w) exs) by (apply padded_below; auto). assert (By : belows (wv w) eys) by (apply padded_below; auto).
    assert (Vx : forall f, nval f xs = nval f (firstn h exs) + 2 ^ Z.of_nat h * nval f (skipn h exs)).
    { intros f. rewrite <- (nval_split f h exs) by lia. symmetry. apply nval_padded. lia. }
    assert (Vy : forall f, nval f ys = nval f (firstn h eys) + 2 ^ Z.of_nat h * nval f (skipn h eys)).
    { intros f. rewrite <- (nval_split f h eys) by lia. symmetry. apply nval_padded. lia. }
    assert (L1 : length (firstn h exs) = h) by (apply firstn_length_le; lia).
    assert (L2 : length (firstn h eys) = h) by (apply firstn_length_le; lia).
    assert (L3 : length (skipn h exs) = (n - h)%nat) by (rewrite skipn_length; lia).
    assert (L4 : length (skipn h eys) = (n - h)%nat) by (rewrite skipn_length; lia).
    assert (B1 : belows (wv w) (firstn h exs)) by (apply belows_firstn; auto).
    assert (B2 : belows (wv w) (firstn h eys)) by (apply belows_firstn; auto).
    assert (B3 : belows (wv w) (skipn h exs)) by (apply belows_skipn; auto).
    assert (B4 : belows (wv w) (skipn h eys)) by (apply belows_skipn; auto).
    set (B := firstn h exs) in *. set (A := skipn h exs) in *. set (D := firstn h eys) in *. set (C := skipn h eys) in *.
    destruct (Nat.leb_spec (length ys) h) as [Hs|Hs].
    + assert (VC : forall f, nval f C = 0).
      { intros f. unfold C, eys. rewrite padded_eq by lia. rewrite skipn_app. rewrite skipn_all2 by lia. cbn [app].
        generalize (n - length ys)%nat. intros k. generalize (h - length ys)%nat. intros j.
        assert (E : forall j k, exists i, skipn j (repeat low k) = repeat low i).
        { clear. induction j; intros k; [exists k; auto|]. destruct k; [exists 0%nat; auto|]. apply IHj. }
        destruct (E j k) as [i ->]. apply nval_lows. }
      step; [apply IH; auto; lia|]. intros p3 w1 Lw1 O1 [P1 P2]. cbv beta. assert (V1 : wv w <= wv w1) by apply Lw1.
      step; [apply IH; [lia|auto|eapply belows_mono; [exact V1|auto]|eapply belows_mono; [exact V1|auto]]|].
      intros p2 w2 Lw2 O2 [Q1 Q2]. cbv beta. assert (V2 : wv w1 <= wv w2) by apply Lw2.
      eapply (spec_mono K L); [auto|apply AO; auto|].
      * apply belows_app; [apply repeat_low_below|auto].
      * eapply belows_mono; [exact V2|auto].
      * unfold shift. rewrite app_length, repeat_length. lia.
      * intros r w3 Lw3 O3 (R1 & _ & R2). split; auto. intros f Hf. rewrite (R2 f Hf). unfold shift.
        rewrite nval_app, nval_lows, repeat_length, (Q2 f (proj2 Lw3 f Hf)), (P2 f (proj2 Lw2 f (proj2 Lw3 f Hf))), Vx, Vy, VC. ring.
    + step; [apply IH; auto; lia|]. intros p1 w1 Lw1 O1 [P1 P2]. cbv beta. assert (V1 : wv w <= wv w1) by apply Lw1.
      step; [apply IH; [lia|auto|eapply belows_mono; [exact V1|auto]|eapply belows_mono; [exact V1|auto]]|].
      intros p3 w2 Lw2 O2 [Q1 Q2]. cbv beta. assert (V2 : wv w <= wv w2) by (destruct Lw2; lia).
      step; [apply AO; [auto|eapply belows_mono; [exact V2|auto]|eapply belows_mono; [exact V2|auto]|lia]|].
      intros ab w3 Lw3 O3 (R1 & R2 & R3). cbv beta. assert (V3 : wv w <= wv w3) by (destruct Lw3; lia).
      step; [apply AO; [auto|eapply belows_mono; [exact V3|auto]|eapply belows_mono; [exact V3|auto]|lia]|].
      intros cd w4 Lw4 O4 (S1 & S2 & S3). cbv beta.
      assert (V4 : wv w3 <= wv w4) by apply Lw4.
      step; [apply IH; [rewrite R2, S2; lia|auto|eapply belows_mono; [exact V4|auto]|auto]|].
      intros pp w5 Lw5 O5 [T1 T2]. cbv beta.
      assert (F : forall f, wP w5 f -> nval f p1 = nval f A * nval f C /\ nval f p3 = nval f B * nval f D /\
         nval f pp = (nval f A + nval f B) * (nval f C + nval f D)).
      { intros f Hf. assert (H4 : wP w4 f) by (apply Lw5; auto). assert (H3 : wP w3 f) by (apply Lw4; auto).
        assert (H2 : wP w2 f) by (apply Lw3; auto). assert (H1 : wP w1 f) by (apply Lw2; auto).
        rewrite (P2 f H1), (Q2 f H2), (T2 f Hf), (R3 f H3), (S3 f H4). auto. }
      assert (Pos : forall f l, 0 <= nval f l) by (intros; apply nval_range).
      assert (V15 : wv w1 <= wv w5) by (destruct Lw2, Lw3, Lw4, Lw5; lia).
      assert (V25 : wv w2 <= wv w5) by (destruct Lw3, Lw4, Lw5; lia).
      step; [apply subt_spec; [auto|auto|eapply belows_mono; [exact V15|auto]|]|].
      { intros f Hf. destruct (F f Hf) as (F1 & F2 & F3). rewrite F1, F3.
        pose proof (Pos f A). pose proof (Pos f B). pose proof (Pos f C). pose proof (Pos f D). nia. }
      intros d1 w6 Lw6 O6 (U1 & U2 & U3). cbv beta. assert (V26 : wv w2 <= wv w6) by (destruct Lw6; lia).
      step; [apply subt_spec; [auto|auto|eapply belows_mono; [exact V26|auto]|]|].
      { intros f Hf. rewrite (U3 f Hf). destruct (F f (proj2 Lw6 f Hf)) as (F1 & F2 & F3). rewrite F1, F2, F3.
        pose proof (Pos f A). pose proof (Pos f B). pose proof (Pos f C). pose proof (Pos f D). nia. }
      intros p2 w7 Lw7 O7 (W1 & W2 & W3). cbv beta. assert (V17 : wv w1 <= wv w7) by (destruct Lw6, Lw7; lia).
      assert (V27 : wv w2 <= wv w7) by (destruct Lw7; lia).
      step; [apply AO; [auto| | |]|].
      { apply belows_app; [apply repeat_low_below|eapply belows_mono; [exact V17|auto]]. }
      { apply belows_app; [apply repeat_low_below|auto]. }
      { unfold shift. rewrite !app_length, !repeat_length. lia. }
      intros s1 w8 Lw8 O8 (X1 & X2 & X3). cbv beta. assert (V28 : wv w2 <= wv w8) by (destruct Lw8; lia).
      eapply (spec_mono K L); [auto|apply AO; [auto|auto|eapply belows_mono; [exact V28|auto]|rewrite X2; lia]|].
      intros r w9 Lw9 O9 (Y1 & _ & Y2). split; auto. intros f Hf. rewrite (Y2 f Hf).
      assert (H8 : wP w8 f) by (apply Lw9; auto). assert (H7 : wP w7 f) by (apply Lw8; auto).
      assert (H6 : wP w6 f) by (apply Lw7; auto). assert (H5 : wP w5 f) by (apply Lw6; auto).
      destruct (F f H5) as (F1 & F2 & F3). rewrite (X3 f H8). unfold shift.
      rewrite !nval_app, !nval_lows, !repeat_length, (W3 f H7), (U3 f H6), F1, F2, F3, Vx, Vy.
      rewrite Nat2Z.inj_mul. change (Z.of_nat 2) with 2. replace (Z.of_nat h * 2) with (Z.of_nat h + Z.of_nat h) by lia.
      rewrite Z.pow_add_r by lia. ring.
Qed.

Lemma multiplier_of_ok a m xs ys : xs <> [] -> ys <> [] -> multiplier_ok (multiplier_of K a m) xs ys.
Proof.
  intros Hx Hy. destruct m; unfold multiplier_of.
  - apply carry_save_ok; auto. apply adder_of_ok.
  - apply wallace_ok. apply adder_of_ok.
  - intros w O Bx By. apply recursive_ok; auto; [unfold bound; lia|apply adder_of_ok].
Qed.
End Circuits.
