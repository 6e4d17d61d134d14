(* PGen2.v -- the adders and multipliers of MGen.v compute sums and products, in every interpretation that
   has the program logic of PGen1.v. *)
From Coq Require Import ZArith List Bool Lia Arith.
From Verif Require Import MGen PGen1.
Import ListNotations.
Open Scope Z_scope.

Lemma nval_app r xs ys : nval r (xs ++ ys) = nval r xs + 2 ^ Z.of_nat (length xs) * nval r ys.
Proof.
  induction xs as [|x xs IH]; cbn [app nval length]; [rewrite Z.pow_0_r; lia|].
  rewrite IH, Nat2Z.inj_succ, Z.pow_succ_r by lia. ring.
Qed.
Lemma nval_lows r n : nval r (repeat low n) = 0.
Proof. induction n; simpl; auto. rewrite IHn. auto. Qed.
Lemma nval_range r xs : 0 <= nval r xs < 2 ^ Z.of_nat (length xs).
Proof.
  induction xs as [|x xs IH]; cbn [nval length]; [rewrite Z.pow_0_r; lia|].
  rewrite Nat2Z.inj_succ, Z.pow_succ_r by lia. unfold b2z. destruct (bval r x); lia.
Qed.
Lemma padded_eq n l : (length l <= n)%nat -> padded n l = l ++ repeat low (n - length l).
Proof.
  unfold padded. revert n. induction l as [|a l IH]; intros n H; cbn [length app] in *.
  - rewrite Nat.sub_0_r. clear H. generalize 0%nat. induction n as [|n IHn]; intros k; auto. cbn [seq map repeat].
    rewrite IHn. f_equal. destruct k; auto.
  - destruct n as [|n]; [lia|]. cbn [seq map]. rewrite <- seq_shift, map_map.
    f_equal. rewrite Nat.sub_succ. rewrite <- (IH n) by lia. apply map_ext. auto.
Qed.
Lemma nval_padded r n l : (length l <= n)%nat -> nval r (padded n l) = nval r l.
Proof. intros H. rewrite padded_eq by auto. rewrite nval_app, nval_lows. lia. Qed.
Lemma padded_length n l : length (padded n l) = n.
Proof. unfold padded. rewrite map_length, seq_length. auto. Qed.
Lemma bit_at_below v l i : belows v l -> below v (bit_at l i).
Proof.
  intros H. unfold bit_at. destruct (Nat.lt_ge_cases i (length l)) as [L|L].
  - unfold belows in H. rewrite Forall_forall in H. apply H. apply nth_In; auto.
  - rewrite nth_overflow by auto. simpl. auto.
Qed.
Lemma padded_below v n l : belows v l -> belows v (padded n l).
Proof. intros H. apply Forall_forall. intros b Hb. apply in_map_iff in Hb as (i & <- & _). apply bit_at_below; auto. Qed.
Lemma repeat_low_below v n : belows v (repeat low n).
Proof. induction n; constructor; simpl; auto. Qed.
Lemma belows_app v xs ys : belows v xs -> belows v ys -> belows v (xs ++ ys).
Proof. intros. apply Forall_app; auto. Qed.
Lemma belows_firstn v n xs : belows v xs -> belows v (firstn n xs).
Proof. intros H. apply Forall_forall. intros b Hb. unfold belows in H. rewrite Forall_forall in H. apply H. rewrite <- (firstn_skipn n xs). apply in_app_iff; auto. Qed.
Lemma belows_skipn v n xs : belows v xs -> belows v (skipn n xs).
Proof. intros H. apply Forall_forall. intros b Hb. unfold belows in H. rewrite Forall_forall in H. apply H. rewrite <- (firstn_skipn n xs). apply in_app_iff; auto. Qed.

Lemma zipPad_fst xs ys : map fst (zipPad xs ys) = padded (max (length xs) (length ys)) xs.
Proof. unfold zipPad, padded. rewrite map_map. auto. Qed.
Lemma zipPad_snd xs ys : map snd (zipPad xs ys) = padded (max (length xs) (length ys)) ys.
Proof. unfold zipPad, padded. rewrite map_map. auto. Qed.
Lemma zipPad_length xs ys : length (zipPad xs ys) = max (length xs) (length ys).
Proof. unfold zipPad. rewrite map_length, seq_length. auto. Qed.

Lemma listby3_spec {A} : forall (l : list A), let '(g, r) := listby3 l in
  l = flat_map (fun t => let '(x, y, z) := t in [x; y; z]) g ++ r /\ (length r <= 2)%nat.
Proof.
  fix IH 1. intros [|a1 [|a2 [|a3 t]]]; simpl; auto. specialize (IH t). destruct (listby3 t) as [g r].
  destruct IH as [E L]. simpl. rewrite <- E. auto.
Qed.
Lemma listby2_spec {A} : forall (l : list A), let '(g, r) := listby2 l in
  l = flat_map (fun t => [fst t; snd t]) g ++ r /\ (length r <= 1)%nat.
Proof.
  fix IH 1. intros [|a1 [|a2 t]]; simpl; auto. specialize (IH t). destruct (listby2 t) as [g r].
  destruct IH as [E L]. simpl. rewrite <- E. auto.
Qed.
Lemma f2_length {A B} (R : A -> B -> Prop) l l' : Forall2 R l l' -> length l = length l'.
Proof. induction 1; simpl; auto. Qed.
Definition zsum (l : list Z) : Z := fold_right Z.add 0 l.
Lemma zsum_app a b : zsum (a ++ b) = zsum a + zsum b.
Proof. induction a; simpl; auto. rewrite IHa. lia. Qed.

Section Circuits.
Context {M : Type -> Type} (K : circuit M) (L : logic K).
Notation spec := (spec L).
Notation okw := (ok L).

Ltac step := eapply (spec_bind K L); [assumption| |].
Ltac done := apply (spec_ret K L); [assumption|].

Lemma spec_mono A (m : M A) w (Q Q' : A -> world -> Prop) : okw w -> spec m w Q ->
  (forall a w', le w w' -> okw w' -> Q a w' -> Q' a w') -> spec m w Q'.
Proof. apply (spec_conseq K L). Qed.

(* mapM with a monotone relation between arguments and results *)
Lemma spec_mapM A B (f : A -> M B) (R : world -> A -> B -> Prop) w0 :
  (forall w w' a b, le w0 w -> le w w' -> R w a b -> R w' a b) ->
  forall l w, le w0 w -> okw w ->
  (forall a w', In a l -> le w0 w' -> okw w' -> spec (f a) w' (fun b w'' => R w'' a b)) ->
  spec (mapM K f l) w (fun bs w' => Forall2 (R w') l bs).
Proof.
  intros Hm l. induction l as [|a l IH]; intros w Hw O H; cbn [mapM].
  - done. constructor.
  - step; [apply H; [left; auto|auto|auto]|]. intros b w1 L1 O1 Hb. cbv beta.
    assert (Lw1 : le w0 w1) by (eapply le_trans; eauto).
    step; [apply IH; auto; intros; apply H; auto; right; auto|].
    intros bs w2 L2 O2 Hbs. cbv beta. done. constructor; auto. apply (Hm w1); auto.
Qed.

(* one-bit adders *)
Lemma halfAdd_spec w a b : okw w -> below (wv w) a -> below (wv w) b ->
  spec (halfAdd K a b) w (fun r w' => below (wv w') (fst r) /\ below (wv w') (snd r) /\
    forall f, wP w' f -> b2z (bval f (snd r)) + 2 * b2z (bval f (fst r)) = b2z (bval f a) + b2z (bval f b)).
Proof.
  intros O Ha Hb. unfold halfAdd. step; [apply (spec_and2 K L); auto|]. intros c w1 L1 O1 [C1 C2]. cbv beta.
  step; [apply (spec_xor2 K L); auto; eapply below_mono; try apply L1; auto|]. intros s w2 L2 O2 [S1 S2]. cbv beta.
  done. cbn [fst snd]. split; [eapply below_mono; [apply L2|auto]|]. split; auto.
  intros f Hf. rewrite S2, C2 by (auto; apply L2; auto). destruct (bval f a), (bval f b); reflexivity.
Qed.
Lemma fullAdd_spec w c a b : okw w -> below (wv w) c -> below (wv w) a -> below (wv w) b ->
  spec (fullAdd K c a b) w (fun r w' => below (wv w') (fst r) /\ below (wv w') (snd r) /\
    forall f, wP w' f -> b2z (bval f (snd r)) + 2 * b2z (bval f (fst r)) =
      b2z (bval f c) + b2z (bval f a) + b2z (bval f b)).
Proof.
  intros O Hc Ha Hb. unfold fullAdd. step; [apply halfAdd_spec; auto|]. intros [c1 s1] w1 L1 O1 (A1 & A2 & A3).
  cbv beta. cbn [fst snd] in *.
  step; [apply halfAdd_spec; auto; eapply below_mono; try apply L1; auto|]. intros [c2 s] w2 L2 O2 (B1 & B2 & B3).
  cbv beta. cbn [fst snd] in *.
  step; [apply (spec_xor2 K L); auto; eapply below_mono; try apply L2; auto|]. intros co w3 L3 O3 [C1 C2]. cbv beta.
  done. cbn [fst snd]. split; auto. split; [eapply below_mono; [apply L3|auto]|].
  intros f Hf. assert (F2 : wP w2 f) by (apply L3; auto). assert (F1 : wP w1 f) by (apply L2; auto).
  specialize (A3 f F1). specialize (B3 f F2). rewrite (C2 f Hf).
  destruct (bval f a), (bval f b), (bval f c), (bval f c1), (bval f c2), (bval f s1), (bval f s); cbn in *; lia.
Qed.

(* ---- ripple-carry adder ---- *)
Lemma add_blocks_spec : forall ps w c sums, okw w -> below (wv w) c -> belows (wv w) (map fst ps) ->
  belows (wv w) (map snd ps) -> belows (wv w) sums ->
  spec (foldM K (fullAddBlock K) (c, sums) ps) w (fun r w' => below (wv w') (fst r) /\
    exists new, snd r = sums ++ new /\ belows (wv w') (snd r) /\ length new = length ps /\
    forall f, wP w' f -> nval f new + 2 ^ Z.of_nat (length ps) * b2z (bval f (fst r)) =
      nval f (map fst ps) + nval f (map snd ps) + b2z (bval f c)).
Proof.
  induction ps as [|[x y] ps IH]; intros w c sums O Hc H1 H2 Hs; cbn [foldM].
  - done. cbn [fst snd map nval length]. split; auto. exists []. rewrite app_nil_r. repeat split; auto.
    intros f _. cbn [nval]. rewrite Z.pow_0_r. lia.
  - cbn [map fst snd] in H1, H2. inversion H1; subst. inversion H2; subst.
    unfold fullAddBlock at 1. cbn [fst snd].
    eapply (spec_bind K L) with (Q := fun r w' => below (wv w') (fst r) /\ exists s, snd r = sums ++ [s] /\ below (wv w') s /\
      forall f, wP w' f -> b2z (bval f s) + 2 * b2z (bval f (fst r)) = b2z (bval f c) + b2z (bval f x) + b2z (bval f y)); auto.
    + step; [apply fullAdd_spec; auto|]. intros [co s] w1 L1 O1 (A1 & A2 & A3). cbv beta. cbn [fst snd] in *. done. cbn [fst snd].
      split; auto. exists s; auto.
    + intros [co sums'] w1 L1 O1 (A1 & s & E & A2 & A3). cbv beta. cbn [fst snd] in *.
      assert (Lv : wv w <= wv w1) by apply L1.
      eapply spec_mono; [auto|apply IH; auto; try (eapply belows_mono; [exact Lv|assumption])|].
      * subst sums'. apply belows_app; [eapply belows_mono; [exact Lv|auto]|constructor; auto].
      * intros r w2 L2 O2 (B1 & new & E2 & B2 & B3 & B4). split; auto. exists (s :: new). subst sums'.
        split; [rewrite E2, <- app_assoc; auto|]. split; auto. split; [cbn; lia|].
        intros f Hf. specialize (B4 f Hf). specialize (A3 f (proj2 L2 f Hf)). cbn [map fst snd length nval].
        rewrite Nat2Z.inj_succ, Z.pow_succ_r by lia. lia.
Qed.
Lemma n_adder_carry_spec w xs ys c : okw w -> belows (wv w) xs -> belows (wv w) ys -> below (wv w) c ->
  spec (n_adder_carry K xs ys c) w (fun r w' => belows (wv w') (fst r) /\ below (wv w') (snd r) /\
    length (fst r) = max (length xs) (length ys) /\
    forall f, wP w' f -> nval f (fst r) + 2 ^ Z.of_nat (max (length xs) (length ys)) * b2z (bval f (snd r)) =
      nval f xs + nval f ys + b2z (bval f c)).
Proof.
  intros O Hx Hy Hc. unfold n_adder_carry. step.
  - apply add_blocks_spec; auto; rewrite ?zipPad_fst, ?zipPad_snd; try apply padded_below; auto. constructor.
  - intros [co sums] w1 L1 O1 (A1 & new & E & A2 & A3 & A4). cbv beta. cbn [fst snd] in *. done. cbn [fst snd].
    cbn [app] in E. subst new. rewrite zipPad_length in *. repeat split; auto.
    intros f Hf. specialize (A4 f Hf). rewrite zipPad_fst, zipPad_snd, !nval_padded in A4 by lia. auto.
Qed.

Definition adder_ok (adder : list bit -> list bit -> M (list bit)) : Prop :=
  forall w xs ys, okw w -> belows (wv w) xs -> belows (wv w) ys -> (0 < length xs + length ys)%nat ->
  spec (adder xs ys) w (fun r w' => belows (wv w') r /\ length r = S (max (length xs) (length ys)) /\
    forall f, wP w' f -> nval f r = nval f xs + nval f ys).

Lemma n_adder_spec w xs ys : okw w -> belows (wv w) xs -> belows (wv w) ys ->
  spec (n_adder K xs ys) w (fun r w' => belows (wv w') r /\ length r = S (max (length xs) (length ys)) /\
    forall f, wP w' f -> nval f r = nval f xs + nval f ys).
Proof.
  intros O Hx Hy. unfold n_adder. step; [apply n_adder_carry_spec; auto; simpl; auto|].
  intros [s c] w1 L1 O1 (A1 & A2 & A3 & A4). cbv beta. cbn [fst snd] in *. done.
  split; [apply belows_app; [auto|constructor; auto]|]. split; [rewrite app_length; cbn; lia|].
  intros f Hf. specialize (A4 f Hf). rewrite nval_app, A3. cbn [nval]. cbn [low bval b2z] in A4. lia.
Qed.
Lemma n_adder_ok : adder_ok (n_adder K).
Proof. intros w xs ys O Hx Hy _. apply n_adder_spec; auto. Qed.

(* ---- subtraction ---- *)
Lemma nval_negated f : forall xs ys, Forall2 (fun x y => bval f y = negb (bval f x)) xs ys ->
  nval f ys = 2 ^ Z.of_nat (length xs) - 1 - nval f xs.
Proof.
  induction 1 as [|x y xs ys H _ IH]; cbn [nval length]; [rewrite Z.pow_0_r; lia|].
  rewrite IH, H, Nat2Z.inj_succ, Z.pow_succ_r by lia. unfold b2z. destruct (bval f x); cbn [negb]; lia.
Qed.
Lemma subt_spec w xs ys : okw w -> belows (wv w) xs -> belows (wv w) ys ->
  (forall f, wP w f -> nval f ys <= nval f xs) ->
  spec (subt K xs ys) w (fun r w' => belows (wv w') r /\ length r = max (length xs) (length ys) /\
    forall f, wP w' f -> nval f r = nval f xs - nval f ys).
Proof.
  intros O Hx Hy Hle. unfold subt. set (size := max (length xs) (length ys)).
  step.
  - apply (spec_mapM _ _ (not1 K) (fun w a b => below (wv w) b /\ forall f, wP w f -> bval f b = negb (bval f a)) w).
    + intros w1 w2 a b _ L2 [A B]. split; [eapply below_mono; [apply L2|auto]|]. intros f Hf. apply B, L2; auto.
    + apply le_refl.
    + auto.
    + intros a w' Ha Lw O'. apply (spec_not1 K L); auto. eapply below_mono; [apply Lw|].
      pose proof (padded_below (wv w) size ys Hy) as P. unfold belows in P. rewrite Forall_forall in P. auto.
  - intros zs w1 L1 O1 F. cbv beta. step; [apply (spec_not1 K L); simpl; auto|]. intros ci w2 L2 O2 [C1 C2]. cbv beta.
    assert (L02 : le w w2) by (eapply le_trans; eauto).
    assert (Hz : belows (wv w2) zs).
    { apply (belows_mono (wv w1)); [apply L2|]. clear -F. induction F as [|a b l l' [H _] _ IH]; constructor; auto. }
    assert (Lz : length zs = size) by (rewrite <- (f2_length _ _ _ F), padded_length; auto).
    step; [apply n_adder_carry_spec; auto; apply padded_below; eapply belows_mono; [apply L02|auto]|].
    intros [sum co] w3 L3 O3 (A1 & A2 & A3 & A4). cbv beta. cbn [fst snd] in *.
    rewrite padded_length, Lz, Nat.max_id in *.
    assert (S : forall f, wP w3 f -> nval f sum + 2 ^ Z.of_nat size * b2z (bval f co) = nval f xs - nval f ys + 2 ^ Z.of_nat size).
    { intros f Hf. rewrite (A4 f Hf). assert (F2 : wP w2 f) by (apply L3; auto). assert (F1 : wP w1 f) by (apply L2; auto).
      rewrite (nval_padded f size xs) by lia. rewrite (C2 f F2). cbn [low bval negb b2z].
      rewrite (nval_negated f (padded size ys) zs).
      - rewrite padded_length, nval_padded by lia. lia.
      - clear -F F1. induction F as [|a b l l' [_ H] _ IH]; constructor; auto. }
    assert (C : forall f, wP w3 f -> bval f co = true).
    { intros f Hf. specialize (S f Hf). pose proof (nval_range f sum) as R. rewrite A3 in R.
      assert (Hl : nval f ys <= nval f xs) by (apply Hle; apply L02; apply L3; auto).
      destruct (bval f co); auto. cbn in S. lia. }
    step; [apply (spec_assert1 K L); eauto|]. intros _ w4 L4 O4 _. cbv beta. done.
    split; [eapply belows_mono; [apply L4|auto]|]. split; auto.
    intros f Hf. assert (F3 : wP w3 f) by (apply L4; auto). specialize (S f F3). rewrite (C f F3) in S. cbn in S. lia.
Qed.

(* ---- Wallace tree ---- *)
Lemma nval_triples f : forall l r, Forall2 (fun (t : bit * bit * bit) (cs : bit * bit) =>
    b2z (bval f (snd cs)) + 2 * b2z (bval f (fst cs)) =
      b2z (bval f (fst (fst t))) + b2z (bval f (snd (fst t))) + b2z (bval f (snd t))) l r ->
  nval f (map snd r) + 2 * nval f (map fst r) =
    nval f (map (fun t => fst (fst t)) l) + nval f (map (fun t => snd (fst t)) l) + nval f (map snd l).
Proof. induction 1 as [|t cs l r H _ IH]; cbn [map nval]; lia. Qed.
Lemma split_map {A B} (l : list (A * B)) : split l = (map fst l, map snd l).
Proof. induction l as [|[a b] l IH]; simpl; auto. rewrite IH. auto. Qed.

Definition triple_belows (w : world) (g : list bit * list bit * list bit) : Prop :=
  let '(x, y, z) := g in belows (wv w) x /\ belows (wv w) y /\ belows (wv w) z.
Definition triple_sum (f : val) (g : list bit * list bit * list bit) : Z :=
  let '(x, y, z) := g in nval f x + nval f y + nval f z.
Lemma w3_unit_spec w g : okw w -> triple_belows w g ->
  spec (w3_unit K g) w (fun r w' => belows (wv w') (fst r) /\ belows (wv w') (snd r) /\
    forall f, wP w' f -> nval f (snd r) + 2 * nval f (fst r) = triple_sum f g).
Proof.
  destruct g as [[xs ys] zs]. intros O (Hx & Hy & Hz). unfold w3_unit.
  set (R := fun (w : world) (t : bit * bit * bit) (cs : bit * bit) =>
    below (wv w) (fst cs) /\ below (wv w) (snd cs) /\ forall f, wP w f ->
    b2z (bval f (snd cs)) + 2 * b2z (bval f (fst cs)) =
      b2z (bval f (fst (fst t))) + b2z (bval f (snd (fst t))) + b2z (bval f (snd t))).
  step.
  - apply (spec_mapM _ _ _ R w).
    + intros w1 w2 t b _ L2 (A & B & C). split; [eapply below_mono; [apply L2|auto]|].
      split; [eapply below_mono; [apply L2|auto]|]. intros f Hf. apply C, L2; auto.
    + apply le_refl.
    + auto.
    + intros [[x y] z] w' Ht Lw O'. unfold zip3Pad in Ht. apply in_map_iff in Ht as (i & E & _). injection E as <- <- <-.
      apply fullAdd_spec; auto; (eapply below_mono; [apply Lw|]); apply bit_at_below; auto.
  - intros l w1 L1 O1 F. cbv beta. done. rewrite split_map. cbn [fst snd].
    assert (B : belows (wv w1) (map fst l) /\ belows (wv w1) (map snd l)).
    { clear -F. split; induction F as [|t cs a b (H1 & H2 & _) _ IH]; constructor; auto. }
    destruct B as [B1 B2]. split; auto. split; auto. intros f Hf.
    rewrite (nval_triples f (zip3Pad xs ys zs) l).
    + unfold zip3Pad. rewrite !map_map. cbn [fst snd].
      set (n := max (length xs) (max (length ys) (length zs))).
      change (map (fun x => bit_at xs x) (seq 0 n)) with (padded n xs).
      change (map (fun x => bit_at ys x) (seq 0 n)) with (padded n ys).
      change (map (fun x => bit_at zs x) (seq 0 n)) with (padded n zs).
      rewrite !nval_padded by (unfold n; lia). reflexivity.
    + clear -F Hf. induction F as [|t cs a b (_ & _ & H) _ IH]; constructor; auto.
Qed.

Definition total (f : val) (xss : list (list bit)) : Z := zsum (map (nval f) xss).
Lemma total_app f a b : total f (a ++ b) = total f a + total f b.
Proof. unfold total. rewrite map_app, zsum_app. auto. Qed.
Lemma w_adder_spec adder : adder_ok adder -> forall rounds xss w, okw w -> Forall (belows (wv w)) xss ->
  (length xss <= rounds)%nat -> (length xss = 2%nat -> exists xs, In xs xss /\ xs <> []) ->
  spec (w_adder_rounds K rounds adder xss) w (fun r w' => belows (wv w') r /\
    forall f, wP w' f -> nval f r = total f xss).
Proof.
  intros AO. induction rounds as [|rounds IH]; intros xss w O HB Hl Hne.
  - destruct xss; [|simpl in Hl; lia]. simpl. done. split; [constructor|]. intros; reflexivity.
  - destruct xss as [|xs [|ys [|zs t]]].
    + simpl. done. split; [constructor|]. intros; reflexivity.
    + simpl. inversion HB; subst. done. split; auto. intros f _. unfold total. simpl. lia.
    + simpl. inversion HB as [|? ? B1 HB1]; subst. inversion HB1 as [|? ? B2 HB2]; subst.
      eapply spec_mono; [auto|apply AO; auto|].
      * destruct (Hne eq_refl) as (x & Hin & Hx). destruct xs, ys; simpl; try lia. exfalso. destruct Hin as [E|[E|[]]]; congruence.
      * intros r w' _ _ (A & _ & B). split; auto. intros f Hf. unfold total. simpl. rewrite B; auto. lia.
    + cbn [w_adder_rounds]. set (xss := xs :: ys :: zs :: t) in *.
      pose proof (listby3_spec xss) as P. assert (G : fst (listby3 xss) <> []).
      { unfold xss. cbn [listby3]. destruct (listby3 t). discriminate. }
      destruct (listby3 xss) as [gs rest]. destruct P as [E Lr]. cbn [fst] in G.
      assert (TB : forall g, In g gs -> triple_belows w g).
      { intros [[x y] z] Hg. rewrite Forall_forall in HB. rewrite E in HB.
        repeat split; apply HB; apply in_app_iff; left; apply in_flat_map; exists (x, y, z); simpl; auto. }
      set (R := fun (w : world) (g : list bit * list bit * list bit) (r : list bit * list bit) =>
        belows (wv w) (fst r) /\ belows (wv w) (snd r) /\
        forall f, wP w f -> nval f (snd r) + 2 * nval f (fst r) = triple_sum f g).
      step.
      * apply (spec_mapM _ _ _ R w).
        -- intros w1 w2 a b _ L2 (A & B & C). split; [eapply belows_mono; [apply L2|auto]|].
           split; [eapply belows_mono; [apply L2|auto]|]. intros f Hf. apply C, L2; auto.
        -- apply le_refl.
        -- auto.
        -- intros g w' Hg Lw O'. apply w3_unit_spec; auto. specialize (TB g Hg).
           destruct g as [[x y] z]. destruct TB as (T1 & T2 & T3).
           repeat split; (eapply belows_mono; [apply Lw|auto]).
      * intros ng w1 L1 O1 F. cbv beta. rewrite split_map.
        assert (Hlen : length ng = length gs) by (symmetry; apply (f2_length _ _ _ F)).
        assert (Hx : length xss = (3 * length gs + length rest)%nat).
        { rewrite E, app_length. f_equal. clear. induction gs as [|[[a b] c] gs IH]; simpl; auto. rewrite IH. lia. }
        assert (Hg : (0 < length gs)%nat) by (destruct gs; [congruence|simpl; lia]).
        eapply spec_mono; [auto|apply IH; auto|].
        -- apply Forall_app. split; [|apply Forall_app; split].
           ++ apply Forall_forall. intros r Hr. apply in_map_iff in Hr as (c & <- & Hc).
              apply in_map_iff in Hc as (p & <- & Hp). constructor; [simpl; auto|].
              clear -F Hp. induction F as [|g r a b (H & _) _ IH]; [destruct Hp|]. destruct Hp as [<-|Hp]; auto.
           ++ apply Forall_forall. intros r Hr. apply in_map_iff in Hr as (p & <- & Hp).
              clear -F Hp. induction F as [|g r a b (_ & H & _) _ IH]; [destruct Hp|]. destruct Hp as [<-|Hp]; auto.
           ++ rewrite Forall_forall in *. intros r Hr. eapply belows_mono; [apply L1|]. apply HB. rewrite E.
              apply in_app_iff; auto.
        -- rewrite !app_length, !map_length. lia.
        -- intros _. destruct ng as [|p ng]; [cbn in Hlen; lia|]. exists (low :: fst p). split; [left; auto|discriminate].
        -- intros r w2 L2 O2 [A B]. split; auto. intros f Hf. rewrite (B f Hf). rewrite !total_app, E, total_app.
           assert (F1 : wP w1 f) by (apply L2; auto). clear -F F1.
           enough (total f (map (cons low) (map fst ng)) + total f (map snd ng) =
             total f (flat_map (fun t => let '(x, y, z) := t in [x; y; z]) gs)) by lia.
           induction F as [|[[x y] z] p gs ng (_ & _ & H) _ IH]; [reflexivity|].
           specialize (H f F1). cbn [triple_sum] in H. cbn [flat_map map app]. unfold total in *. cbn [map zsum fold_right app nval low bval b2z] in *.
           change (fold_right Z.add 0) with zsum in *. lia.
Qed.
Lemma w_adder_ok adder xss w : adder_ok adder -> okw w -> Forall (belows (wv w)) xss ->
  (length xss = 2%nat -> exists xs, In xs xss /\ xs <> []) ->
  spec (w_adder K adder xss) w (fun r w' => belows (wv w') r /\ forall f, wP w' f -> nval f r = total f xss).
Proof. intros. apply w_adder_spec; auto. Qed.

(* ---- carry-lookahead adder ---- *)
Definition unit_of (w : world) (ps : list (bit * bit)) (u : carry_unit) : Prop :=
  let '(s, t, g, p) := u in
  belows (wv w) s /\ belows (wv w) t /\ below (wv w) g /\ below (wv w) p /\
  length s = length ps /\ length t = length ps /\
  forall f, wP w f ->
    nval f s + 2 ^ Z.of_nat (length ps) * b2z (bval f g) = nval f (map fst ps) + nval f (map snd ps) /\
    nval f t + 2 ^ Z.of_nat (length ps) * b2z (bval f p) = nval f (map fst ps) + nval f (map snd ps) + 1.
Lemma unit_of_mono w w' ps u : le w w' -> unit_of w ps u -> unit_of w' ps u.
Proof.
  destruct u as [[[s t] g] p]. intros [L1 L2] (A & B & C & D & E & F & G).
  split; [eapply belows_mono; eauto|]. split; [eapply belows_mono; eauto|]. split; [eapply below_mono; eauto|].
  split; [eapply below_mono; eauto|]. repeat split; auto; apply G; auto.
Qed.
Lemma fast_adder_unit_spec w ab : okw w -> below (wv w) (fst ab) -> below (wv w) (snd ab) ->
  spec (fast_adder_unit K ab) w (fun u w' => unit_of w' [ab] u).
Proof.
  destruct ab as [a b]. cbn [fst snd]. intros O Ha Hb. unfold fast_adder_unit.
  step; [apply (spec_xor2 K L); auto|]. intros s w1 L1 O1 [A1 A2]. cbv beta.
  step; [apply (spec_not1 K L); auto|]. intros t w2 L2 O2 [B1 B2]. cbv beta.
  assert (V2 : wv w <= wv w2) by (destruct L1, L2; lia).
  step; [apply (spec_and2 K L); auto; eapply below_mono; eauto|]. intros g w3 L3 O3 [C1 C2]. cbv beta.
  assert (V3 : wv w <= wv w3) by (destruct L3; lia).
  step; [apply (spec_or2 K L); auto; eapply below_mono; eauto|]. intros p w4 L4 O4 [D1 D2]. cbv beta. done.
  unfold unit_of. cbn [length map fst snd].
  split; [constructor; [|constructor]; eapply below_mono; [|exact A1]; destruct L2, L3, L4; lia|].
  split; [constructor; [|constructor]; eapply below_mono; [|exact B1]; destruct L3, L4; lia|].
  split; [eapply below_mono; [|exact C1]; apply L4|]. split; auto. split; auto. split; auto.
  intros f Hf. assert (F3 : wP w3 f) by (apply L4; auto). assert (F2 : wP w2 f) by (apply L3; auto).
  assert (F1 : wP w1 f) by (apply L2; auto). cbn [nval]. rewrite D2, C2, B2, A2 by auto.
  change (2 ^ Z.of_nat 1) with 2. destruct (bval f a), (bval f b); cbn; lia.
Qed.
Lemma multiplex_n_spec : forall xs ys w c, length xs = length ys -> okw w -> below (wv w) c -> belows (wv w) xs ->
  belows (wv w) ys ->
  spec (multiplex_n K c xs ys) w (fun r w' => belows (wv w') r /\ length r = length xs /\
    forall f, wP w' f -> nval f r = if bval f c then nval f ys else nval f xs).
Proof.
  induction xs as [|x xs IH]; intros [|y ys] w c El O Hc Hx Hy; try discriminate; cbn [multiplex_n].
  - done. repeat split; auto. intros f _. destruct (bval f c); auto.
  - injection El as El. inversion Hx; subst. inversion Hy; subst.
    step; [apply (spec_mux3 K L); auto|]. intros b w1 L1 O1 [A1 A2]. cbv beta.
    assert (V : wv w <= wv w1) by apply L1.
    step; [apply (IH ys); auto; (eapply below_mono || eapply belows_mono); eauto|]. intros bs w2 L2 O2 (B1 & B2 & B3). cbv beta. done.
    split; [constructor; [eapply below_mono; [apply L2|auto]|auto]|]. split; [cbn; lia|].
    intros f Hf. cbn [nval]. rewrite (B3 f Hf), (A2 f (proj2 L2 f Hf)). destruct (bval f c); auto.
Qed.
Lemma stage_spec w ps1 ps2 u1 u2 : okw w -> unit_of w ps1 u1 -> unit_of w ps2 u2 ->
  spec (stage K (u1, u2)) w (fun u w' => unit_of w' (ps1 ++ ps2) u).
Proof.
  destruct u1 as [[[s1 t1] g1] p1], u2 as [[[s2 t2] g2] p2]. intros O U1 U2.
  pose proof U1 as (A1 & A2 & A3 & A4 & A5 & A6 & A7). pose proof U2 as (B1 & B2 & B3 & B4 & B5 & B6 & B7).
  unfold stage.
  step; [apply multiplex_n_spec; auto; congruence|]. intros ns w1 L1 O1 (C1 & C2 & C3). cbv beta.
  assert (V1 : wv w <= wv w1) by apply L1.
  step; [apply multiplex_n_spec; auto; try congruence; (eapply below_mono || eapply belows_mono); eauto|].
  intros nt w2 L2 O2 (D1 & D2 & D3). cbv beta. assert (V2 : wv w <= wv w2) by (destruct L2; lia).
  assert (AC : forall c w0, okw w0 -> wv w <= wv w0 -> below (wv w) c ->
    spec (bindM K (or2 K g2 p2) (fun a => bindM K (or2 K g2 c) (fun b => and2 K a b))) w0
      (fun r w' => below (wv w') r /\ forall f, wP w' f -> bval f r = (bval f g2 || bval f p2) && (bval f g2 || bval f c))).
  { intros c w0 O0 V0 Hc. step; [apply (spec_or2 K L); auto; eapply below_mono; eauto|].
    intros a wa La Oa [E1 E2]. cbv beta. assert (Va : wv w <= wv wa) by (destruct La; lia).
    step; [apply (spec_or2 K L); auto; eapply below_mono; eauto|].
    intros b wb Lb Ob [F1 F2]. cbv beta.
    eapply spec_mono; [auto|apply (spec_and2 K L); auto; eapply below_mono; [apply Lb|auto]|].
    intros r wr Lr Or [G1 G2]. split; auto. intros f Hf. rewrite G2, F2, E2 by (auto; try apply Lb; apply Lr; auto). auto. }
  step; [apply AC; auto|]. intros p w3 L3 O3 [E1 E2]. cbv beta. assert (V3 : wv w <= wv w3) by (destruct L3; lia).
  step; [apply AC; auto|]. intros g w4 L4 O4 [F1 F2]. cbv beta. assert (V4 : wv w <= wv w4) by (destruct L4; lia).
  done. unfold unit_of.
  split; [apply belows_app; [eapply belows_mono; [|exact A1]; lia|eapply belows_mono; [|exact C1]; destruct L2, L3, L4; lia]|].
  split; [apply belows_app; [eapply belows_mono; [|exact A2]; lia|eapply belows_mono; [|exact D1]; destruct L3, L4; lia]|].
  split; auto. split; [eapply below_mono; [apply L4|auto]|]. rewrite !app_length.
  split; [congruence|]. split; [congruence|].
  intros f Hf. assert (H3 : wP w3 f) by (apply L4; auto). assert (H2 : wP w2 f) by (apply L3; auto).
  assert (H1 : wP w1 f) by (apply L2; auto). assert (H0 : wP w f) by (apply L1; auto).
  destruct (A7 f H0) as [Q1 Q2], (B7 f H0) as [Q3 Q4]. rewrite !map_app, !nval_app, (F2 f Hf), (E2 f H3), (C3 f H1), (D3 f H2).
  rewrite !map_length, A5, A6, !Nat2Z.inj_add, !Z.pow_add_r by lia.
  pose proof (nval_range f s2) as N1. pose proof (nval_range f t2) as N2. rewrite B5 in N1. rewrite B6 in N2.
  set (m1 := 2 ^ Z.of_nat (length ps1)) in *. set (m2 := 2 ^ Z.of_nat (length ps2)) in *.
  assert (Imp : bval f g2 = true -> bval f p2 = true).
  { intros Hg. rewrite Hg in Q3. destruct (bval f p2); auto. cbn in Q3, Q4. lia. }
  destruct (bval f g2) eqn:Eg; [rewrite Imp in * by auto|]; destruct (bval f g1), (bval f p1); cbn [orb andb b2z] in *;
    try (destruct (bval f p2)); cbn [orb andb b2z] in *; split; nia.
Qed.
Lemma apply_stages_spec : forall stages us pss w, okw w -> us <> [] -> (length us <= stages)%nat ->
  Forall2 (unit_of w) pss us ->
  spec (apply_stages K stages us) w (fun u w' => unit_of w' (concat pss) u).
Proof.
  induction stages as [|stages IH]; intros us pss w O Hne Hl F.
  - destruct us; [congruence|simpl in Hl; lia].
  - destruct us as [|u1 [|u2 t]]; [congruence| |].
    + inversion F as [|ps ? ? ? H F']; subst. inversion F'; subst. cbn [apply_stages]. done. simpl. rewrite app_nil_r. auto.
    + cbn [apply_stages]. set (us := u1 :: u2 :: t) in *. pose proof (listby2_spec us) as P.
      assert (G : fst (listby2 us) <> []) by (unfold us; cbn [listby2]; destruct (listby2 t); discriminate).
      destruct (listby2 us) as [gs rest]. destruct P as [E Lr]. cbn [fst] in G. clearbody us.
      (* the corresponding grouping of the blocks *)
      assert (X : forall gs pss, Forall2 (unit_of w) pss (flat_map (fun t => [fst t; snd t]) gs ++ rest) ->
        exists gp rp, Forall2 (fun p g => unit_of w (fst p) (fst g) /\ unit_of w (snd p) (snd g)) gp gs /\
          Forall2 (unit_of w) rp rest /\ concat pss = concat (map (fun p => fst p ++ snd p) gp) ++ concat rp).
      { clear. induction gs as [|[a b] gs IH]; cbn [flat_map app fst snd]; intros pss F.
        - exists [], pss. repeat split; auto.
        - inversion F as [|p1 ? pss1 ? H1 F1]; subst. inversion F1 as [|p2 ? pss2 ? H2 F2]; subst.
          destruct (IH pss2 F2) as (gp & rp & R1 & R2 & R3). exists ((p1, p2) :: gp), rp.
          split; [constructor; auto|]. split; auto. cbn [concat map fst snd]. rewrite R3, !app_assoc. auto. }
      rewrite E in F. destruct (X gs pss F) as (gp & rp & R1 & R2 & R3). clear X F.
      set (R := fun (w : world) (t : (carry_unit * carry_unit) * (list (bit * bit) * list (bit * bit))) (u : carry_unit) => unit_of w (fst (snd t) ++ snd (snd t)) u).
      (* mapM over groups, with their blocks *)
      assert (SM : forall gs gp w0, okw w0 -> le w w0 ->
        Forall2 (fun p g => unit_of w (fst p) (fst g) /\ unit_of w (snd p) (snd g)) gp gs ->
        spec (mapM K (stage K) gs) w0 (fun us w' => Forall2 (unit_of w') (map (fun p => fst p ++ snd p) gp) us)).
      { clear -O. intros gs. induction gs as [|[a b] gs IH]; intros gp w0 O0 L0 F; cbn [mapM].
        - inversion F; subst. done. constructor.
        - inversion F as [|[q1 q2] ? gp' ? [H1 H2] F']; subst. cbn [fst snd] in *.
          step; [apply (stage_spec w0 q1 q2); auto; eapply unit_of_mono; eauto|].
          intros u w1 L1 O1 U. cbv beta. step; [apply (IH gp'); auto; eapply le_trans; eauto|].
          intros us w2 L2 O2 U2. cbv beta. done. cbn [map fst snd]. constructor; auto. eapply unit_of_mono; eauto. }
      step; [apply (SM gs gp); auto; apply le_refl|]. intros wss w1 L1 O1 U. cbv beta.
      rewrite R3, <- concat_app. apply IH; auto.
      * intros H. apply app_eq_nil in H as [-> ->]. inversion U as [E0|]. destruct gp; [|discriminate]. inversion R1; subst. congruence.
      * assert (length wss = length gs).
        { rewrite <- (f2_length _ _ _ U), map_length. apply (f2_length _ _ _ R1). }
        assert (length us = (2 * length gs + length rest)%nat).
        { rewrite E, app_length. f_equal. clear. induction gs as [|[a b] gs IH]; simpl; auto. rewrite IH. lia. }
        rewrite app_length. assert (0 < length gs)%nat by (destruct gs; [congruence|simpl; lia]). lia.
      * apply Forall2_app; auto. clear -R2 L1. induction R2; constructor; auto. eapply unit_of_mono; eauto.
Qed.
Lemma fast_adder_ok : adder_ok (fast_adder K).
Proof.
  intros w xs ys O Hx Hy Hl. unfold fast_adder. set (ps := zipPad xs ys).
  assert (Hp : length ps = max (length xs) (length ys)) by apply zipPad_length.
  step.
  - apply (spec_mapM _ _ _ (fun w ab u => unit_of w [ab] u) w).
    + intros w1 w2 a b _ L2. apply unit_of_mono; auto.
    + apply le_refl.
    + auto.
    + intros [a b] w' Hab Lw O'. unfold ps, zipPad in Hab. apply in_map_iff in Hab as (i & E & _). injection E as <- <-.
      apply fast_adder_unit_spec; auto; cbn [fst snd]; (eapply below_mono; [apply Lw|]); apply bit_at_below; auto.
  - intros us w1 L1 O1 F. cbv beta.
    assert (Hu : length us = length ps) by (symmetry; apply (f2_length _ _ _ F)).
    step.
    + apply (apply_stages_spec (length us) us (map (fun p => [p]) ps)); auto.
      * intros ->. cbn in Hu. lia.
      * clear -F. induction F; constructor; auto.
    + intros [[[s t] g] p] w2 L2 O2 U. cbv beta. done. rewrite <- flat_map_concat_map in U.
      assert (E : flat_map (fun p => [p]) ps = ps) by (clear; induction ps as [|a l IH]; simpl; auto; rewrite IH; auto).
      rewrite E in U. destruct U as (A1 & A2 & A3 & A4 & A5 & A6 & A7).
      split; [apply belows_app; [auto|constructor; auto]|]. split; [rewrite app_length; cbn; lia|].
      intros f Hf. destruct (A7 f Hf) as [Q _]. rewrite nval_app, A5. cbn [nval].
      unfold ps in Q at 2 3. rewrite zipPad_fst, zipPad_snd, !nval_padded in Q by lia. lia.
Qed.
Lemma adder_of_ok a : adder_ok (adder_of K a).
Proof. destruct a; [apply n_adder_ok|apply fast_adder_ok]. Qed.
End Circuits.
