(* PLo.v -- lemmas about l.o. state and Set.to_lo_condition. *)
From Coq Require Import String Ascii ZArith List Bool Lia Permutation Sorted.
From Verif Require Import Spec PyBase MSet MText MQueue MDb MSolver SpecRun PLib PClause PRename.
Import ListNotations.
Open Scope Z_scope.

(* ================= the state test ================= *)
Lemma cond3_spec vars : forall mv seen,
  In mv seen -> (forall u, In u seen -> u <= mv) ->
  (cond3 mv seen vars = true <->
   forall p v q, vars = p ++ v :: q -> ~ In v (seen ++ p) -> forall u, In u (seen ++ p) -> u < v).
Proof.
  induction vars as [|v t IH]; simpl; intros mv seen Hm Hs.
  - split; [intros _ p v q E; destruct p; discriminate | auto].
  - destruct (zmem_spec v seen) as [Hv|Hv]; simpl; rewrite ?andb_false_r, ?andb_true_r.
    + rewrite (IH mv seen Hm Hs). split; intros H p w q E Hn u Hu.
      * destruct p as [|x p]; simpl in E; inv E.
        -- exfalso; apply Hn; rewrite app_nil_r; auto.
        -- apply (H p w q); auto.
           ++ intros Hi; apply Hn. rewrite in_app_iff in *; simpl; tauto.
           ++ rewrite in_app_iff in *; simpl in Hu. destruct Hu as [?|[->|?]]; auto.
      * apply (H (v :: p) w q); simpl; [f_equal; auto| |].
        -- rewrite in_app_iff in *; simpl. intros [?|[->|?]]; tauto.
        -- rewrite in_app_iff in *; simpl; tauto.
    + destruct (Z.ltb_spec v mv).
      * split; [discriminate|]. intros H0. exfalso.
        assert (mv < v); [|lia]. apply (H0 [] v t); rewrite ?app_nil_r; auto.
      * assert (v <> mv) by congruence.
        rewrite (IH v (v :: seen)); simpl; auto.
        -- split; intros H1 p w q E Hn u Hu.
           ++ destruct p as [|x p]; simpl in E; inv E.
              ** rewrite app_nil_r in Hu. specialize (Hs u Hu). lia.
              ** apply (H1 p w q); auto.
                 --- intros Hi; apply Hn. rewrite in_app_iff in *; simpl. tauto.
                 --- rewrite in_app_iff in *; simpl in *. tauto.
           ++ apply (H1 (v :: p) w q); simpl; [f_equal; auto| |].
              ** rewrite in_app_iff in *; simpl. tauto.
              ** rewrite in_app_iff in *; simpl. tauto.
        -- intros u [->|Hu]; [lia|]. specialize (Hs u Hu); lia.
Qed.


Lemma cond2_spec cs : forall mv, nonempty_clauses (map raw cs) ->
  exists b, cond2 mv cs = Ok b /\
            (b = true <-> StronglySorted Z.le (mv :: map leading (map raw cs))).
Proof.
  induction cs as [|c t IH]; simpl; intros mv Hn.
  - exists true; split; auto. split; auto. intros _; repeat constructor.
  - destruct (raw c) as [|x r] eqn:E; [exfalso; apply (Hn []); simpl; auto|].
    destruct (Z.ltb_spec (Z.abs x) mv).
    + exists false; split; auto. split; [discriminate|].
      intros HS; inv HS. inv H3. simpl in H4. lia.
    + destruct (IH (Z.abs x)) as (b & E1 & E2).
      { intros c0 Hc; apply Hn; simpl; auto. }
      exists b; split; auto. rewrite E2. simpl. split; intros HS.
      * constructor; auto. inv HS. constructor; auto.
        rewrite Forall_forall in *. intros y Hy. specialize (H3 y Hy). lia.
      * inv HS; auto.
Qed.

Lemma occurrences_head F : F <> [] -> nonempty_clauses F ->
  exists x r t, F = (x :: r) :: t /\ occurrences F = Z.abs x :: cvars r ++ fvars t.
Proof.
  intros Hne Hn. destruct F as [|c t]; [contradiction|].
  destruct c as [|x r]; [exfalso; apply (Hn []); simpl; auto|].
  exists x, r, t; auto.
Qed.

Lemma is_in_lo_state_spec m s :
  clauses s <> [] -> nonempty_clauses (raws s) ->
  exists b, is_in_lo_state m s = Ok b /\
    (b = true <->
     (m = MODE_NORMAL \/
      (starts_low (raws s) /\ new_vars_ascend (raws s) /\
       (m <> MODE_LOU -> leading_ascend (raws s))))).
Proof.
  intros Hne Hn.
  destruct (occurrences_head (raws s)) as (x & r & t & EF & EO); auto.
  { unfold raws. intros E; apply map_eq_nil in E; auto. }
  unfold is_in_lo_state. destruct (clauses s) as [|c ct] eqn:Ec; [contradiction|].
  assert (Er : raw c = x :: r) by (unfold raws in EF; rewrite Ec in EF; simpl in EF; congruence).
  assert (H5 : starts_low (raws s) <-> Z.abs x <= 1).
  { unfold starts_low. rewrite EO. split; [intros H; eapply H; eauto | intros H v q E; inv E; auto]. }
  assert (H3 : new_vars_ascend (raws s) <->
               cond3 (Z.abs x) [Z.abs x] (map Z.abs (concat (raws s))) = true).
  { rewrite concat_map_abs. rewrite cond3_spec; simpl; [|auto|intros u [->|[]]; lia].
    unfold new_vars_ascend. split; intros H p v q E Hv u Hu.
    - destruct p as [|y p].
      + fold (occurrences (raws s)) in E. rewrite EO in E. simpl in E. inv E. exfalso; auto.
      + fold (occurrences (raws s)) in E. rewrite EO in E. simpl in E. inv E.
        apply (H (Z.abs x :: p) v q).
        * rewrite EO; simpl; f_equal; auto.
        * simpl in *; tauto.
        * simpl in *; tauto.
    - apply (H p v q); auto.
      rewrite EO in E. destruct p; simpl in E; inv E; [destruct Hu|].
      simpl in *. tauto. }
  assert (H2 : exists b, cond2 (Z.abs x) (c :: ct) = Ok b /\
                 (b = true <-> leading_ascend (raws s))).
  { destruct (cond2_spec (c :: ct) (Z.abs x)) as (b & E1 & E2).
    - rewrite <- Ec. exact Hn.
    - exists b; split; auto. rewrite E2. unfold leading_ascend.
      replace (map raw (c :: ct)) with (raws s) by (unfold raws; rewrite Ec; auto).
      split; intros H; [inv H; auto|]. rewrite EF in H |- *. simpl in *. constructor; auto.
      inv H. constructor; auto. lia. }
  destruct H2 as (b2 & E2 & H2). rewrite Er. unfold MIN_LITERAL.
  destruct (mode_eqb m MODE_NORMAL) eqn:EN.
  - destruct m; try discriminate. exists true; tauto.
  - assert (Hm : m <> MODE_NORMAL) by (destruct m; congruence || discriminate).
    assert (HR : exists b,
     (if 1 <? Z.abs x then Ok false
      else if negb (cond3 (Z.abs x) [Z.abs x] (map Z.abs (concat (raws s)))) then Ok false
      else match m with MODE_LOU => Ok true | _ => cond2 (Z.abs x) (c :: ct) end) = Ok b /\
     (b = true <-> m = MODE_NORMAL \/ starts_low (raws s) /\ new_vars_ascend (raws s) /\
        (m <> MODE_LOU -> leading_ascend (raws s)))).
    { destruct (Z.ltb_spec 1 (Z.abs x)).
      - exists false; split; auto. split; [discriminate|]. intros [?|(A & _)]; [contradiction|].
        apply H5 in A; lia.
      - destruct (cond3 _ _ _) eqn:E3; simpl.
        + destruct (mode_eqb m MODE_LOU) eqn:EL.
          * destruct m; try discriminate. exists true; split; auto. split; auto. intros _.
            right. split; [apply H5; lia|]. split; [apply H3; auto | congruence].
          * assert (Hl : m <> MODE_LOU) by (destruct m; congruence || discriminate).
            exists b2. split; [destruct m; try congruence; auto|].
            rewrite H2. split.
            -- intros HL. right. split; [apply H5; lia|]. split; [apply H3; auto | auto].
            -- intros [?|(_ & _ & A)]; [contradiction|auto].
        + exists false; split; auto. split; [discriminate|]. intros [?|(_ & A & _)]; [contradiction|].
          apply H3 in A; discriminate. }
    destruct HR as (b & E & HR). exists b; split; auto.
    rewrite <- E. destruct m; auto; contradiction.
Qed.

(* ================= renaming establishes conditions 3 and 5 ================= *)
Fixpoint walk (k : Z) (vs : list Z) : option Z :=
  match vs with
  | [] => Some k
  | v :: t => if (1 <=? v) && (v <=? k) then walk k t
              else if v =? k + 1 then walk (k + 1) t else None
  end.
Lemma walk_app a : forall k b,
  walk k (a ++ b) = match walk k a with Some k' => walk k' b | None => None end.
Proof.
  induction a as [|v t IH]; simpl; intros k b; auto.
  destruct ((1 <=? v) && (v <=? k)); auto. destruct (v =? k + 1); auto.
Qed.
Lemma walk_sorted l : forall k k',
  StronglySorted Z.le l -> 0 <= k <= k' -> (forall v, In v l -> 1 <= v <= k') ->
  (forall w, k < w <= k' -> In w l) -> walk k l = Some k'.
Proof.
  induction l as [|v t IH]; simpl; intros k k' Hs Hk Hr Hc.
  - destruct (Z.eq_dec k k'); [congruence|]. exfalso; apply (Hc (k + 1)); lia.
  - inv Hs. rewrite Forall_forall in H2. pose proof (Hr v (or_introl eq_refl)) as Hv.
    destruct (Z.leb_spec 1 v); [|lia]. destruct (Z.leb_spec v k); simpl.
    + apply IH; auto. intros w Hw. destruct (Hc w Hw); auto; lia.
    + assert (v <= k + 1).
      { destruct (Hc (k + 1)) as [->|Hi]; [lia|lia|]. auto. }
      destruct (Z.eqb_spec v (k + 1)); [|lia].
      apply IH; auto; [lia|]. intros w Hw. destruct (Hc w); auto; lia.
Qed.
Lemma walk_ascend vs : forall k k' p v q,
  0 <= k -> walk k vs = Some k' -> vs = p ++ v :: q -> ~ (1 <= v <= k) -> ~ In v p ->
  (forall u, In u p -> u < v) /\ k < v.
Proof.
  induction vs as [|x t IH]; intros k k' p v q Hk Hw E Hv Hp; [destruct p; discriminate|].
  simpl in Hw. destruct p as [|u p]; simpl in E; inv E.
  - split; [simpl; tauto|].
    destruct (Z.leb_spec 1 v), (Z.leb_spec v k); simpl in Hw; try lia.
    all: destruct (Z.eqb_spec v (k + 1)); [lia | discriminate].
  - destruct ((1 <=? u) && (u <=? k)) eqn:Eb.
    + apply andb_true_iff in Eb as [B1 B2]. apply Z.leb_le in B1, B2.
      destruct (IH k k' p v q) as [I1 I2]; auto; [simpl in Hp; tauto|].
      split; auto. intros w [->|Hw']; auto. lia.
    + destruct (Z.eqb_spec u (k + 1)) as [->|]; [|discriminate].
      destruct (IH (k + 1) k' p v q) as [I1 I2]; auto; [lia| |simpl in Hp; tauto|].
      * intros H. apply Hp. simpl. left. lia.
      * split; [|lia]. intros w [<-|Hw']; auto.
Qed.

Lemma map_dedup_prefix f a b :
  map f (dedup (a ++ b)) = one_to (List.length (dedup (a ++ b))) ->
  map f (dedup a) = one_to (List.length (dedup a)).
Proof.
  unfold dedup. rewrite dedup_acc_app, map_app, app_length. intros H.
  assert (G : forall (l1 l2 : list Z) n m, l1 ++ l2 = one_to (n + m) -> List.length l1 = n -> l1 = one_to n).
  { clear. intros l1 l2 n m H Hl. unfold one_to in *. rewrite seq_app, map_app in H.
    assert (E : firstn n (l1 ++ l2) = l1).
    { rewrite <- Hl, firstn_app, Nat.sub_diag, firstn_all; simpl; rewrite app_nil_r; auto. }
    rewrite H in E. rewrite <- E. rewrite firstn_app, map_length, seq_length, Nat.sub_diag; simpl.
    rewrite app_nil_r. rewrite firstn_all2; auto. rewrite map_length, seq_length; auto. }
  eapply G; eauto. rewrite map_length; auto.
Qed.

Lemma rename_walk f F :
  map f (dedup (fvars F)) = one_to (List.length (dedup (fvars F))) ->
  exists k, walk 0 (fvars (map (fun c => sort_abs (map (rename_lit f) c)) F)) = Some k.
Proof.
  intros Hf.
  assert (G : forall post pre, F = pre ++ post ->
     walk (Z.of_nat (List.length (dedup (fvars pre))))
          (fvars (map (fun c => sort_abs (map (rename_lit f) c)) post))
     = Some (Z.of_nat (List.length (dedup (fvars F))))).
  { induction post as [|c post IH]; intros pre E.
    - rewrite app_nil_r in E; subst; reflexivity.
    - assert (Hpre : map f (dedup (fvars pre)) = one_to (List.length (dedup (fvars pre)))).
      { subst F. unfold fvars in *. rewrite map_app, concat_app in Hf.
        eapply map_dedup_prefix; eauto. }
      assert (Hpre' : map f (dedup (fvars (pre ++ [c]))) = one_to (List.length (dedup (fvars (pre ++ [c]))))).
      { subst F. replace (pre ++ c :: post) with ((pre ++ [c]) ++ post) in Hf by (rewrite <- app_assoc; auto).
        unfold fvars in Hf at 1 2; rewrite map_app, concat_app in Hf. fold (fvars (pre ++ [c])) in Hf.
        eapply map_dedup_prefix; eauto. }
      destruct (map_dedup_inj _ _ _ Hpre') as [Hinj' Hrng'].
      destruct (map_dedup_inj _ _ _ Hpre) as [Hinj Hrng].
      assert (Hsub : forall v, In v (cvars c) -> In v (fvars (pre ++ [c]))).
      { intros v Hv. apply in_fvars. exists c; split; auto. apply in_app_iff; simpl; auto. }
      assert (Hcv : cvars (map (rename_lit f) c) = map f (cvars c)).
      { apply cvars_map_rename. intros v Hv. apply Hsub, Hrng' in Hv. lia. }
      unfold fvars; simpl. rewrite walk_app.
      fold (fvars (map (fun c => sort_abs (map (rename_lit f) c)) post)).
      rewrite (walk_sorted _ _ (Z.of_nat (List.length (dedup (fvars (pre ++ [c])))))).
      + apply IH. rewrite <- app_assoc; auto.
      + apply sort_abs_sorted.
      + split; [lia|]. unfold fvars. rewrite map_app, concat_app. unfold dedup.
        rewrite dedup_acc_app, app_length. lia.
      + intros v Hv. apply (Permutation_in _ (cvars_Perm _ _ (sort_abs_Perm _))) in Hv.
        rewrite Hcv in Hv. apply in_map_iff in Hv as (u & <- & Hu). apply Hrng', Hsub; auto.
      + intros w Hw.
        apply (Permutation_in _ (Permutation_sym (cvars_Perm _ _ (sort_abs_Perm _)))).
        rewrite Hcv. assert (Hw1 : In w (one_to (List.length (dedup (fvars (pre ++ [c]))))))
          by (apply one_to_In; lia).
        rewrite <- Hpre' in Hw1. apply in_map_iff in Hw1 as (u & <- & Hu).
        apply (proj1 (dedup_In _ _)) in Hu. unfold fvars in Hu. rewrite map_app, concat_app in Hu.
        apply in_app_iff in Hu as [Hu|Hu].
        * exfalso. assert (In u (fvars pre)) as Hu' by auto. apply Hrng in Hu'. fold (fvars pre) in Hw. lia.
        * simpl in Hu. rewrite app_nil_r in Hu. apply in_map; auto. }
  eexists. apply (G F []). reflexivity.
Qed.

Lemma walk_head k v t k' : walk k (v :: t) = Some k' -> v <= k + 1.
Proof.
  simpl. destruct (Z.leb_spec 1 v), (Z.leb_spec v k); simpl; intros E; try lia;
    destruct (Z.eqb_spec v (k + 1)); try lia; discriminate.
Qed.
Lemma renamed_conditions f s s' : renamed f s s' ->
  starts_low (raws s') /\ new_vars_ascend (raws s').
Proof.
  intros R. destruct (rename_walk f (raws s) (rn_image _ _ _ R)) as [k Hw].
  rewrite <- (rn_raws R) in Hw. split.
  - intros v q E. unfold occurrences in E. rewrite E in Hw. apply walk_head in Hw. lia.
  - intros p v q E Hv u Hu.
    destruct (walk_ascend _ 0 k p v q (Z.le_refl 0) Hw E ltac:(lia) Hv) as [H _]; auto.
Qed.

(* ================= codes: a measure on clause sequences ================= *)
Fixpoint seq_lt (F G : list (list Z)) : Prop :=
  match F, G with
  | a :: F', b :: G' => raw_lt a b = true \/ (a = b /\ seq_lt F' G')
  | _, _ => False
  end.
Lemma seq_lt_trans F : forall G H, seq_lt F G -> seq_lt G H -> seq_lt F H.
Proof.
  induction F as [|a F IH]; intros [|b G] [|c H]; simpl; try tauto.
  intros [A|[-> A]] [B|[-> B]]; eauto using raw_lt_trans.
Qed.
Definition seq_le F G := F = G \/ seq_lt F G.
Lemma seq_le_trans F G H : seq_le F G -> seq_le G H -> seq_le F H.
Proof. intros [->|A] [->|B]; unfold seq_le; eauto using seq_lt_trans. Qed.
Lemma seq_le_lt F G H : seq_le F G -> seq_lt G H -> seq_lt F H.
Proof. intros [->|A] B; eauto using seq_lt_trans. Qed.

Lemma insert_seq x l :
  seq_le (map raw (insert_by clause_lt x l)) (raw x :: map raw l).
Proof.
  destruct l as [|y t]; simpl; [left; auto|].
  destruct (clause_lt y x) eqn:E; simpl; [right; left; exact E | left; auto].
Qed.
Lemma sort_seq cs : seq_le (map raw (sort_by clause_lt cs)) (map raw cs).
Proof.
  induction cs as [|x t IH]; simpl; [left; auto|].
  eapply seq_le_trans; [apply insert_seq|].
  destruct IH as [->|IH]; [left; auto | right; right; auto].
Qed.

Lemma raw_le_leading a b : a <> [] -> b <> [] -> raw_lt b a = false -> leading a <= leading b.
Proof.
  destruct a as [|x a], b as [|y b]; simpl; try congruence. intros _ _ H.
  destruct (Z.eqb_spec y x); [subst; lia|]. destruct (Z.eqb_spec (Z.abs y) (Z.abs x)); [lia|].
  apply Z.leb_gt in H. lia.
Qed.
Lemma sorted_leading cs : nonempty_clauses (map raw cs) ->
  leading_ascend (map raw (sort_by clause_lt cs)).
Proof.
  intros Hn. unfold leading_ascend. rewrite map_map.
  assert (Hs := sort_by_sorted clause_lt clause_lt_asym clause_le_trans cs).
  assert (Hn' : forall c, In c (sort_by clause_lt cs) -> raw c <> []).
  { intros c Hc. apply Hn, in_map. apply (Permutation_in _ (sort_by_Perm _ _)) in Hc; auto. }
  revert Hs Hn'. generalize (sort_by clause_lt cs).
  induction 1 as [|c t Hs IH Hc]; intros Hne; simpl; constructor.
  - apply IH. intros; apply Hne; simpl; auto.
  - rewrite Forall_map. rewrite Forall_forall in *. intros d Hd.
    apply raw_le_leading; [apply Hne; simpl; auto | apply Hne; simpl; auto | apply Hc; auto].
Qed.

(* the code of a clause and of a sequence of clauses *)
Definition lcode (l : Z) : Z := 2 * Z.abs l + (if l <? 0 then 1 else 0).
Fixpoint ccode (B : Z) (L : nat) (c : list Z) : Z :=
  match L, c with
  | S L', x :: t => lcode x * B ^ Z.of_nat L' + ccode B L' t
  | _, _ => 0
  end.
Fixpoint scode (W : Z) (ds : list Z) : Z :=
  match ds with [] => 0 | d :: t => d * W ^ Z.of_nat (List.length t) + scode W t end.

Definition lits_below (n : Z) (c : list Z) : Prop := forall x, In x c -> 1 <= Z.abs x <= n.

Lemma lcode_bound n x : 1 <= Z.abs x <= n -> 1 <= lcode x < 2 * n + 2.
Proof. unfold lcode; destruct (x <? 0); lia. Qed.
Lemma lcode_lt x y : lit_lt x y -> lcode x < lcode y.
Proof.
  unfold lit_lt, lcode. destruct (Z.ltb_spec x 0), (Z.ltb_spec y 0); lia.
Qed.
Lemma dig_bound d B W r : 0 <= d < B -> 0 <= r < W -> 0 <= d * W + r < B * W.
Proof. intros Hd Hr. assert ((d + 1) * W <= B * W) by (apply Z.mul_le_mono_nonneg_r; lia). nia. Qed.
Lemma dig_lt d e W r q : d < e -> 0 <= r < W -> 0 <= q -> d * W + r < e * W + q.
Proof. intros Hd Hr Hq. assert ((d + 1) * W <= e * W) by (apply Z.mul_le_mono_nonneg_r; lia). lia. Qed.
Lemma ccode_bound n L : forall c, 0 <= n -> lits_below n c -> 0 <= ccode (2 * n + 2) L c < (2 * n + 2) ^ Z.of_nat L.
Proof.
  induction L as [|L IH]; intros c Hn Hc; cbn [ccode].
  - destruct c; simpl; lia.
  - destruct c as [|x t]; [split; [lia | apply Z.pow_pos_nonneg; lia]|].
    assert (Hx := lcode_bound n x (Hc x (or_introl eq_refl))).
    destruct (IH t Hn) as [I1 I2]; [intros y Hy; apply Hc; simpl; auto|].
    rewrite Nat2Z.inj_succ, Z.pow_succ_r by lia.
    apply dig_bound; lia.
Qed.
Lemma ccode_lt n L : forall a b, 0 <= n -> (List.length a <= L)%nat -> (List.length b <= L)%nat ->
  lits_below n a -> lits_below n b -> raw_lt a b = true ->
  ccode (2 * n + 2) L a < ccode (2 * n + 2) L b.
Proof.
  induction L as [|L IH]; intros a b Hn La Lb Ha Hb H.
  - destruct a, b; simpl in *; try lia; discriminate.
  - destruct a as [|x a], b as [|y b]; try discriminate.
    + cbn [ccode]. assert (Hy := lcode_bound n y (Hb y (or_introl eq_refl))).
      destruct (ccode_bound n L b Hn) as [I1 I2]; [intros z Hz; apply Hb; simpl; auto|].
      assert (0 < (2 * n + 2) ^ Z.of_nat L) by (apply Z.pow_pos_nonneg; lia).
      apply (dig_lt 0 (lcode y) _ 0); lia.
    + cbn [ccode]. simpl in La, Lb.
      assert (Ha' : lits_below n a) by (intros z Hz; apply Ha; simpl; auto).
      assert (Hb' : lits_below n b) by (intros z Hz; apply Hb; simpl; auto).
      apply raw_lt_cons in H as [H|[-> H]].
      * apply lcode_lt in H.
        destruct (ccode_bound n L a Hn Ha') as [I1 I2].
        destruct (ccode_bound n L b Hn Hb') as [J1 J2].
        apply dig_lt; lia.
      * apply IH in H; auto; lia.
Qed.
Lemma scode_bound W ds : 0 < W -> (forall d, In d ds -> 0 <= d < W) ->
  0 <= scode W ds < W ^ Z.of_nat (List.length ds).
Proof.
  intros HW. induction ds as [|d t IH]; intros Hd; [simpl; lia|].
  cbn [scode List.length]. rewrite Nat2Z.inj_succ, Z.pow_succ_r by lia.
  destruct IH as [I1 I2]; [intros; apply Hd; simpl; auto|].
  assert (Hdd := Hd d (or_introl eq_refl)).
  apply dig_bound; lia.
Qed.

Definition fcode (n : Z) (L : nat) (F : list (list Z)) : Z :=
  scode ((2 * n + 2) ^ Z.of_nat L) (map (ccode (2 * n + 2) L) F).
Lemma fcode_nonneg n L F : 0 <= n -> (forall c, In c F -> lits_below n c) -> 0 <= fcode n L F.
Proof.
  intros Hn H. apply scode_bound; [apply Z.pow_pos_nonneg; lia|].
  intros d Hd. apply in_map_iff in Hd as (c & <- & Hc). apply ccode_bound; auto.
Qed.
Lemma fcode_lt n L F : forall G, 0 <= n -> List.length F = List.length G ->
  (forall c, In c F -> lits_below n c /\ (List.length c <= L)%nat) ->
  (forall c, In c G -> lits_below n c /\ (List.length c <= L)%nat) ->
  seq_lt F G -> fcode n L F < fcode n L G.
Proof.
  unfold fcode. induction F as [|a F IH]; intros [|b G] Hn Hl HF HG H; try (simpl in H; tauto).
  simpl in Hl. assert (Hl' : List.length F = List.length G) by lia.
  cbn [map scode]. rewrite !map_length, Hl'.
  assert (HF' : forall c, In c F -> lits_below n c /\ (List.length c <= L)%nat) by (intros; apply HF; simpl; auto).
  assert (HG' : forall c, In c G -> lits_below n c /\ (List.length c <= L)%nat) by (intros; apply HG; simpl; auto).
  simpl in H. destruct H as [H|[-> H]].
  - destruct (HF a (or_introl eq_refl)) as [A1 A2]. destruct (HG b (or_introl eq_refl)) as [B1 B2].
    apply (ccode_lt n L a b) in H; auto.
    set (W := (2 * n + 2) ^ Z.of_nat L) in *.
    assert (HW : 0 < W) by (apply Z.pow_pos_nonneg; lia).
    destruct (scode_bound W (map (ccode (2 * n + 2) L) F)) as [I1 I2]; auto.
    { intros d Hd. apply in_map_iff in Hd as (c & <- & Hc). apply ccode_bound; auto. apply HF'; auto. }
    destruct (scode_bound W (map (ccode (2 * n + 2) L) G)) as [J1 J2]; auto.
    { intros d Hd. apply in_map_iff in Hd as (c & <- & Hc). apply ccode_bound; auto. apply HG'; auto. }
    rewrite map_length in I2, J2. rewrite Hl' in I2.
    apply dig_lt; lia.
  - apply IH in H; auto. lia.
Qed.

(* ---- renaming does not increase the code ---- *)
Lemma ascending_bound l : StronglySorted Z.lt l -> (forall v, In v l -> 1 <= v) ->
  forall i v, nth_error l i = Some v -> Z.of_nat i + 1 <= v.
Proof.
  intros Hs Hp. assert (G : forall m, (forall v, In v l -> m < v) ->
    forall i v, nth_error l i = Some v -> m + Z.of_nat i + 1 <= v).
  { clear Hp. induction Hs as [|x t Hs IH Hx]; intros m Hm [|i] v Hi; simpl in Hi; try discriminate.
    - inv Hi. specialize (Hm v (or_introl eq_refl)). lia.
    - rewrite Forall_forall in Hx. specialize (IH x Hx i v Hi).
      specialize (Hm x (or_introl eq_refl)). lia. }
  intros i v Hi. assert (H0 : forall w, In w l -> 0 < w) by (intros w Hw; specialize (Hp w Hw); lia).
  specialize (G 0 H0 i v Hi). lia.
Qed.

Lemma SS_snoc l (v : Z) : StronglySorted Z.lt l -> (forall u, In u l -> u < v) ->
  StronglySorted Z.lt (l ++ [v]).
Proof.
  intros Hs Hv. apply SS_app. repeat split; auto; [repeat constructor|].
  intros x y Hx [<-|[]]; auto.
Qed.

(* keys stay ascending through a sorted clause *)
Lemma rename_keys_ascending c : forall keys,
  StronglySorted Z.lt keys -> StronglySorted Z.le c ->
  (forall v, In v c -> In v keys \/ forall u, In u keys -> u < v) ->
  StronglySorted Z.lt (keys ++ dedup_acc keys c).
Proof.
  induction c as [|v t IH]; simpl; intros keys Hk Hs Hv.
  - rewrite app_nil_r; auto.
  - inv Hs. destruct (zmem_spec v keys) as [Hz|Hz].
    + apply IH; auto.
    + assert (Hgt : forall u, In u keys -> u < v) by (destruct (Hv v); auto; contradiction).
      replace (keys ++ v :: dedup_acc (v :: keys) t)
        with ((keys ++ [v]) ++ dedup_acc (keys ++ [v]) t).
      * apply IH; auto; [apply SS_snoc; auto|]. intros w Hw.
        rewrite Forall_forall in H2. specialize (H2 w Hw).
        destruct (Z.eq_dec w v) as [->|Hne]; [left; apply in_app_iff; simpl; auto|].
        right. intros u Hu. apply in_app_iff in Hu as [Hu|[<-|[]]]; [specialize (Hgt u Hu)|]; lia.
      * rewrite <- app_assoc; simpl. f_equal. f_equal. apply dedup_acc_ext.
        intros y; rewrite in_app_iff; simpl; tauto.
Qed.

Lemma pointwise_le_raw f c :
  (forall v, In v (cvars c) -> 1 <= f v <= v) ->
  map (rename_lit f) c = c \/ raw_lt (map (rename_lit f) c) c = true.
Proof.
  induction c as [|x t IH]; intros H; [left; auto|].
  assert (Hx : 1 <= f (Z.abs x) <= Z.abs x) by (apply H; simpl; auto).
  assert (Ht : forall v, In v (cvars t) -> 1 <= f v <= v) by (intros; apply H; simpl; auto).
  cbn [map]. destruct (Z.eq_dec (f (Z.abs x)) (Z.abs x)) as [E|E].
  - assert (Ex : rename_lit f x = x).
    { unfold rename_lit. destruct (Z.ltb_spec x 0).
      - replace (- x) with (Z.abs x) by lia. lia.
      - replace (f x) with (f (Z.abs x)) by (f_equal; lia). lia. }
    rewrite Ex. destruct (IH Ht) as [->|IH']; [left; auto|].
    right. apply raw_lt_cons; auto.
  - right. apply raw_lt_cons. left. left. rewrite rename_lit_abs. lia.
Qed.

Lemma seq_lt_head a b F G : raw_lt a b = true -> seq_lt (a :: F) (b :: G).
Proof. simpl; auto. Qed.

(* keys ascending: values grow with keys and never exceed them *)
Lemma rho_mono nm id : nm_ok nm id -> StronglySorted Z.lt (dkeys nm) ->
  forall u v, In u (dkeys nm) -> In v (dkeys nm) -> u <= v -> rho nm u <= rho nm v.
Proof.
  intros Hok Hs u v Hu Hv Huv.
  pose proof (rho_nth nm id u Hok Hu) as H1. pose proof (rho_nth nm id v Hok Hv) as H2.
  pose proof (rho_range nm id u Hok Hu). pose proof (rho_range nm id v Hok Hv).
  destruct (Z.le_gt_cases (rho nm u) (rho nm v)) as [|Hgt]; auto. exfalso.
  assert (G : forall l, StronglySorted Z.lt l -> forall i j (a b : Z), (i < j)%nat ->
     nth_error l i = Some a -> nth_error l j = Some b -> a < b).
  { clear. induction 1 as [|x t Hs IH Hx]; intros [|i] [|j] a b Hij Ha Hb; simpl in *; try lia; try discriminate.
    - inv Ha. rewrite Forall_forall in Hx. apply Hx. eapply nth_error_In; eauto.
    - eapply (IH i j); eauto; lia. }
  assert (v < u); [|lia].
  eapply (G (dkeys nm) Hs (Z.to_nat (rho nm v - 1)) (Z.to_nat (rho nm u - 1))); eauto. lia.
Qed.
Lemma rho_below nm id : nm_ok nm id -> StronglySorted Z.lt (dkeys nm) ->
  (forall v, In v (dkeys nm) -> 1 <= v) ->
  forall v, In v (dkeys nm) -> 1 <= rho nm v <= v.
Proof.
  intros Hok Hs Hp v Hv. pose proof (rho_range nm id v Hok Hv).
  split; [lia|]. pose proof (ascending_bound _ Hs Hp _ _ (rho_nth nm id v Hok Hv)). lia.
Qed.

Lemma sorted_map_rename f c : sorted_clause c ->
  (forall u v, In u (cvars c) -> In v (cvars c) -> u <= v -> f u <= f v) ->
  (forall v, In v (cvars c) -> 0 <= f v) ->
  sorted_clause (map (rename_lit f) c).
Proof.
  unfold sorted_clause. intros Hs Hm Hp. rewrite cvars_map_rename by auto.
  clear Hp. induction Hs as [|x t Hs IH Hx]; simpl; constructor.
  - apply IH. intros; apply Hm; simpl; auto.
  - rewrite Forall_map. rewrite Forall_forall in *. intros y Hy. apply Hm; simpl; auto.
Qed.

(* one clause: from an identity names map on 1..k *)
Lemma rename_clause_decreases c nm id l' nm' id' k :
  nm_ok nm id -> dkeys nm = one_to k -> sorted_clause c -> (forall v, In v (cvars c) -> 1 <= v) ->
  rename_raw c nm id = (l', nm', id') ->
  (forall v, In v (cvars c) -> In v (dkeys nm')) /\
  sorted_clause l' /\
  ((l' = c /\ exists k', dkeys nm' = one_to k') \/ raw_lt l' c = true).
Proof.
  intros Hok Hk Hs Hp E.
  destruct (rename_raw_spec _ _ _ _ _ _ Hok E) as (Hok' & (ext & Eext) & Hk' & El).
  assert (Hin : forall v, In v (cvars c) -> In v (dkeys nm')).
  { intros v Hv. rewrite Hk', in_app_iff, dedup_acc_In.
    destruct (in_dec Z.eq_dec v (dkeys nm)); auto. }
  assert (Hasc : StronglySorted Z.lt (dkeys nm')).
  { rewrite Hk'. apply rename_keys_ascending; auto.
    - rewrite Hk. unfold one_to. clear. generalize 1%nat. induction k as [|k IH]; simpl; intros b; constructor; auto.
      apply Forall_forall. intros x Hx. apply in_map_iff in Hx as (y & <- & Hy).
      apply in_seq in Hy. lia.
    - intros v Hv. rewrite Hk. specialize (Hp v Hv).
      destruct (Z.le_gt_cases v (Z.of_nat k)).
      + left. apply one_to_In; lia.
      + right. intros u Hu. apply one_to_In in Hu. lia. }
  assert (Hpos : forall v, In v (dkeys nm') -> 1 <= v).
  { intros v Hv. rewrite Hk', in_app_iff in Hv. destruct Hv as [Hv|Hv].
    - rewrite Hk in Hv. apply one_to_In in Hv; lia.
    - apply dedup_acc_In in Hv as [Hv _]; auto. }
  assert (Hb := rho_below nm' id' Hok' Hasc Hpos).
  split; [auto|]. split.
  - rewrite El. apply sorted_map_rename; auto.
    + intros u v Hu Hv. eapply rho_mono; eauto.
    + intros v Hv. specialize (Hb v (Hin v Hv)). lia.
  - destruct (pointwise_le_raw (rho nm') c) as [Eq|Hlt].
    + intros v Hv; apply Hb; auto.
    + left. rewrite <- El in Eq. split; auto.
      exists (List.length (dkeys nm')). rewrite <- (map_id (dkeys nm')) at 1.
      rewrite dkeys_length. rewrite <- (rho_map_keys nm' id' Hok').
      apply map_ext_in. intros v Hv. symmetry.
      rewrite Hk', in_app_iff in Hv. destruct Hv as [Hv|Hv].
      * rewrite Eext, rho_app by auto.
        pose proof (rho_nth nm id v Hok Hv) as H1. pose proof (rho_range nm id v Hok Hv) as H2.
        rewrite Hk in H1. assert (Hl : List.length nm = k) by (rewrite <- dkeys_length, Hk, one_to_length; auto).
        rewrite one_to_nth in H1 by lia. injection H1 as H1. lia.
      * apply dedup_acc_In in Hv as [Hv _]. apply in_cvars in Hv as (x & Hx & <-).
        assert (Ex : rename_lit (rho nm') x = x).
        { rewrite El in Eq. clear -Eq Hx. induction c as [|y t IH]; simpl in *; [tauto|].
          inversion Eq. destruct Hx as [->|Hx]; auto. }
        pose proof (rename_lit_abs (rho nm') x) as Ha. rewrite Ex in Ha.
        specialize (Hb (Z.abs x) (Hin _ (in_map Z.abs _ _ Hx))). lia.
    + right. rewrite El. auto.
Qed.

Lemma rename_seq cs : forall nm id cs' nm' id' k,
  nm_ok nm id -> dkeys nm = one_to k ->
  (forall c, In c (map raw cs) -> sorted_clause c /\ forall v, In v (cvars c) -> 1 <= v) ->
  rename_clauses cs nm id = (cs', nm', id') ->
  seq_le (map (fun c => sort_abs (raw c)) cs') (map raw cs).
Proof.
  induction cs as [|c t IH]; simpl; intros nm id cs' nm' id' k Hok Hk Hc E.
  - inv E. left; auto.
  - destruct (rename_raw (raw c) nm id) as [[r nm1] id1] eqn:E1.
    destruct (rename_clauses t nm1 id1) as [[t' nm2] id2] eqn:E2. inv E.
    destruct (Hc (raw c)) as [Hs Hp]; auto.
    destruct (rename_clause_decreases _ _ _ _ _ _ _ Hok Hk Hs Hp E1) as (_ & Hsr & [[-> (k' & Hk')]|Hlt]).
    + destruct (rename_raw_spec _ _ _ _ _ _ Hok E1) as (Hok1 & _).
      assert (Hrec : seq_le (map (fun c => sort_abs (raw c)) t') (map raw t)).
      { eapply IH; eauto. }
      simpl. rewrite sort_abs_id by auto.
      destruct Hrec as [->|H]; [left; auto | right; right; auto].
    + simpl. right. left. rewrite sort_abs_id; auto.
Qed.

(* [rename_vars] on a set with sorted clauses over positive variables *)
Lemma rename_vars_seq s s' :
  (forall c, In c (raws s) -> sorted_clause c /\ forall v, In v (cvars c) -> 1 <= v) ->
  rename_vars s = Ok s' -> seq_le (raws s') (raws s).
Proof.
  intros Hc. unfold rename_vars.
  destruct (rename_clauses (clauses s) [] 1) as [[cs nm] id] eqn:E.
  intros H. apply bind_ok in H as (h & Hh & H). apply bind_ok in H as (fnm & Hf & H). inv H.
  unfold raws at 1; simpl. rewrite map_map; simpl.
  eapply (rename_seq _ [] 1 _ _ _ 0%nat); eauto using nm_ok_nil.
Qed.
