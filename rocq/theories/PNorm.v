(* PNorm.v -- Set.to_lo_condition: termination, what it establishes, what it keeps. *)
From Coq Require Import String Ascii ZArith List Bool Lia Permutation Sorted.
From Verif Require Import Spec PyBase MSet MText MQueue MDb MSolver SpecRun PLib PClause PRename PLo.
Import ListNotations.
Open Scope Z_scope.

Definition nvars (F : list (list Z)) : nat := List.length (dedup (fvars F)).

(* clause d is clause c with variables renamed by f and literals reordered *)
Definition csame (f : Z -> Z) (c d : clause) : Prop :=
  Permutation (map (rename_lit f) (raw c)) (raw d) /\ cvalue d = cvalue c /\
  substituted d = substituted c /\ initial_index d = initial_index c.

Record norm (f : Z -> Z) (s s' : cset) : Prop := mkNorm {
  nl_clauses : exists cs, Permutation (clauses s) cs /\ Forall2 (csame f) cs (clauses s');
  nl_inj : injective_on f (fvars (raws s));
  nl_pos : forall v, In v (fvars (raws s)) -> 0 <= f v /\ (0 < v -> 0 < f v);
  nl_names : forall v, In v (fvars (raws s)) -> name_at s' (f v) = name_at s v;
  nl_value : svalue s' = svalue s;
  nl_id : sid s' = sid s;
  nl_hash : computed_hash s' = computed_hash s;
  nl_evaluated : evaluated_vars s' = evaluated_vars s;
  nl_original : original_values s' = original_values s
}.

Lemma fvars_nonneg F v : In v (fvars F) -> 0 <= v.
Proof. intros H. apply in_fvars in H as (c & _ & H). apply in_cvars in H as (l & _ & <-). lia. Qed.

Lemma rename_lit_comp f g l :
  0 <= f (Z.abs l) /\ (0 < Z.abs l -> 0 < f (Z.abs l)) ->
  rename_lit g (rename_lit f l) = rename_lit (fun v => g (f v)) l.
Proof.
  intros [H1 H2]. unfold rename_lit. destruct (Z.ltb_spec l 0).
  - replace (Z.abs l) with (- l) in * by lia. destruct (Z.ltb_spec (- f (- l)) 0); [|lia].
    rewrite Z.opp_involutive; auto.
  - replace (Z.abs l) with l in * by lia. destruct (Z.ltb_spec (f l) 0); [lia|auto].
Qed.
Lemma rename_lit_id l : rename_lit (fun v => v) l = l.
Proof. unfold rename_lit; destruct (l <? 0); lia. Qed.
Lemma map_rename_id l : map (rename_lit (fun v => v)) l = l.
Proof. rewrite <- map_id. apply map_ext. apply rename_lit_id. Qed.

(* variables of the result *)
Lemma csame_cvars f c d : csame f c d ->
  (forall v, In v (cvars (raw c)) -> 0 <= f v) ->
  forall w, In w (cvars (raw d)) <-> exists v, In v (cvars (raw c)) /\ f v = w.
Proof.
  intros (HP & _) Hf w.
  assert (Hc : Permutation (cvars (raw d)) (map f (cvars (raw c)))).
  { rewrite <- (cvars_map_rename f) by auto. apply cvars_Perm, Permutation_sym; auto. }
  split.
  - intros H. apply (Permutation_in _ Hc) in H. apply in_map_iff in H as (v & E & Hv); eauto.
  - intros (v & Hv & <-). apply (Permutation_in _ (Permutation_sym Hc)), in_map; auto.
Qed.

Lemma norm_vars f s s' : norm f s s' ->
  forall w, In w (fvars (raws s')) <-> exists v, In v (fvars (raws s)) /\ f v = w.
Proof.
  intros N w. destruct (nl_clauses _ _ _ N) as (cs & HP & HF).
  assert (Hpos : forall c, In c cs -> forall v, In v (cvars (raw c)) -> 0 <= f v).
  { intros c Hc v Hv. apply (nl_pos _ _ _ N), in_fvars. exists (raw c); split; auto.
    apply in_map. apply (Permutation_in _ (Permutation_sym HP)); auto. }
  assert (Hcs : forall v, In v (fvars (raws s)) <-> In v (fvars (map raw cs))).
  { intros v. assert (Hp := fvars_Perm _ _ (Permutation_map raw HP)).
    split; apply Permutation_in; auto using Permutation_sym. }
  split.
  - intros Hw. apply in_fvars in Hw as (d & Hd & Hw). unfold raws in Hd.
    apply in_map_iff in Hd as (d' & <- & Hd).
    assert (Hex : exists c, In c cs /\ csame f c d').
    { clear -HF Hd. induction HF; simpl in *; [tauto|]. destruct Hd as [->|Hd]; eauto.
      destruct (IHHF Hd) as (c & ? & ?); eauto. }
    destruct Hex as (c & Hc & Hcd). 
    destruct (proj1 (csame_cvars f c d' Hcd (Hpos c Hc) w) Hw) as (v & Hv & E).
    exists v; split; auto. apply Hcs, in_fvars. exists (raw c); split; auto. apply in_map; auto.
  - intros (v & Hv & <-). apply Hcs, in_fvars in Hv as (r & Hr & Hv).
    apply in_map_iff in Hr as (c & <- & Hc).
    assert (Hex : exists d, In d (clauses s') /\ csame f c d).
    { clear -HF Hc. induction HF; simpl in *; [tauto|]. destruct Hc as [->|Hc]; eauto.
      destruct (IHHF Hc) as (d & ? & ?); eauto. }
    destruct Hex as (d & Hd & Hcd). apply in_fvars. exists (raw d); split; [apply in_map; auto|].
    apply (csame_cvars f c d Hcd (Hpos c Hc)); eauto.
Qed.

Lemma Forall2_impl_in {A B} (R S : A -> B -> Prop) l r :
  (forall x y, In x l -> In y r -> R x y -> S x y) -> Forall2 R l r -> Forall2 S l r.
Proof.
  intros H HF. induction HF; constructor.
  - apply H; simpl; auto. - apply IHHF. intros; apply H; simpl; auto.
Qed.
Lemma Forall2_comp {A B C} (R : A -> B -> Prop) (S : B -> C -> Prop) l m r :
  Forall2 R l m -> Forall2 S m r -> Forall2 (fun x z => exists y, In y m /\ R x y /\ S y z) l r.
Proof.
  intros H. revert r. induction H; intros r HS; inv HS; constructor.
  - exists y; simpl; auto.
  - eapply Forall2_impl_in; [|apply IHForall2; eauto].
    intros a b _ _ (z & Hz & H1 & H2). exists z; simpl; auto.
Qed.
Lemma Forall2_flip {A B} (R : A -> B -> Prop) l r :
  Forall2 R l r -> Forall2 (fun y x => R x y) r l.
Proof. induction 1; constructor; auto. Qed.

Lemma norm_trans f g s1 s2 s3 : norm f s1 s2 -> norm g s2 s3 -> norm (fun v => g (f v)) s1 s3.
Proof.
  intros N1 N2.
  assert (Hv2 : forall v, In v (fvars (raws s1)) -> In (f v) (fvars (raws s2))).
  { intros v Hv. apply (norm_vars _ _ _ N1). eauto. }
  constructor.
  - destruct (nl_clauses _ _ _ N1) as (cs1 & P1 & F1).
    destruct (nl_clauses _ _ _ N2) as (cs2 & P2 & F2).
    destruct (Forall2_Permutation_l _ _ _ _ (Forall2_flip _ _ _ F1) P2) as (cs1' & P1' & F1').
    exists cs1'. split; [etransitivity; eauto|].
    apply Forall2_flip in F1'.
    eapply Forall2_impl_in; [|eapply Forall2_comp; [exact F1' | exact F2]].
    intros c e Hc _ (d & _ & (A1 & A2 & A3 & A4) & (B1 & B2 & B3 & B4)).
    split; [|repeat split; congruence].
    rewrite <- B1, <- (Permutation_map (rename_lit g) A1), map_map.
    erewrite map_ext_in; [reflexivity|]. intros l Hl; simpl. symmetry; apply rename_lit_comp.
    apply (nl_pos _ _ _ N1), in_fvars. exists (raw c); split; [|apply in_map; auto].
    apply in_map. apply (Permutation_in _ (Permutation_sym P1)).
    apply (Permutation_in _ (Permutation_sym P1')); auto.
  - intros x y Hx Hy E. apply (nl_inj _ _ _ N1); auto. apply (nl_inj _ _ _ N2); auto.
  - intros v Hv. destruct (nl_pos _ _ _ N1 v Hv) as [A1 A2].
    destruct (nl_pos _ _ _ N2 (f v)) as [B1 B2]; auto.
  - intros v Hv. rewrite (nl_names _ _ _ N2) by auto. apply (nl_names _ _ _ N1); auto.
  - rewrite (nl_value _ _ _ N2); apply N1.
  - rewrite (nl_id _ _ _ N2); apply N1.
  - rewrite (nl_hash _ _ _ N2); apply N1.
  - rewrite (nl_evaluated _ _ _ N2); apply N1.
  - rewrite (nl_original _ _ _ N2); apply N1.
Qed.

(* reordering clauses *)
Lemma norm_perm s cs : Permutation (clauses s) cs -> norm (fun v => v) s (set_clauses s cs).
Proof.
  intros HP. constructor; simpl; auto.
  - exists cs; split; auto. clear. induction cs; constructor; auto.
    split; [rewrite map_rename_id; auto | auto].
  - intros x y _ _; auto.
  - intros v Hv. apply fvars_nonneg in Hv. split; auto.
Qed.
Lemma set_clauses_same s : set_clauses s (clauses s) = s. Proof. destruct s; auto. Qed.
Lemma norm_refl s : norm (fun v => v) s s.
Proof. rewrite <- (set_clauses_same s) at 2. apply norm_perm; auto. Qed.

Lemma renamed_norm f s s' : renamed f s s' -> norm f s s'.
Proof.
  intros R. constructor; try apply R.
  - exists (clauses s); split; auto. rewrite (rn_clauses _ _ _ R).
    induction (clauses s); simpl; constructor; auto.
    split; [apply Permutation_sym, sort_abs_Perm | auto].
  - apply (rn_inj R).
  - intros v Hv. pose proof (rn_range R v Hv). lia.
Qed.

(* ---- states reached after a renaming ---- *)
Record ready (n : nat) (s : cset) : Prop := mkReady {
  rd_ne : clauses s <> [];
  rd_nonempty : nonempty_clauses (raws s);
  rd_sorted : forall c, In c (raws s) -> sorted_clause c;
  rd_vars : forall w, In w (fvars (raws s)) <-> 1 <= w <= Z.of_nat n;
  rd_len : List.length (final_names_map s) = n
}.
Lemma ready_names_ok n s : ready n s -> names_ok s.
Proof. intros R. right. intros v Hv. apply R in Hv. rewrite (rd_len _ _ R). auto. Qed.
Lemma ready_nvars n s : ready n s -> nvars (raws s) = n.
Proof. intros R. unfold nvars. apply dedup_count_range, (rd_vars _ _ R). Qed.

Lemma raws_nil s : raws s = [] <-> clauses s = [].
Proof. unfold raws; split; [apply map_eq_nil | intros ->; auto]. Qed.
Lemma concat_nonempty s : clauses s <> [] -> nonempty_clauses (raws s) -> concat (raws s) <> [].
Proof.
  intros H1 H2 E. unfold raws in *. destruct (clauses s) as [|c t]; [congruence|]. simpl in *.
  apply app_eq_nil in E as [E _]. apply (H2 (raw c)); simpl; auto.
Qed.

Lemma ready_renamed f s s' : clauses s <> [] -> nonempty_clauses (raws s) -> renamed f s s' ->
  ready (nvars (raws s)) s' /\ starts_low (raws s') /\ new_vars_ascend (raws s').
Proof.
  intros H1 H2 R. split; [|eapply renamed_conditions; eauto]. constructor.
  - intros E. rewrite (rn_clauses _ _ _ R) in E. apply map_eq_nil in E; auto.
  - exact (rn_nonempty R H2).
  - exact (rn_sorted R).
  - exact (rn_vars R).
  - apply (rn_length _ _ _ R).
Qed.

Lemma ready_perm n s cs : ready n s -> Permutation (clauses s) cs -> ready n (set_clauses s cs).
Proof.
  intros R HP. assert (HR : Permutation (raws s) (raws (set_clauses s cs)))
    by (apply Permutation_map; auto).
  constructor.
  - simpl. intros ->. apply Permutation_sym, Permutation_nil in HP. apply (rd_ne _ _ R); auto.
  - intros c Hc. apply (rd_nonempty _ _ R). apply (Permutation_in _ (Permutation_sym HR)); auto.
  - intros c Hc. apply (rd_sorted _ _ R). apply (Permutation_in _ (Permutation_sym HR)); auto.
  - intros w. rewrite <- (rd_vars _ _ R). split; apply Permutation_in; auto using fvars_Perm, Permutation_sym.
  - apply R.
Qed.

Lemma sort_clauses_eq s : exists cs, Permutation (clauses s) cs /\ sort_clauses s = set_clauses s cs.
Proof.
  unfold sort_clauses. destruct (first_nonempty s).
  - exists (sort_by clause_lt (clauses s)); split; auto. apply Permutation_sym, sort_by_Perm.
  - exists (clauses s); rewrite set_clauses_same; auto.
Qed.
Lemma sort_clauses_nonempty s : clauses s <> [] -> nonempty_clauses (raws s) ->
  sort_clauses s = set_clauses s (sort_by clause_lt (clauses s)).
Proof.
  intros H1 H2. unfold sort_clauses, first_nonempty. unfold raws in H2.
  destruct (clauses s) as [|c t] eqn:E; [congruence|].
  destruct (raw c) eqn:E2; auto. exfalso; apply (H2 []); simpl; auto.
Qed.
Lemma sort_len_eq s : exists cs, Permutation (clauses s) cs /\ sort_clauses_by_length s = set_clauses s cs.
Proof.
  unfold sort_clauses_by_length. destruct (first_nonempty s).
  - exists (sort_by len_lt (clauses s)); split; auto. apply Permutation_sym, sort_by_Perm.
  - exists (clauses s); rewrite set_clauses_same; auto.
Qed.

Definition below_len (L : nat) (F : list (list Z)) : Prop :=
  forall c, In c F -> (List.length c <= L)%nat.
Lemma below_len_perm L F G : Permutation F G -> below_len L F -> below_len L G.
Proof. intros HP H c Hc. apply H, (Permutation_in _ (Permutation_sym HP)); auto. Qed.
Lemma renamed_below_len L f s s' : renamed f s s' -> below_len L (raws s) -> below_len L (raws s').
Proof.
  intros R H c Hc. rewrite (rn_raws R) in Hc. apply in_map_iff in Hc as (d & <- & Hd).
  rewrite (Permutation_length (sort_abs_Perm _)), map_length. auto.
Qed.
Lemma ready_lits n s c : ready n s -> In c (raws s) -> lits_below (Z.of_nat n) c.
Proof.
  intros R Hc x Hx. apply (rd_vars _ _ R), in_fvars. exists c; split; auto. apply in_map; auto.
Qed.

Lemma lo_loop_total m n L : forall fuel s,
  ready n s -> starts_low (raws s) -> new_vars_ascend (raws s) -> below_len L (raws s) ->
  (Z.to_nat (fcode (Z.of_nat n) L (raws s)) < fuel)%nat ->
  exists s', lo_loop fuel m s = Ok s'.
Proof.
  induction fuel as [|fuel IH]; intros s R H5 H3 HL Hf; [lia|].
  cbn [lo_loop]. destruct (is_in_lo_state_spec m s (rd_ne _ _ R) (rd_nonempty _ _ R)) as (b & Eb & Hb).
  rewrite Eb; simpl. destruct b; [eauto|].
  assert (Hm : m <> MODE_NORMAL) by (intros ->; destruct Hb as [_ Hb]; discriminate Hb; auto).
  assert (Hl : m <> MODE_LOU).
  { intros ->. destruct Hb as [_ Hb]. discriminate Hb. right; repeat split; auto. congruence. }
  assert (Hsm : sorts_clauses m = true) by (destruct m; auto; congruence).
  rewrite Hsm.
  pose proof (sort_clauses_nonempty s (rd_ne _ _ R) (rd_nonempty _ _ R)) as Es.
  set (s1 := sort_clauses s) in *.
  assert (R1 : ready n s1) by (rewrite Es; apply ready_perm; auto; apply Permutation_sym, sort_by_Perm).
  destruct (is_in_lo_state_spec m s1 (rd_ne _ _ R1) (rd_nonempty _ _ R1)) as (b1 & Eb1 & Hb1).
  rewrite Eb1; simpl. destruct b1; [eauto|].
  destruct (rename_vars_total s1) as [s2 E2].
  { apply concat_nonempty; apply R1. } { eapply ready_names_ok; eauto. }
  rewrite E2; simpl.
  destruct (rename_vars_spec s1 s2) as [f Rn]; auto. { eapply ready_names_ok; eauto. }
  destruct (ready_renamed f s1 s2 (rd_ne _ _ R1) (rd_nonempty _ _ R1) Rn) as (R2 & A5 & A3).
  rewrite (ready_nvars _ _ R1) in R2.
  assert (P1 : Permutation (raws s) (raws s1))
    by (rewrite Es; apply Permutation_map, Permutation_sym, sort_by_Perm).
  assert (HL1 : below_len L (raws s1)) by (eapply below_len_perm; eauto).
  assert (HL2 : below_len L (raws s2)) by (eapply renamed_below_len; eauto).
  apply IH; auto.
  assert (Hlt : seq_lt (raws s2) (raws s)).
  { eapply seq_le_lt.
    - apply (rename_vars_seq s1 s2); auto. intros c Hc. split; [apply (rd_sorted _ _ R1); auto|].
      intros v Hv. apply (rd_vars _ _ R1). apply in_fvars; eauto.
    - assert (Hle : seq_le (raws s1) (raws s)) by (rewrite Es; apply sort_seq).
      destruct Hle as [E|Hlt]; auto. exfalso.
      assert (HLA : leading_ascend (raws s1)).
      { rewrite Es. apply sorted_leading. apply (rd_nonempty _ _ R). }
      rewrite E in HLA. destruct Hb as [_ Hb]. discriminate Hb. right; auto. }
  assert (HF1 : forall c, In c (raws s) -> lits_below (Z.of_nat n) c /\ (List.length c <= L)%nat)
    by (intros c Hc; split; [exact (ready_lits _ _ _ R Hc) | apply HL; auto]).
  assert (HF2 : forall c, In c (raws s2) -> lits_below (Z.of_nat n) c /\ (List.length c <= L)%nat)
    by (intros c Hc; split; [exact (ready_lits _ _ _ R2 Hc) | apply HL2; auto]).
  assert (Hlen : List.length (raws s2) = List.length (raws s)).
  { rewrite (rn_raws Rn), map_length. symmetry; apply Permutation_length; auto. }
  pose proof (fcode_lt (Z.of_nat n) L (raws s2) (raws s) ltac:(lia) Hlen HF2 HF1 Hlt).
  pose proof (fcode_nonneg (Z.of_nat n) L (raws s2) ltac:(lia) (fun c Hc => proj1 (HF2 c Hc))).
  lia.
Qed.

(* an explicit sufficient number of iterations, growing with variables, width and clauses *)
Definition lo_bound (n L m : nat) : nat :=
  S (Z.to_nat (((2 * Z.of_nat n + 2) ^ Z.of_nat L) ^ Z.of_nat m)).
Lemma lo_bound_mono n L m n' L' m' : (n <= n')%nat -> (L <= L')%nat -> (m <= m')%nat ->
  (lo_bound n L m <= lo_bound n' L' m')%nat.
Proof.
  intros Hn HL Hm. unfold lo_bound. apply le_n_S. apply Z2Nat.inj_le.
  - apply Z.pow_nonneg, Z.pow_nonneg; lia.
  - apply Z.pow_nonneg, Z.pow_nonneg; lia.
  - assert (H1 : (2 * Z.of_nat n + 2) ^ Z.of_nat L <= (2 * Z.of_nat n' + 2) ^ Z.of_nat L').
    { etransitivity; [apply Z.pow_le_mono_l | apply Z.pow_le_mono_r]; lia. }
    assert (0 < (2 * Z.of_nat n + 2) ^ Z.of_nat L) by (apply Z.pow_pos_nonneg; lia).
    etransitivity; [apply Z.pow_le_mono_l | apply Z.pow_le_mono_r]; lia.
Qed.
Lemma fcode_lo_bound n L s : ready n s ->
  (Z.to_nat (fcode (Z.of_nat n) L (raws s)) < lo_bound n L (List.length (clauses s)))%nat.
Proof.
  intros R. unfold lo_bound.
  assert (H : 0 <= fcode (Z.of_nat n) L (raws s) <
              ((2 * Z.of_nat n + 2) ^ Z.of_nat L) ^ Z.of_nat (List.length (clauses s))).
  { unfold fcode. replace (List.length (clauses s))
      with (List.length (map (ccode (2 * Z.of_nat n + 2) L) (raws s)))
      by (unfold raws; rewrite !map_length; auto).
    apply scode_bound; [apply Z.pow_pos_nonneg; lia|]. intros d Hd.
    apply in_map_iff in Hd as (c & <- & Hc). apply ccode_bound; [lia|]. eapply ready_lits; eauto. }
  lia.
Qed.

Lemma lo_loop_keeps (P : cset -> Prop) m : 
  (forall s, P s -> P (sort_clauses s)) ->
  (forall s s', P s -> rename_vars s = Ok s' -> P s') ->
  forall fuel s s', P s -> lo_loop fuel m s = Ok s' -> P s' /\ is_in_lo_state m s' = Ok true.
Proof.
  intros H1 H2. induction fuel as [|fuel IH]; cbn [lo_loop]; intros s s' Hs E; [discriminate|].
  apply bind_ok in E as (b & Eb & E). destruct b; [inv E; auto|].
  destruct (sorts_clauses m).
  - apply bind_ok in E as (b1 & Eb1 & E). destruct b1; [inv E; auto|].
    apply bind_ok in E as (s2 & E2 & E). eapply IH; [|exact E]; eauto.
  - apply bind_ok in E as (s2 & E2 & E). eapply IH; [|exact E]; eauto.
Qed.
Lemma lo_loop_mono m : forall f1 f2 s s', (f1 <= f2)%nat -> lo_loop f1 m s = Ok s' -> lo_loop f2 m s = Ok s'.
Proof.
  induction f1 as [|f1 IH]; intros [|f2] s s' Hle; cbn [lo_loop]; try discriminate; [lia|].
  assert (Hle' : (f1 <= f2)%nat) by lia.
  destruct (is_in_lo_state m s) as [[]| |]; simpl; auto.
  destruct (sorts_clauses m).
  - destruct (is_in_lo_state m (sort_clauses s)) as [[]| |]; simpl; auto.
    destruct (rename_vars (sort_clauses s)); simpl; auto.
  - destruct (rename_vars s); simpl; auto.
Qed.


Definition pre_sort (m : mode) (z t : bool) (s : cset) : cset :=
  let s1 := if t then sort_clauses_by_len_and_initial_index s else s in
  if mode_eqb m MODE_FLOP || z then sort_clauses_by_length s1 else s1.
Lemma pre_sort_eq m z t s : exists cs, Permutation (clauses s) cs /\ pre_sort m z t s = set_clauses s cs.
Proof.
  unfold pre_sort. set (s1 := if t then _ else _).
  assert (H1 : exists cs, Permutation (clauses s) cs /\ s1 = set_clauses s cs).
  { unfold s1. destruct t.
    - exists (sort_by len_idx_lt (clauses s)); split; auto. apply Permutation_sym, sort_by_Perm.
    - exists (clauses s); rewrite set_clauses_same; auto. }
  destruct H1 as (cs1 & P1 & E1).
  destruct (mode_eqb m MODE_FLOP || z); [|eauto].
  destruct (sort_len_eq s1) as (cs2 & P2 & E2). exists cs2. rewrite E2, E1. split; auto.
  rewrite E1 in P2; simpl in P2. etransitivity; eauto.
Qed.

Lemma norm_pre_lo f s s' : norm f s s' -> clauses s <> [] -> nonempty_clauses (raws s) ->
  clauses s' <> [] /\ nonempty_clauses (raws s').
Proof.
  intros N H1 H2. destruct (nl_clauses _ _ _ N) as (cs & P & F). split.
  - intros E. rewrite E in F. inv F. apply Permutation_sym, Permutation_nil in P; auto.
  - intros c Hc E. unfold raws in Hc. apply in_map_iff in Hc as (d & Ed & Hd).
    assert (Hex : exists c, In c cs /\ csame f c d).
    { clear -F Hd. induction F; simpl in *; [tauto|]. destruct Hd as [->|Hd]; eauto.
      destruct (IHF Hd) as (c & ? & ?); eauto. }
    destruct Hex as (c0 & Hc0 & (HP & _)). subst c. rewrite E in HP.
    apply Permutation_sym, Permutation_nil, map_eq_nil in HP.
    apply (H2 (raw c0)); auto. apply in_map, (Permutation_in _ (Permutation_sym P)); auto.
Qed.

Lemma to_lo_unfold fuel m z t s :
  to_lo_condition fuel m z t s = (s3 <- rename_vars (pre_sort m z t s) ;; lo_loop fuel m s3).
Proof. reflexivity. Qed.

Lemma pre_sort_pre_lo m z t s : pre_lo s -> pre_lo (pre_sort m z t s).
Proof.
  intros (H1 & H2 & H3). destruct (pre_sort_eq m z t s) as (cs & P & E). rewrite E.
  destruct (norm_pre_lo _ _ _ (norm_perm s cs P) H1 H2) as [A B]. split; auto. split; auto.
  destruct H3 as [H3|H3]; [left; auto | right; simpl]. intros v Hv. apply H3.
  assert (HP : Permutation (fvars (raws s)) (fvars (raws (set_clauses s cs))))
    by (apply fvars_Perm, Permutation_map; auto).
  apply (Permutation_in _ (Permutation_sym HP)); auto.
Qed.

Lemma dedup_length_perm l l' : (forall x, In x l <-> In x l') ->
  List.length (dedup l) = List.length (dedup l').
Proof.
  intros H. apply Permutation_length, NoDup_Permutation; try apply dedup_NoDup.
  intros x. rewrite !dedup_In; auto.
Qed.
Lemma nvars_perm F G : Permutation F G -> nvars F = nvars G.
Proof.
  intros H. apply dedup_length_perm. intros x; split; apply Permutation_in; auto using fvars_Perm, Permutation_sym.
Qed.

Lemma to_lo_total fuel m z t s L :
  pre_lo s -> below_len L (raws s) ->
  (lo_bound (nvars (raws s)) L (List.length (clauses s)) <= fuel)%nat ->
  exists s', to_lo_condition fuel m z t s = Ok s'.
Proof.
  intros Hp HL Hf. rewrite to_lo_unfold.
  pose proof (pre_sort_pre_lo m z t s Hp) as (P1 & P2 & P3).
  destruct (pre_sort_eq m z t s) as (cs & HP & E).
  assert (HR : Permutation (raws s) (raws (pre_sort m z t s)))
    by (rewrite E; apply Permutation_map; auto).
  set (s1 := pre_sort m z t s) in *.
  destruct (rename_vars_total s1) as [s2 E2]; auto; [apply concat_nonempty; auto|].
  rewrite E2; simpl. destruct (rename_vars_spec _ _ P3 E2) as [f Rn].
  destruct (ready_renamed f s1 s2 P1 P2 Rn) as (R2 & A5 & A3).
  eapply (lo_loop_total m _ L); eauto.
  - eapply renamed_below_len; eauto. eapply below_len_perm; eauto.
  - eapply Nat.lt_le_trans; [apply fcode_lo_bound; auto|].
    rewrite <- (nvars_perm _ _ HR).
    replace (List.length (clauses s2)) with (List.length (clauses s)); auto.
    rewrite (rn_clauses _ _ _ Rn), map_length. rewrite E; simpl. apply Permutation_length; auto.
Qed.

Lemma to_lo_spec fuel m z t s s' :
  pre_lo s -> to_lo_condition fuel m z t s = Ok s' ->
  exists f, norm f s s' /\ ready (nvars (raws s)) s' /\ is_in_lo_state m s' = Ok true.
Proof.
  intros Hp. rewrite to_lo_unfold. intros H. apply bind_ok in H as (s2 & E2 & H).
  pose proof (pre_sort_pre_lo m z t s Hp) as (P1 & P2 & P3).
  destruct (pre_sort_eq m z t s) as (cs & HP & E).
  assert (HR : Permutation (raws s) (raws (pre_sort m z t s)))
    by (rewrite E; apply Permutation_map; auto).
  destruct (rename_vars_spec _ _ P3 E2) as [f Rn].
  destruct (ready_renamed f _ s2 P1 P2 Rn) as (R2 & A5 & A3).
  rewrite <- (nvars_perm _ _ HR) in R2.
  assert (N2 : exists f, norm f s s2).
  { exists (fun v => f v). eapply (norm_trans (fun v => v) f).
    - apply norm_perm; eauto.
    - rewrite <- E. apply renamed_norm; auto. }
  destruct (lo_loop_keeps (fun x => (exists f, norm f s x) /\ ready (nvars (raws s)) x) m) with
    (fuel := fuel) (s := s2) (s' := s') as [[[g Ng] R'] Hlo]; auto.
  - intros x [[g Ng] Rx]. destruct (sort_clauses_eq x) as (cs' & P' & ->). split.
    + exists (fun v => g v). eapply (norm_trans g (fun v => v)); eauto. apply norm_perm; auto.
    + apply ready_perm; auto.
  - intros x x' [[g Ng] Rx] Ex.
    destruct (rename_vars_spec x x' (ready_names_ok _ _ Rx) Ex) as [h Rh]. split.
    + exists (fun v => h (g v)). eapply norm_trans; eauto. apply renamed_norm; auto.
    + destruct (ready_renamed h x x' (rd_ne _ _ Rx) (rd_nonempty _ _ Rx) Rh) as (Rx' & _).
      rewrite (ready_nvars _ _ Rx) in Rx'. auto.
  - eauto.
Qed.
Lemma to_lo_mono m z t f1 f2 s s' : (f1 <= f2)%nat ->
  to_lo_condition f1 m z t s = Ok s' -> to_lo_condition f2 m z t s = Ok s'.
Proof.
  rewrite !to_lo_unfold. intros Hle H. apply bind_ok in H as (s2 & E2 & H). rewrite E2; simpl.
  eapply lo_loop_mono; eauto.
Qed.

(* ---- meaning of a normalisation ---- *)
Lemma lit_true_rename f a l :
  0 <= f (Z.abs l) /\ (0 < Z.abs l -> 0 < f (Z.abs l)) ->
  lit_true a (rename_lit f l) = lit_true (fun v => a (f v)) l.
Proof.
  intros [H1 H2]. unfold lit_true, rename_lit. destruct (Z.ltb_spec l 0).
  - replace (Z.abs l) with (- l) in * by lia. destruct (Z.ltb_spec (- f (- l)) 0); [|lia].
    rewrite Z.opp_involutive; auto.
  - replace (Z.abs l) with l in * by lia. destruct (Z.ltb_spec (f l) 0); [lia|auto].
Qed.
Lemma clause_true_Perm a c d : Permutation c d -> clause_true a c -> clause_true a d.
Proof. intros HP (l & Hl & Ht). exists l; split; auto. eapply Permutation_in; eauto. Qed.
Lemma clause_true_rename f a c :
  (forall v, In v (cvars c) -> 0 <= f v /\ (0 < v -> 0 < f v)) ->
  (clause_true a (map (rename_lit f) c) <-> clause_true (fun v => a (f v)) c).
Proof.
  intros Hf. unfold clause_true. split.
  - intros (l & Hl & Ht). apply in_map_iff in Hl as (k & <- & Hk). exists k; split; auto.
    rewrite <- lit_true_rename; auto. apply Hf, in_map; auto.
  - intros (k & Hk & Ht). exists (rename_lit f k); split; [apply in_map; auto|].
    rewrite lit_true_rename; auto. apply Hf, in_map; auto.
Qed.
Lemma norm_true f s s' a : norm f s s' ->
  (cnf_true a (raws s') <-> cnf_true (fun v => a (f v)) (raws s)).
Proof.
  intros N. destruct (nl_clauses _ _ _ N) as (cs & P & F).
  assert (Hpos : forall c, In c cs -> forall v, In v (cvars (raw c)) -> 0 <= f v /\ (0 < v -> 0 < f v)).
  { intros c Hc v Hv. apply (nl_pos _ _ _ N), in_fvars. exists (raw c); split; auto.
    apply in_map. apply (Permutation_in _ (Permutation_sym P)); auto. }
  assert (G : cnf_true a (raws s') <-> cnf_true (fun v => a (f v)) (map raw cs)).
  { unfold raws. clear P. induction F as [|c d cs ds (HP & _) F IH]; simpl.
    - unfold cnf_true; simpl; tauto.
    - assert (Hcd : clause_true a (raw d) <-> clause_true (fun v => a (f v)) (raw c)).
      { rewrite <- (clause_true_rename f a) by (apply Hpos; simpl; auto).
        split; apply clause_true_Perm; auto using Permutation_sym. }
      assert (IH' := IH (fun c Hc => Hpos c (or_intror Hc))).
      unfold cnf_true in *; simpl. split; intros H x [<-|Hx].
      + apply Hcd, H; auto. + apply IH'; auto. + apply Hcd, H; auto. + apply IH'; auto. }
  rewrite G. unfold cnf_true, raws. split; intros H c Hc; apply H.
  - apply (Permutation_in _ (Permutation_map raw P)); auto.
  - apply (Permutation_in _ (Permutation_sym (Permutation_map raw P))); auto.
Qed.
Lemma norm_same f s s' : norm f s s' -> same_up_to_renaming f (raws s) (raws s').
Proof.
  intros N. destruct (nl_clauses _ _ _ N) as (cs & P & F). exists (map raw cs). split.
  - apply Permutation_map; auto.
  - unfold raws. clear P. induction F as [|c d cs ds (HP & _) F IH]; simpl; constructor; auto.
Qed.
Lemma norm_distinct f s s' : norm f s s' ->
  (forall c, In c (raws s) -> distinct_vars c) -> forall c, In c (raws s') -> distinct_vars c.
Proof.
  intros N H c Hc. destruct (nl_clauses _ _ _ N) as (cs & P & F).
  unfold raws in Hc. apply in_map_iff in Hc as (d & <- & Hd).
  assert (Hex : exists c, In c cs /\ csame f c d).
  { clear -F Hd. induction F; simpl in *; [tauto|]. destruct Hd as [->|Hd]; eauto.
    destruct (IHF Hd) as (c & ? & ?); eauto. }
  destruct Hex as (c0 & Hc0 & (HP & _)).
  assert (Hin : In (raw c0) (raws s)) by (apply in_map, (Permutation_in _ (Permutation_sym P)); auto).
  apply (distinct_vars_Perm _ _ HP). unfold distinct_vars.
  rewrite cvars_map_rename.
  - assert (Hi : injective_on f (cvars (raw c0))).
    { intros x y Hx Hy. apply (nl_inj _ _ _ N); apply in_fvars; eauto. }
    specialize (H _ Hin). unfold distinct_vars in H. clear -Hi H.
    induction (cvars (raw c0)) as [|x t IH]; simpl; constructor; inv H.
    + intros Hx. apply in_map_iff in Hx as (y & E & Hy). apply Hi in E; simpl; auto. congruence.
    + apply IH; auto. intros a b Ha Hb; apply Hi; simpl; auto.
  - intros v Hv. apply (nl_pos _ _ _ N), in_fvars; eauto.
Qed.
Lemma norm_length f s s' : norm f s s' -> List.length (clauses s') = List.length (clauses s).
Proof.
  intros N. destruct (nl_clauses _ _ _ N) as (cs & P & F).
  rewrite (Permutation_length P). symmetry. eapply Forall2_len; eauto.
Qed.
Lemma norm_below_len L f s s' : norm f s s' -> below_len L (raws s) -> below_len L (raws s').
Proof.
  intros N H c Hc. destruct (nl_clauses _ _ _ N) as (cs & P & F).
  unfold raws in Hc. apply in_map_iff in Hc as (d & <- & Hd).
  assert (Hex : exists c, In c cs /\ csame f c d).
  { clear -F Hd. induction F; simpl in *; [tauto|]. destruct Hd as [->|Hd]; eauto.
    destruct (IHF Hd) as (c & ? & ?); eauto. }
  destruct Hex as (c0 & Hc0 & (HP & _)).
  rewrite <- (Permutation_length HP), map_length. apply H.
  apply in_map, (Permutation_in _ (Permutation_sym P)); auto.
Qed.
Lemma norm_undecided f s s' : norm f s s' ->
  (forall c, In c (clauses s) -> cvalue c = None) -> forall c, In c (clauses s') -> cvalue c = None.
Proof.
  intros N H d Hd. destruct (nl_clauses _ _ _ N) as (cs & P & F).
  assert (Hex : exists c, In c cs /\ csame f c d).
  { clear -F Hd. induction F; simpl in *; [tauto|]. destruct Hd as [->|Hd]; eauto.
    destruct (IHF Hd) as (c & ? & ?); eauto. }
  destruct Hex as (c0 & Hc0 & (_ & HV & _)). rewrite HV. apply H.
  apply (Permutation_in _ (Permutation_sym P)); auto.
Qed.
