(* PReader.v -- lemmas about the two input readers. *)
From Coq Require Import String Ascii ZArith List Bool Lia Permutation Sorted.
From Verif Require Import Spec PyBase MSet MText MQueue MDb MSolver SpecInput SpecRun PLib PClause PRename
  PLo PNorm PEval PText.
Import ListNotations.
Open Scope Z_scope.

(* ---- characters and numerals ---- *)
Lemma txt_chars s : txt s = chars s. Proof. reflexivity. Qed.
Lemma nl_newline : nl = newline. Proof. reflexivity. Qed.
Lemma digit_code d : (d < 10)%nat -> code (digit d) = N.of_nat (48 + d).
Proof.
  intros H. unfold code, digit, ascii_of_nat. apply N_ascii_embedding. lia.
Qed.
Lemma digit_value d : (d < 10)%nat -> digit_val (digit d) = Some (Z.of_nat d).
Proof.
  intros H. unfold digit_val. rewrite digit_code by auto.
  destruct (N.leb_spec 48 (N.of_nat (48 + d))); [|lia].
  destruct (N.leb_spec (N.of_nat (48 + d)) 57); [|lia]. cbn [andb]. f_equal. lia.
Qed.
Lemma digits_decimal ds : Forall (fun d => (d < 10)%nat) ds -> forall b acc, ds <> [] \/ b = true ->
  digits_val b acc (map digit ds) = Some (decimal acc ds).
Proof.
  induction 1 as [|d ds H _ IH]; intros b acc Hb; cbn [map digits_val decimal].
  - destruct Hb as [Hb| ->]; [congruence|auto].
  - rewrite digit_value by auto. apply IH; auto.
Qed.
Definition signchar (c : ascii) : bool := is_digit c || Ascii.eqb c "-"%char || Ascii.eqb c "+"%char.
Lemma digit_is_digit d : (d < 10)%nat -> is_digit (digit d) = true.
Proof. intros H. unfold is_digit. rewrite digit_value; auto. Qed.
Lemma digits_signchar ds : Forall (fun d => (d < 10)%nat) ds ->
  Forall (fun c => signchar c = true) (map digit ds).
Proof.
  induction 1 as [|d ds Hd HF IH]; simpl; constructor; auto. unfold signchar. rewrite digit_is_digit; auto.
Qed.
Lemma numeral_chars z n : numeral z n -> n <> [] /\ Forall (fun c => signchar c = true) n.
Proof.
  intros [ds H1 H2|ds H1 H2|ds H1 H2]; (split; [destruct ds; [congruence|discriminate]|]).
  - apply digits_signchar; auto.
  - constructor; [reflexivity|apply digits_signchar; auto].
  - constructor; [reflexivity|apply digits_signchar; auto].
Qed.
Lemma signchar_bound c : signchar c = true -> (48 <= code c <= 57)%N \/ code c = 45%N \/ code c = 43%N.
Proof.
  unfold signchar. intros H. apply orb_true_iff in H as [H|H]; [apply orb_true_iff in H as [H|H]|].
  - left. apply digit_bound; auto.
  - apply Ascii.eqb_eq in H; subst; auto.
  - apply Ascii.eqb_eq in H; subst; auto.
Qed.
Lemma signchar_neq c d : signchar c = true ->
  (code d < 43 \/ code d = 44 \/ 45 < code d < 48 \/ 57 < code d)%N -> c <> d.
Proof. intros H Hd ->. apply signchar_bound in H. lia. Qed.
Lemma signchar_nospace c : signchar c = true -> is_space c = false /\ is_uspace c = false.
Proof.
  intros H. apply signchar_bound in H.
  assert (is_space c = false).
  { unfold is_space. destruct (N.eqb_spec (code c) 32); [lia|].
    destruct (N.leb_spec 9 (code c)); [|lia]. destruct (N.leb_spec (code c) 13); [lia|]. auto. }
  split; auto. unfold is_uspace. rewrite H0. cbn [orb].
  destruct (N.leb_spec 28 (code c)); [|lia]. destruct (N.leb_spec (code c) 31); [lia|]. auto.
Qed.

Lemma lstrip_app sp pre t : Forall (fun c => sp c = true) pre -> lstrip sp (pre ++ t) = lstrip sp t.
Proof. induction 1 as [|c p H _ IH]; simpl; auto. rewrite H. auto. Qed.
Lemma lstrip_cut sp t : exists pre, t = pre ++ lstrip sp t /\ Forall (fun c => sp c = true) pre.
Proof.
  induction t as [|c t (p & E & H)]; simpl; [exists []; auto|].
  destruct (sp c) eqn:Ec; [|exists []; auto]. exists (c :: p). split; [simpl; congruence|auto].
Qed.
Lemma strip_cut sp t : exists pre post, t = pre ++ strip sp t ++ post /\
  Forall (fun c => sp c = true) pre /\ Forall (fun c => sp c = true) post.
Proof.
  destruct (lstrip_cut sp t) as (pre & E & H). destruct (lstrip_cut sp (rev (lstrip sp t))) as (q & E2 & H2).
  exists pre, (rev q). split; [|split; auto].
  - unfold strip. rewrite E at 1. f_equal. rewrite <- rev_app_distr, <- E2, rev_involutive. auto.
  - apply Forall_rev; auto.
Qed.
Lemma lstrip_noop_app sp t post : t <> [] -> lstrip sp t = t -> lstrip sp (t ++ post) = t ++ post.
Proof.
  intros H E. destruct t as [|c t]; [congruence|]. simpl in *. destruct (sp c) eqn:Ec; auto.
  exfalso. destruct (lstrip_cut sp t) as (p & E2 & _). apply (f_equal (@List.length _)) in E, E2.
  rewrite app_length in E2. simpl in E. lia.
Qed.
Lemma strip_pad sp pre t post : Forall (fun c => sp c = true) pre -> Forall (fun c => sp c = true) post ->
  t <> [] -> Forall (fun c => sp c = false) t -> strip sp (pre ++ t ++ post) = t.
Proof.
  intros H1 H2 Hn H3. unfold strip. rewrite lstrip_app by auto.
  rewrite lstrip_noop_app; auto.
  2:{ apply lstrip_id. destruct t; auto. inversion H3; auto. }
  rewrite rev_app_distr, lstrip_app by (apply Forall_rev; auto).
  rewrite lstrip_id, rev_involutive; auto.
  destruct (rev t) as [|c r] eqn:E; auto. assert (Hi : In c t) by (apply in_rev; rewrite E; left; auto).
  rewrite Forall_forall in H3. auto.
Qed.

Lemma py_int_numeral z n pre post : numeral z n -> Forall (fun c => is_space c = true) pre ->
  Forall (fun c => is_space c = true) post -> py_int (pre ++ n ++ post) = Some z.
Proof.
  intros Hn H1 H2. destruct (numeral_chars _ _ Hn) as [Hne Hc]. unfold py_int.
  rewrite strip_pad; auto.
  2:{ eapply Forall_impl; [|exact Hc]. intros c H. apply signchar_nospace; auto. }
  destruct Hn as [ds H3 H4|ds H3 H4|ds H3 H4].
  - destruct ds as [|d ds]; [congruence|]. cbn [map]. pose proof (Forall_inv H4) as Hd.
    assert (Hb := digit_is_digit d Hd).
    destruct (Ascii.eqb_spec (digit d) "-"%char) as [E|_].
    { exfalso. eapply digit_neq; [exact Hb| |exact E]. left; vm_compute; auto. }
    destruct (Ascii.eqb_spec (digit d) "+"%char) as [E|_].
    { exfalso. eapply digit_neq; [exact Hb| |exact E]. left; vm_compute; auto. }
    apply (digits_decimal (d :: ds) H4). left; discriminate.
  - cbn. apply digits_decimal; auto.
  - cbn. rewrite digits_decimal; auto.
Qed.

Lemma str_Z_numeral z : numeral z (str_Z z).
Proof.
  assert (H : forall n, exists ds, ds <> [] /\ Forall (fun d => (d < 10)%nat) ds /\ digits_N n = map digit ds).
  { intros n. pose proof (digits_N_digits n) as H. pose proof (digits_N_ne n) as Hne.
    revert Hne H. generalize (digits_N n). intros t Hne H.
    assert (exists ds, Forall (fun d => (d < 10)%nat) ds /\ t = map digit ds) as (ds & H1 & ->).
    { clear Hne. induction H as [|c t Hc _ (ds & H1 & ->)]; [exists []; auto|].
      pattern c. apply digit_cases; auto. intros k Hk. exists (N.to_nat k :: ds). split.
      - constructor; auto. lia.
      - simpl. f_equal. unfold digit_char, digit, ascii_of_nat. f_equal. lia. }
    exists ds. split; auto. intros ->. apply Hne. auto. }
  pose proof (digits_N_val (Z.to_N z) false) as V. pose proof (digits_N_val (Z.to_N (- z)) false) as W.
  unfold str_Z. destruct (Z.ltb_spec z 0).
  - destruct (H (Z.to_N (- z))) as (ds & H1 & H2 & E). rewrite E in *.
    rewrite digits_decimal in W by auto. inversion W as [W'].
    replace z with (- decimal 0 ds) at 1 by lia. constructor; auto.
  - destruct (H (Z.to_N z)) as (ds & H1 & H2 & E). rewrite E in *.
    rewrite digits_decimal in V by auto. inversion V as [V'].
    replace z with (decimal 0 ds) at 1 by lia. constructor; auto.
Qed.

(* ---- separated ---- *)
Lemma separated_join c ps : separated c ps = join [c] ps.
Proof.
  induction ps as [|p [|q t] IH]; auto. cbn [separated join app]. f_equal. f_equal. exact IH.
Qed.
Lemma split_on_separated c ps : ps <> [] -> Forall (lacks c) ps -> split_on c (separated c ps) = ps.
Proof. rewrite separated_join. apply split_on_join. Qed.

Lemma remove_char_app c t u : remove_char c (t ++ u) = remove_char c t ++ remove_char c u.
Proof. unfold remove_char. apply filter_app. Qed.
Lemma remove_char_cons_ne c x u : x <> c -> remove_char c (x :: u) = x :: remove_char c u.
Proof. intros H. unfold remove_char; simpl. destruct (Ascii.eqb_spec x c); [congruence|auto]. Qed.
Lemma remove_char_separated c d ps : c <> d ->
  remove_char c (separated d ps) = separated d (map (remove_char c) ps).
Proof.
  intros H. induction ps as [|p [|q t] IH]; auto. cbn [separated map] in *.
  rewrite remove_char_app, remove_char_cons_ne by auto. f_equal. f_equal. exact IH.
Qed.
Lemma remove_char_lacks c d t : lacks d t -> lacks d (remove_char c t).
Proof.
  unfold lacks, remove_char. intros H. intros Hi. apply filter_In in Hi as [Hi _]. auto.
Qed.
Definition noparen (t : text) : text := remove_char ")"%char (remove_char "("%char t).
Lemma noparen_app t u : noparen (t ++ u) = noparen t ++ noparen u.
Proof. unfold noparen. rewrite !remove_char_app. auto. Qed.
Lemma noparen_separated d ps : d <> "("%char -> d <> ")"%char ->
  noparen (separated d ps) = separated d (map noparen ps).
Proof.
  intros H1 H2. unfold noparen. rewrite remove_char_separated, remove_char_separated, map_map by congruence. auto.
Qed.
Lemma noparen_filler t : Forall filler t -> Forall (fun c => is_space c = true) (noparen t).
Proof.
  intros H. apply Forall_forall. intros c Hc. unfold noparen, remove_char in Hc.
  apply filter_In in Hc as [Hc H2]. apply filter_In in Hc as [Hc H1].
  rewrite Forall_forall in H. destruct (H c Hc) as [[-> | ->]|[-> | ->]]; try reflexivity; discriminate.
Qed.
Lemma noparen_numeral z n : numeral z n -> noparen n = n.
Proof.
  intros H. apply numeral_chars in H as [_ H]. rewrite Forall_forall in H.
  unfold noparen. rewrite !remove_char_id; auto.
  - intros Hi. apply H in Hi. discriminate Hi.
  - rewrite remove_char_id; intros Hi; apply H in Hi; discriminate Hi.
Qed.
Lemma literal_read l t : literal_written l t -> py_int (noparen t) = Some l.
Proof.
  intros (pre & n & post & -> & H1 & H2 & H3). rewrite !noparen_app, (noparen_numeral _ _ H3).
  apply py_int_numeral; auto using noparen_filler.
Qed.
Lemma literal_lacks l t d : literal_written l t -> d = "|"%char \/ d = "&"%char \/ d = newline -> lacks d t.
Proof.
  intros (pre & n & post & -> & H1 & H2 & H3) Hd. apply numeral_chars in H3 as [_ H3].
  rewrite Forall_forall in *. unfold lacks. rewrite !in_app_iff. intros [Hi|[Hi|Hi]].
  - apply H1 in Hi as [[-> | ->]|[-> | ->]]; destruct Hd as [E|[E|E]]; discriminate E.
  - apply H3 in Hi. destruct Hd as [-> |[-> | ->]]; discriminate Hi.
  - apply H2 in Hi as [[-> | ->]|[-> | ->]]; destruct Hd as [E|[E|E]]; discriminate E.
Qed.
Lemma separated_In c ps x : In x (separated c ps) -> x = c \/ exists p, In p ps /\ In x p.
Proof. rewrite separated_join. intros H. destruct (join_In _ _ _ H) as [[->|[]]|H']; auto. Qed.
Lemma separated_ne c p ps : p <> [] -> separated c (p :: ps) <> [].
Proof. rewrite separated_join. apply join_ne. Qed.
Lemma clause_lacks c t d : clause_written c t -> d = "&"%char \/ d = newline -> lacks d t.
Proof.
  intros (_ & ps & H & ->) Hd Hi. apply separated_In in Hi as [E|(p & Hp & Hi)].
  - destruct Hd as [-> | ->]; discriminate.
  - assert (exists l, literal_written l p) as [l Hl].
    { clear -H Hp. induction H; destruct Hp; subst; eauto. }
    apply (literal_lacks l p d Hl); tauto.
Qed.
Lemma clause_read c t : clause_written c t -> parse_clause (noparen t) = Some (dedup c).
Proof.
  intros (Hne & ps & H & ->). unfold parse_clause. rewrite noparen_separated by discriminate.
  rewrite split_on_separated.
  - assert (E : mapO py_int (map noparen ps) = Some c).
    { clear Hne. induction H; simpl; auto. rewrite (literal_read _ _ H), IHForall2. auto. }
    rewrite E. auto.
  - inversion H; subst; [congruence|discriminate].
  - clear Hne. induction H; simpl; constructor; auto.
    apply remove_char_lacks, remove_char_lacks. eapply literal_lacks; eauto.
Qed.
Lemma formula_lacks F t : formula_written F t -> lacks newline t.
Proof.
  intros (_ & ps & H & ->) Hi. apply separated_In in Hi as [E|(p & Hp & Hi)]; [discriminate|].
  assert (exists c, clause_written c p) as [c Hc].
  { clear -H Hp. induction H; destruct Hp; subst; eauto. }
  eapply (clause_lacks c p newline); eauto.
Qed.
Lemma formula_read F t : formula_written F t -> parse_clauses t = Some (map dedup F) /\ t <> [].
Proof.
  intros (Hne & ps & H & ->). split.
  - unfold parse_clauses. change (remove_char ")" (remove_char "(" (separated "&" ps))) with (noparen (separated "&"%char ps)).
    rewrite noparen_separated by discriminate. rewrite split_on_separated.
    + clear Hne. induction H; simpl; auto. rewrite (clause_read _ _ H), IHForall2. auto.
    + inversion H; subst; [congruence|discriminate].
    + clear Hne. induction H; simpl; constructor; auto.
      apply remove_char_lacks, remove_char_lacks. eapply clause_lacks; eauto.
  - inversion H; subst; [congruence|]. apply separated_ne.
    destruct H0 as (Hc & qs & Hq & ->). inversion Hq; subst; [congruence|]. apply separated_ne.
    destruct H0 as (a & n & b & -> & _ & _ & Hn). apply numeral_chars in Hn as [Hn _].
    destruct a; [destruct n; [congruence|discriminate]|discriminate].
Qed.

(* ---- Clause objects from literal lists ---- *)
Lemma dedup_complementary c : complementary (dedup c) <-> complementary c.
Proof. unfold complementary. split; intros (v & H & H1 & H2); exists v; rewrite ?dedup_In in *; auto. Qed.
Lemma clause_true_In_iff a c d : (forall l, In l d <-> In l c) -> (clause_true a d <-> clause_true a c).
Proof. intros H. unfold clause_true. split; intros (l & H1 & H2); exists l; split; auto; apply H; auto. Qed.
Lemma complementary_true a c : complementary c -> clause_true a c.
Proof.
  intros (v & Hv & H1 & H2). destruct (a (Z.abs v)) eqn:E.
  - exists (Z.abs v). split; [destruct (Z.abs_eq_or_opp v) as [-> | ->]; auto|].
    unfold lit_true. destruct (Z.ltb_spec (Z.abs v) 0); [lia|auto].
  - exists (- Z.abs v). split; [destruct (Z.abs_eq_or_opp v) as [-> | ->]; rewrite ?Z.opp_involutive; auto|].
    unfold lit_true. destruct (Z.ltb_spec (- Z.abs v) 0); [|lia]. rewrite Z.opp_involutive, E. auto.
Qed.

Definition read_clauses (i : Z) (F : list (list Z)) : list clause := filter undecided (numbered i (map dedup F)).
Lemma numbered_nofalse cls : forall i c, In c (numbered i cls) -> cvalue c <> Some false.
Proof.
  induction cls as [|x t IH]; simpl; intros i c H; [destruct H|]. destruct H as [<-|H]; [|eauto].
  simpl. destruct (clause_init_value x) as [->|[-> _]]; discriminate.
Qed.
Lemma add_clause_frame s c : exists cs v, add_clause s c = set_value (set_clauses s cs) v.
Proof.
  unfold add_clause. destruct s as [cl sv i h f e og hi]; simpl. destruct sv as [[]|].
  2:{ exists cl, (Some false). auto. }
  all: destruct (cvalue c) as [[]|]; simpl; try (destruct cl; simpl);
       repeat eexists; unfold set_value, set_clauses; simpl; reflexivity.
Qed.
Lemma fold_add_frame cs : forall s, exists cl v, fold_left add_clause cs s = set_value (set_clauses s cl) v.
Proof.
  induction cs as [|c t IH]; simpl; intros s.
  - exists (clauses s), (svalue s). destruct s; auto.
  - destruct (add_clause_frame s c) as (cl & v & E). rewrite E.
    destruct (IH (set_value (set_clauses s cl) v)) as (cl2 & v2 & E2). exists cl2, v2. rewrite E2.
    destruct s; auto.
Qed.
Lemma add_numbered_read F : F <> [] ->
  add_numbered empty_set 1 (map dedup F) =
  set_value (set_clauses empty_set (read_clauses 1 F))
            (match read_clauses 1 F with [] => Some true | _ => None end).
Proof.
  intros Hn. rewrite add_numbered_fold.
  destruct (fold_add_nofalse (numbered 1 (map dedup F)) empty_set) as [A B]; simpl; auto; try congruence.
  { apply numbered_nofalse. }
  destruct (fold_add_frame (numbered 1 (map dedup F)) empty_set) as (cl & v & E). rewrite E in *.
  cbn [app clauses svalue set_value set_clauses empty_set] in A, B. subst cl v. unfold read_clauses.
  destruct F as [|c F]; [congruence|]. cbn [map numbered].
  destruct (filter _ _); auto.
Qed.
Lemma read_clauses_equiv a F : forall i, cnf_true a (map raw (read_clauses i F)) <-> cnf_true a F.
Proof.
  unfold read_clauses. induction F as [|c F IH]; intros i; [reflexivity|]. cbn [map numbered filter].
  assert (E : cnf_true a (c :: F) <-> clause_true a c /\ cnf_true a F).
  { unfold cnf_true. split; [intros H; split; [apply H; left; auto|intros d Hd; apply H; right; auto]|].
    intros [H1 H2] d [<-|Hd]; auto. }
  rewrite E, <- (IH (i + 1)). unfold undecided at 1. cbn [cvalue with_index].
  destruct (clause_init_value (dedup c)) as [Ev|[Ev Er]]; rewrite Ev.
  - apply clause_init_taut_sound in Ev; [|apply dedup_NoDup]. apply (proj1 (dedup_complementary c)) in Ev.
    split; [|tauto]. intros H; split; auto. apply complementary_true; auto.
  - cbn [map raw with_index]. rewrite Er. unfold cnf_true at 1.
    assert (Hi : forall l, In l (sort_abs (dedup c)) <-> In l c).
    { intros l. rewrite <- (dedup_In c l).
      split; apply Permutation_in; [|apply Permutation_sym]; apply sort_abs_Perm. }
    pose proof (clause_true_In_iff a _ _ Hi) as Hc. split.
    + intros H. split; [apply Hc, H; left; auto|]. intros d Hd. apply H. right; auto.
    + intros [H1 H2] d [<-|Hd]; [apply Hc; auto|apply H2; auto].
Qed.
Lemma nodup_dedup_length c : List.length (nodup Z.eq_dec c) = List.length (dedup c).
Proof.
  apply Permutation_length, NoDup_Permutation; auto using NoDup_nodup, dedup_NoDup.
  intros x. rewrite nodup_In, dedup_In. reflexivity.
Qed.
Lemma not_complementary_distinct c : NoDup c -> ~ complementary c -> distinct_vars c.
Proof.
  unfold distinct_vars. induction c as [|x c IH]; simpl; intros Hn Hc; [constructor|]. inversion Hn; subst. constructor.
  - intros Hi. apply in_map_iff in Hi as (y & E & Hy). destruct (abs_eq_cases y x E) as [-> | ->]; [auto|].
    destruct (Z.eq_dec x 0) as [-> |Hx]; [auto|]. apply Hc. exists x. split; auto. split; [left; auto|right; auto].
  - apply IH; auto. intros (v & H & H1' & H2'). apply Hc. exists v. split; auto. split; right; auto.
Qed.
Lemma read_clauses_reads F : Forall narrow F -> forall i,
  reads i F (map (fun c => (initial_index c, raw c)) (read_clauses i F)).
Proof.
  unfold read_clauses. induction 1 as [|c F Hc _ IH]; intros i; [constructor|]. cbn [map numbered filter].
  unfold undecided at 1. cbn [cvalue with_index].
  destruct (clause_init_value (dedup c)) as [Ev|[Ev Er]]; rewrite Ev.
  - apply clause_init_taut_sound in Ev; [|apply dedup_NoDup]. apply (proj1 (dedup_complementary c)) in Ev.
    apply reads_taut; auto.
  - cbn [map raw with_index initial_index]. rewrite Er.
    assert (Hnc : ~ complementary c).
    { intros HC. destruct Hc as [Hl|Hd].
      - rewrite clause_init_taut_complete in Ev; [discriminate| | |].
        + apply dedup_NoDup. + rewrite <- nodup_dedup_length; auto. + apply dedup_complementary; auto.
      - destruct HC as (v & Hv & H1 & H2). unfold distinct_vars in Hd.
        assert (Hd' := Hd). clear -Hd Hv H1 H2. induction c as [|x c IH]; [destruct H1|].
        simpl in Hd. inversion Hd; subst. destruct H1 as [-> |H1], H2 as [E|H2].
        + lia.
        + apply H3. replace (Z.abs v) with (Z.abs (- v)) by lia. apply in_map; auto.
        + subst x. apply H3. replace (Z.abs (- v)) with (Z.abs v) by lia. apply in_map; auto.
        + auto. }
    apply reads_clause; auto.
    + intros l. rewrite <- (dedup_In c l).
      split; apply Permutation_in; [|apply Permutation_sym]; apply sort_abs_Perm.
    + apply (distinct_vars_Perm (dedup c)); [apply Permutation_sym, sort_abs_Perm|].
      apply not_complementary_distinct; [apply dedup_NoDup|]. rewrite dedup_complementary. auto.
    + apply sort_abs_sorted.
Qed.

(* ---- the first line of a file ---- *)
Lemma first_line t rest : lacks newline t -> rest = [] \/ (exists u, rest = newline :: u) ->
  hd [] (split_on newline (t ++ rest)) = t.
Proof.
  intros H [-> |[u ->]].
  - rewrite app_nil_r, split_on_lacks; auto.
  - rewrite split_on_app; auto.
Qed.

(* ---- fields ---- *)
Lemma split_on_app2 c p u : split_on c (p ++ c :: u) = split_on c p ++ split_on c u.
Proof.
  induction p as [|x p IH]; simpl.
  - rewrite Ascii.eqb_refl. auto.
  - destruct (Ascii.eqb x c); [rewrite IH; auto|]. rewrite IH.
    destruct (split_on c p) as [|q qs] eqn:E; auto. exfalso. destruct p; simpl in E; [discriminate|].
    destruct (Ascii.eqb a c); [discriminate|]. destruct (split_on c p); discriminate.
Qed.
Lemma split_on_In c pre f post : lacks c f ->
  (pre = [] \/ exists p, pre = p ++ [c]) -> (post = [] \/ exists p, post = c :: p) ->
  In f (split_on c (pre ++ f ++ post)).
Proof.
  intros Hf Hpre Hpost. assert (K : In f (split_on c (f ++ post))).
  { destruct Hpost as [-> |[p ->]]; [rewrite app_nil_r, split_on_lacks by auto; left; auto|].
    rewrite split_on_app by auto. left; auto. }
  destruct Hpre as [-> |[p ->]]; auto. rewrite <- app_assoc. simpl. rewrite split_on_app2.
  apply in_or_app; auto.
Qed.
Lemma mapO_None {A B} (f : A -> option B) l x : In x l -> f x = None -> mapO f l = None.
Proof.
  induction l as [|y l IH]; intros H Hf; [destruct H|]. simpl. destruct H as [-> |H].
  - rewrite Hf. auto.
  - rewrite IH; auto. destruct (f y); auto.
Qed.
Lemma lacks_nil c : lacks c []. Proof. intros []. Qed.
Lemma cut_last c (t : text) : exists p q, t = p ++ q /\ lacks c q /\ (p = [] \/ exists r, p = r ++ [c]).
Proof.
  induction t as [|x t (p & q & -> & H & Hp)]; [exists [], []; repeat split; auto using lacks_nil|].
  destruct Hp as [-> |[r ->]].
  - destruct (ascii_dec x c) as [-> |Hx].
    + exists [c], q. repeat split; auto. right; exists []; auto.
    + exists [], (x :: q). repeat split; auto. intros [E|Hi]; [congruence|auto].
  - exists (x :: r ++ [c]), q. repeat split; auto. right. exists (x :: r). auto.
Qed.
Lemma cut_first c (t : text) : exists p q, t = p ++ q /\ lacks c p /\ (q = [] \/ exists r, q = c :: r).
Proof.
  induction t as [|x t (p & q & -> & H & Hp)]; [exists [], []; repeat split; auto using lacks_nil|].
  destruct (ascii_dec x c) as [-> |Hx].
  - exists [], (c :: p ++ q). repeat split; auto using lacks_nil. right; eauto.
  - exists (x :: p), q. repeat split; auto. intros [E|Hi]; [congruence|auto].
Qed.
Lemma field_in c d pre f post : c <> d -> lacks c f -> lacks d f ->
  (pre = [] \/ exists p, pre = p ++ [c] \/ pre = p ++ [d]) ->
  (post = [] \/ exists p, post = c :: p \/ post = d :: p) ->
  exists q, In q (split_on c (pre ++ f ++ post)) /\ In f (split_on d q).
Proof.
  intros Hcd H1 H2 Hpre Hpost.
  destruct (cut_last c pre) as (p1 & p2 & -> & Hp2 & Hp1).
  destruct (cut_first c post) as (s1 & s2 & -> & Hs1 & Hs2).
  exists (p2 ++ f ++ s1). split.
  - replace ((p1 ++ p2) ++ f ++ s1 ++ s2) with (p1 ++ (p2 ++ f ++ s1) ++ s2)
      by (rewrite <- !app_assoc; auto).
    apply split_on_In; auto. repeat apply lacks_app; auto.
  - apply split_on_In; auto.
    + destruct Hpre as [E|[p E]]; [left; apply app_eq_nil in E; tauto|].
      destruct p2 as [|z0 p2'] eqn:Ep; [left; auto|]. right. rewrite <- Ep in *.
      destruct (exists_last (l := p2)) as (r & z & Ez); [congruence|]. exists r. rewrite Ez in *.
      destruct E as [E|E]; rewrite app_assoc in E; apply app_inj_tail in E as [_ ->].
      * exfalso. apply Hp2. apply in_or_app; right; left; auto.
      * auto.
    + destruct Hpost as [E|[p E]]; [left; apply app_eq_nil in E; tauto|].
      destruct s1 as [|z s1']; [left; auto|]. right. exists s1'.
      destruct E as [E|E]; inversion E; subst; auto. exfalso; apply Hs1; left; auto.
Qed.

Definition intchar (c : ascii) : Prop := is_digit c = true \/ In c (chars "+-_") \/ is_space c = true.
Lemma digits_val_chars t : forall b acc z, digits_val b acc t = Some z ->
  (forall c, In c t -> is_digit c = true \/ c = "_"%char) /\ (b = false -> exists c, In c t /\ is_digit c = true).
Proof.
  induction t as [|x t IH]; intros b acc z; cbn [digits_val].
  - destruct b; [|discriminate]. intros _. split; [intros c []|discriminate].
  - destruct (digit_val x) as [d|] eqn:Ed.
    + intros H. apply IH in H as [H _]. assert (is_digit x = true) by (unfold is_digit; rewrite Ed; auto).
      split; [intros c [<-|Hc]; auto|]. intros _. exists x. split; [left|]; auto.
    + destruct (Ascii.eqb_spec x "_"%char) as [-> |]; [|discriminate]. destruct b; [|discriminate].
      cbn [andb]. intros H. apply IH in H as [H _]. split; [|discriminate]. intros c [<-|Hc]; auto.
Qed.
Lemma py_int_chars t z : py_int t = Some z ->
  (forall c, In c t -> intchar c) /\ (exists c, In c t /\ is_digit c = true).
Proof.
  intros H. destruct (strip_cut is_space t) as (pre & post & E & H1 & H2). unfold py_int in H.
  rewrite Forall_forall in *. set (u := strip is_space t) in *. clearbody u. subst t.
  assert (K : (forall c, In c u -> intchar c) /\ (exists c, In c u /\ is_digit c = true)).
  { destruct u as [|x u]; [discriminate|].
    destruct (Ascii.eqb_spec x "-"%char) as [-> |].
    { destruct (digits_val false 0 u) eqn:Ed; [|discriminate]. apply digits_val_chars in Ed as [A B]. split.
      - intros c [<-|Hc]; [right; left; simpl; auto|]. destruct (A c Hc) as [D| ->]; [left; auto|right; left; simpl; auto].
      - destruct B as (c & B1 & B2); auto. exists c; split; [right|]; auto. }
    destruct (Ascii.eqb_spec x "+"%char) as [-> |].
    { apply digits_val_chars in H as [A B]. split.
      - intros c [<-|Hc]; [right; left; simpl; auto|]. destruct (A c Hc) as [D| ->]; [left; auto|right; left; simpl; auto].
      - destruct B as (c & B1 & B2); auto. exists c; split; [right|]; auto. }
    apply digits_val_chars in H as [A B]. split; auto.
    intros c Hc. destruct (A c Hc) as [D| ->]; [left; auto|right; left; simpl; auto]. }
  destruct K as [K1 (c & K2 & K3)]. split.
  - intros x Hx. apply in_app_iff in Hx as [Hx|Hx]; [right; right; auto|].
    apply in_app_iff in Hx as [Hx|Hx]; [auto|right; right; auto].
  - exists c. split; auto. apply in_app_iff; right; apply in_app_iff; auto.
Qed.
Lemma is_digit_spec c : is_digit c = true <-> is_digit_char c.
Proof.
  split.
  - intros H. pattern c. apply digit_cases; auto. intros n Hn. exists (N.to_nat n). split; [lia|].
    unfold digit_char, digit, ascii_of_nat. f_equal. lia.
  - intros (d & H & ->). apply digit_is_digit; auto.
Qed.
Lemma is_space_code c : is_space c = true -> In c (map ascii_of_nat [9; 10; 11; 12; 13; 32]%nat).
Proof.
  unfold is_space, code. intros H.
  assert (E : (N_of_ascii c = 32 \/ 9 <= N_of_ascii c <= 13)%N).
  { apply orb_true_iff in H as [H|H]; [apply N.eqb_eq in H; auto|]. apply andb_true_iff in H as [A B].
    apply N.leb_le in A, B. auto. }
  assert (E' : In (N.to_nat (N_of_ascii c)) [9; 10; 11; 12; 13; 32]%nat) by (simpl; lia).
  apply (in_map ascii_of_nat) in E'. unfold ascii_of_nat at 1 in E'. rewrite Nnat.N2Nat.id, ascii_N_embedding in E'. auto.
Qed.
Lemma noparen_In c t : In c (noparen t) <-> In c t /\ c <> "("%char /\ c <> ")"%char.
Proof.
  unfold noparen, remove_char. rewrite !filter_In.
  destruct (Ascii.eqb_spec c "("%char), (Ascii.eqb_spec c ")"%char); simpl; intuition congruence.
Qed.
Lemma malformed_int f : malformed f -> py_int (noparen f) = None.
Proof.
  intros H. destruct (py_int (noparen f)) as [z|] eqn:E; auto. exfalso.
  apply py_int_chars in E as [A (c & B1 & B2)]. destruct H as [H|(x & H1 & H2 & H3 & H4)].
  - apply noparen_In in B1 as [B1 _]. apply (H c B1). apply is_digit_spec; auto.
  - destruct (A x) as [D|[D|D]].
    + apply noparen_In. split; auto. split; intros ->; apply H3; simpl; tauto.
    + apply H2, is_digit_spec; auto.
    + apply H3. simpl in *. tauto.
    + apply H4, is_space_code; auto.
Qed.
Lemma noparen_lacks d t : lacks d t -> lacks d (noparen t).
Proof. intros H. apply remove_char_lacks, remove_char_lacks; auto. Qed.
Lemma malformed_read pre f post : malformed f -> lacks "&"%char f -> lacks "|"%char f ->
  (pre = [] \/ exists p, pre = p ++ ["&"%char] \/ pre = p ++ ["|"%char]) ->
  (post = [] \/ exists p, post = "&"%char :: p \/ post = "|"%char :: p) ->
  set_of_text (pre ++ f ++ post) = empty_set.
Proof.
  intros Hm H1 H2 Hpre Hpost. unfold set_of_text. destruct (pre ++ f ++ post) eqn:E; auto. rewrite <- E. clear E.
  assert (E : parse_clauses (pre ++ f ++ post) = None); [|rewrite E; auto].
  unfold parse_clauses. change (remove_char ")" (remove_char "(" (pre ++ f ++ post))) with (noparen (pre ++ f ++ post)).
  rewrite !noparen_app.
  destruct (field_in "&"%char "|"%char (noparen pre) (noparen f) (noparen post)) as (q & Hq & Hf);
    auto using noparen_lacks; try discriminate.
  - destruct Hpre as [-> |[p [-> | ->]]]; auto; right; exists (noparen p); rewrite noparen_app; auto.
  - destruct Hpost as [-> |[p [-> | ->]]]; auto; right; exists (noparen p); auto.
  - apply (mapO_None _ _ q); auto. unfold parse_clause. rewrite (mapO_None _ _ (noparen f)); auto using malformed_int.
Qed.

(* ---- DIMACS: integers instead of tokens ---- *)
Fixpoint feed (ts : list Z) (cl : list Z) (done : list (list Z)) : result (list Z * list (list Z)) :=
  match ts with
  | [] => Ok (cl, done)
  | z :: t =>
      if z =? 0 then
        match cl with
        | [] => feed t cl done
        | _ => if (3 <? List.length cl)%nat then Err OtherException else feed t [] (done ++ [dedup cl])
        end
      else feed t (cl ++ [z]) done
  end.
Lemma feed_app ts us : forall cl done,
  feed (ts ++ us) cl done = ('(cl', done') <- feed ts cl done ;; feed us cl' done').
Proof.
  induction ts as [|z t IH]; intros cl done; cbn [app feed]; [reflexivity|].
  destruct (z =? 0); auto. destruct cl; auto. destruct (3 <? _)%nat; auto.
Qed.
Lemma dimacs_tokens_app ts us : forall cl done,
  dimacs_tokens (ts ++ us) cl done = ('(cl', done') <- dimacs_tokens ts cl done ;; dimacs_tokens us cl' done').
Proof.
  induction ts as [|w t IH]; intros cl done; cbn [app dimacs_tokens]; [reflexivity|].
  destruct w; auto. destruct (py_int _) as [z|]; auto.
  destruct (z =? 0); auto. destruct cl; auto. destruct (3 <? _)%nat; auto.
Qed.
Lemma tokens_spaces ts cl done : Forall (eq []) ts -> dimacs_tokens ts cl done = Ok (cl, done).
Proof. induction 1 as [|w t <- _ IH]; auto. Qed.
Lemma split_spaces t : Forall (eq " "%char) t -> Forall (eq []) (split_on " "%char t).
Proof. induction 1 as [|c t <- _ IH]; simpl; auto. Qed.
Lemma tokens_pad pre t post cl done : Forall (eq " "%char) pre -> Forall (eq " "%char) post ->
  dimacs_tokens (split_on " "%char (pre ++ t ++ post)) cl done = dimacs_tokens (split_on " "%char t) cl done.
Proof.
  intros H1 H2. assert (K : dimacs_tokens (split_on " "%char (t ++ post)) cl done = dimacs_tokens (split_on " "%char t) cl done).
  { destruct H2 as [|c post <- H2]; [rewrite app_nil_r; auto|]. rewrite split_on_app2, dimacs_tokens_app.
    destruct (dimacs_tokens (split_on " " t) cl done) as [[cl' done']| |]; auto. cbn [bind].
    apply tokens_spaces, split_spaces; auto. }
  rewrite <- K. clear K. induction H1 as [|c pre <- _ IH]; auto.
Qed.
Lemma numeral_lacks_space z n : numeral z n -> lacks " "%char n.
Proof. intros H Hi. apply numeral_chars in H as [_ H]. rewrite Forall_forall in H. apply H in Hi. discriminate. Qed.
Lemma token_numeral z n cl done : numeral z n -> dimacs_tokens [n] cl done = feed [z] cl done.
Proof.
  intros H. destruct (numeral_chars _ _ H) as [Hn _]. pose proof (py_int_numeral z n [] [] H) as E.
  rewrite app_nil_r in E. cbn [dimacs_tokens feed]. destruct n as [|c n]; [congruence|].
  change (([] : list ascii) ++ c :: n) with (c :: n) in E. rewrite E by constructor. auto.
Qed.
Lemma tokens_spaced ts l cl done : spaced ts l -> dimacs_tokens (split_on " "%char l) cl done = feed ts cl done.
Proof.
  intros H. revert cl done. induction H as [t H|pre z n H1 H2|pre z n zs u H1 H2 H3 IH]; intros cl done.
  - apply tokens_spaces, split_spaces; auto.
  - rewrite <- (app_nil_r n) at 1. rewrite tokens_pad by auto. rewrite split_on_lacks by (eapply numeral_lacks_space; eauto).
    apply token_numeral; auto.
  - rewrite app_assoc, split_on_app2, dimacs_tokens_app. rewrite <- (app_nil_r n) at 1. rewrite tokens_pad by auto.
    rewrite split_on_lacks by (eapply numeral_lacks_space; eauto). rewrite (token_numeral z) by auto.
    change (z :: zs) with ([z] ++ zs). rewrite feed_app.
    destruct (feed [z] cl done) as [[cl' done']| |]; auto. cbn [bind]. apply IH.
Qed.
Lemma spaced_chars ts l : spaced ts l -> forall c, In c l -> c = " "%char \/ signchar c = true.
Proof.
  induction 1 as [t H|pre z n H1 H2|pre z n zs u H1 H2 H3 IH]; intros c Hc.
  - rewrite Forall_forall in H. left. symmetry; auto.
  - apply numeral_chars in H2 as [_ H2]. rewrite Forall_forall in *. apply in_app_iff in Hc as [Hc|Hc]; auto.
    left; symmetry; auto.
  - apply numeral_chars in H2 as [_ H2]. rewrite Forall_forall in *. apply in_app_iff in Hc as [Hc|Hc].
    + left; symmetry; auto.
    + apply in_app_iff in Hc as [Hc|[<-|Hc]]; auto.
Qed.
Lemma spaced_has ts l : spaced ts l -> ts <> [] -> exists c, In c l /\ signchar c = true.
Proof.
  intros H Hn. assert (K : exists z n, numeral z n /\ incl n l).
  { destruct H as [t H|pre z n H1 H2|pre z n zs u H1 H2 H3]; [congruence| |]; exists z, n; split; auto;
      intros c Hc; apply in_app_iff; right; auto. apply in_app_iff; auto. }
  destruct K as (z & n & Hz & Hi). apply numeral_chars in Hz as [H1 H2]. destruct n as [|c n]; [congruence|].
  exists c. split; [apply Hi; left; auto|inversion H2; auto].
Qed.
Lemma uspace_space c : is_uspace c = true -> c = " "%char \/ signchar c = true -> c = " "%char.
Proof. intros H [E|E]; auto. apply signchar_nospace in E as [_ E]. congruence. Qed.
Lemma spaced_line ts l cl done : spaced ts l -> ts <> [] ->
  exists x t, strip is_uspace l = x :: t /\ x <> "c"%char /\ x <> "p"%char /\
    dimacs_tokens (split_on " "%char (x :: t)) cl done = feed ts cl done.
Proof.
  intros H Hn. pose proof (spaced_chars _ _ H) as Hc. destruct (spaced_has _ _ H Hn) as (y & Hy & Hs).
  destruct (strip_cut is_uspace l) as (pre & post & E & H1 & H2).
  assert (K : forall q, Forall (fun c => is_uspace c = true) q -> incl q l -> Forall (eq " "%char) q).
  { intros q Hq Hi. rewrite Forall_forall in *. intros c Hcq. symmetry. apply uspace_space; auto. }
  assert (E' := tokens_spaced ts l cl done H).
  assert (I1 : incl pre l). { rewrite E. intros c Hcc. apply in_app_iff; auto. }
  assert (I2 : incl (strip is_uspace l) l).
  { rewrite E at 2. intros c Hcc. apply in_app_iff; right. apply in_app_iff; auto. }
  assert (I3 : incl post l). { rewrite E. intros c Hcc. apply in_app_iff; right. apply in_app_iff; auto. }
  rewrite E, tokens_pad in E' by auto.
  assert (Hy' : In y (strip is_uspace l)).
  { rewrite E in Hy. rewrite Forall_forall in H1, H2. apply in_app_iff in Hy as [Hy|Hy].
    - apply H1 in Hy. apply signchar_nospace in Hs as [_ Hs]. congruence.
    - apply in_app_iff in Hy as [Hy|Hy]; auto. apply H2 in Hy. apply signchar_nospace in Hs as [_ Hs]. congruence. }
  destruct (strip is_uspace l) as [|x t] eqn:Es; [destruct Hy'|]. exists x, t. split; auto.
  assert (Hx : x = " "%char \/ signchar x = true) by (apply Hc, I2; left; auto).
  split; [|split; auto]; intros ->; destruct Hx as [Hx|Hx]; discriminate Hx.
Qed.
Lemma blank_uspace t : blanks t -> Forall (fun c => is_uspace c = true) t.
Proof. apply Forall_impl. intros c [-> | ->]; reflexivity. Qed.
Lemma strip_first sp pre x t : Forall (fun c => sp c = true) pre -> sp x = false ->
  exists u, strip sp (pre ++ x :: t) = x :: u.
Proof.
  intros H Hx. destruct (strip_cut sp (x :: t)) as (p & q & E & Hp & Hq).
  exists (tl (strip sp (x :: t))). unfold strip. rewrite lstrip_app by auto.
  change (rev (lstrip sp (rev (lstrip sp (x :: t))))) with (strip sp (x :: t)).
  destruct p as [|y p].
  - destruct (strip sp (x :: t)) as [|y u] eqn:Es; simpl in *; [|congruence].
    subst q. inversion Hq; congruence.
  - inversion E. subst y. inversion Hp; congruence.
Qed.
Lemma comment_skipped l ls cl done : comment_line l -> dimacs_lines (l :: ls) cl done = dimacs_lines ls cl done.
Proof.
  intros (pre & t & -> & Hp). cbn [dimacs_lines].
  destruct (strip_first is_uspace pre "c"%char t) as [u ->]; [apply blank_uspace; auto|reflexivity|]. auto.
Qed.

Lemma word_nouspace w : word w -> Forall (fun c => is_uspace c = false) w.
Proof.
  intros [_ H]. apply Forall_forall. intros c Hc. apply H in Hc. unfold nat_of_ascii in Hc.
  unfold is_uspace, is_space, code.
  destruct (N.eqb_spec (N_of_ascii c) 32); [lia|]. destruct (N.leb_spec 9 (N_of_ascii c)); [|lia].
  destruct (N.leb_spec (N_of_ascii c) 13); [lia|]. destruct (N.leb_spec 28 (N_of_ascii c)); [|lia].
  destruct (N.leb_spec (N_of_ascii c) 31); [lia|]. auto.
Qed.
Lemma split_ws_word w : Forall (fun c => is_uspace c = false) w -> forall cur t,
  split_ws_acc cur (w ++ t) = split_ws_acc (rev w ++ cur) t.
Proof.
  induction 1 as [|c w H _ IH]; intros cur t; auto. cbn [app split_ws_acc rev]. rewrite H, IH, <- app_assoc. auto.
Qed.
Lemma split_ws_gap g t : Forall (fun c => is_uspace c = true) g -> split_ws_acc [] (g ++ t) = split_ws_acc [] t.
Proof. induction 1 as [|c g H _ IH]; auto. cbn [app split_ws_acc]. rewrite H. auto. Qed.
Lemma split_ws_word_gap w g t : word w -> gap g -> split_ws_acc [] (w ++ g ++ t) = w :: split_ws_acc [] t.
Proof.
  intros Hw [Hg1 Hg2]. rewrite split_ws_word by (apply word_nouspace; auto). apply blank_uspace in Hg2.
  rewrite app_nil_r. destruct g as [|c g]; [congruence|]. inversion Hg2; subst. cbn [app split_ws_acc]. rewrite H1.
  destruct (rev w) as [|y r] eqn:E.
  - destruct Hw as [Hw _]. apply (f_equal (@rev _)) in E. rewrite rev_involutive in E. simpl in E. congruence.
  - rewrite <- E, rev_involutive. f_equal. apply split_ws_gap; auto.
Qed.
Lemma split_ws_last w : word w -> split_ws_acc [] w = [w].
Proof.
  intros Hw. rewrite <- (app_nil_r w) at 1. rewrite split_ws_word by (apply word_nouspace; auto).
  rewrite app_nil_r. cbn [split_ws_acc]. destruct (rev w) as [|y r] eqn:E.
  - destruct Hw as [Hw _]. apply (f_equal (@rev _)) in E. rewrite rev_involutive in E. simpl in E. congruence.
  - rewrite <- E, rev_involutive. auto.
Qed.
Lemma strip_words sp pre a mid b post : Forall (fun c => sp c = true) pre -> Forall (fun c => sp c = true) post ->
  a <> [] -> b <> [] -> Forall (fun c => sp c = false) a -> Forall (fun c => sp c = false) b ->
  strip sp (pre ++ (a ++ mid ++ b) ++ post) = a ++ mid ++ b.
Proof.
  intros H1 H2 Ha Hb Fa Fb. unfold strip. rewrite lstrip_app by auto.
  destruct a as [|x a]; [congruence|]. inversion Fa; subst.
  rewrite (lstrip_id sp (((x :: a) ++ mid ++ b) ++ post)) by (simpl; auto).
  rewrite rev_app_distr, lstrip_app by (apply Forall_rev; auto).
  rewrite lstrip_id, rev_involutive; auto.
  rewrite app_assoc, rev_app_distr. destruct (rev b) as [|y r] eqn:E.
  - apply (f_equal (@rev _)) in E. rewrite rev_involutive in E. simpl in E. congruence.
  - simpl. assert (Hy : In y b) by (apply in_rev; rewrite E; left; auto). rewrite Forall_forall in Fb; auto.
Qed.
Lemma problem_skipped l ls cl done : problem_line l -> dimacs_lines (l :: ls) cl done = dimacs_lines ls cl done.
Proof.
  intros (pre & w & s1 & w2 & s2 & w3 & s3 & w4 & post & -> & Hp & Hq & W1 & W2 & W3 & W4 & G1 & G2 & G3).
  cbn [dimacs_lines].
  replace (pre ++ ("p"%char :: w) ++ s1 ++ w2 ++ s2 ++ w3 ++ s3 ++ w4 ++ post)
    with (pre ++ (("p"%char :: w) ++ (s1 ++ w2 ++ s2 ++ w3 ++ s3) ++ w4) ++ post)
    by (rewrite <- !app_assoc; auto).
  rewrite strip_words; auto using blank_uspace, word_nouspace; try apply W1; try apply W4.
  cbn [app]. cbn [starts_with txt list_ascii_of_string Ascii.eqb Bool.eqb andb].
  unfold split_ws. rewrite <- !app_assoc. rewrite app_comm_cons.
  rewrite (split_ws_word_gap ("p"%char :: w)), split_ws_word_gap, split_ws_word_gap, split_ws_last; auto.
Qed.

(* ---- whole bodies ---- *)
Lemma body_read toks ls : dimacs_body toks ls -> forall rest cl done,
  dimacs_lines (ls ++ rest) cl done = ('(cl', done') <- feed toks cl done ;; dimacs_lines rest cl' done').
Proof.
  induction 1 as [|toks l ls H1 _ IH|toks l ls H1 _ IH|ts toks l ls Hn H1 _ IH]; intros rest cl done.
  - reflexivity.
  - cbn [app]. rewrite comment_skipped by auto. apply IH.
  - cbn [app]. rewrite problem_skipped by auto. apply IH.
  - cbn [app]. rewrite feed_app. cbn [dimacs_lines].
    destruct (spaced_line ts l cl done H1 Hn) as (x & t & E & Hc & Hp & K). rewrite E.
    cbn [starts_with txt list_ascii_of_string].
    destruct (Ascii.eqb_spec "c"%char x); [congruence|]. destruct (Ascii.eqb_spec "p"%char x); [congruence|].
    cbn [andb]. rewrite K. destruct (feed ts cl done) as [[cl' done']| |]; auto. cbn [bind]. apply IH.
Qed.
Lemma strip_blank t : blanks t -> strip is_uspace t = [].
Proof.
  intros H. apply blank_uspace in H. unfold strip. rewrite <- (app_nil_r t), lstrip_app by auto. auto.
Qed.
Lemma rest_ignored rest cl done : ignored_rest rest -> dimacs_lines rest cl done = Ok (cl, done).
Proof.
  intros [-> |(b & t & -> & Hb)]; auto. cbn [dimacs_lines]. rewrite strip_blank; auto.
Qed.
Lemma feed_literals c : ~ In 0 c -> forall cl done, feed c cl done = Ok (cl ++ c, done).
Proof.
  induction c as [|z c IH]; intros H cl done; cbn [feed]; [rewrite app_nil_r; auto|].
  destruct (Z.eqb_spec z 0); [exfalso; apply H; left; auto|]. rewrite IH, <- app_assoc; auto.
  intros Hi; apply H; right; auto.
Qed.
Definition ne_clause (c : list Z) : bool := match c with [] => false | _ => true end.
Lemma feed_formula F : (forall c, In c F -> ~ In 0 c /\ (List.length c <= 3)%nat) -> forall done,
  feed (terminated F) [] done = Ok ([], done ++ map dedup (filter ne_clause F)).
Proof.
  unfold terminated. induction F as [|c F IH]; intros H done; cbn [map concat feed filter]; [rewrite app_nil_r; auto|].
  destruct (H c) as [H0 Hl]; [left; auto|]. rewrite <- app_assoc, feed_app, feed_literals by auto. cbn [app bind feed Z.eqb].
  destruct c as [|z c].
  - cbn [app ne_clause]. apply IH. intros d Hd; apply H; right; auto.
  - cbn [ne_clause]. change ([] ++ z :: c) with (z :: c).
    destruct (Nat.ltb_spec 3 (List.length (z :: c))); [lia|].
    rewrite IH by (intros d Hd; apply H; right; auto). cbn [map]. rewrite <- app_assoc. auto.
Qed.
Lemma file_lines ls : ls <> [] -> Forall one_line ls -> split_on newline (file_of ls) = ls.
Proof. intros H H1. apply split_on_separated; auto. Qed.
(* the reader on a file given by its lines *)
Lemma read_file h ls : Forall one_line (h :: ls) ->
  get_cnf_set (InDimacs (file_of (h :: ls))) =
  ('(cl, done) <- dimacs_lines ls [] [] ;;
   Ok (add_numbered empty_set 1 (match cl with [] => done | _ => done ++ [dedup cl] end))).
Proof.
  intros H. cbn [get_cnf_set]. unfold parse_dimacs. rewrite file_lines by (auto; discriminate). auto.
Qed.
Lemma read_body h ls rest toks : Forall one_line (h :: ls ++ rest) -> dimacs_body toks ls -> ignored_rest rest ->
  get_cnf_set (InDimacs (file_of (h :: ls ++ rest))) =
  ('(cl, done) <- feed toks [] [] ;;
   Ok (add_numbered empty_set 1 (match cl with [] => done | _ => done ++ [dedup cl] end))).
Proof.
  intros H Hb Hr. rewrite read_file by auto. rewrite (body_read toks) by auto.
  destruct (feed toks [] []) as [[cl done]| |]; auto. cbn [bind]. rewrite rest_ignored; auto.
Qed.

(* every state reached by the tokens of any line *)
Lemma dimacs_tokens_narrow toks : forall cl done cl' done', dimacs_tokens toks cl done = Ok (cl', done') ->
  Forall (fun c => (List.length c <= 3)%nat) done -> Forall (fun c => (List.length c <= 3)%nat) done'.
Proof.
  induction toks as [|w t IH]; intros cl done cl' done'; cbn [dimacs_tokens]; [congruence|].
  destruct w; eauto. destruct (py_int _) as [z|]; [|discriminate]. destruct (z =? 0); eauto.
  destruct cl as [|x cl]; eauto. destruct (Nat.ltb_spec 3 (List.length (x :: cl))); [discriminate|].
  intros E Hd. eapply IH; eauto. apply Forall_app; split; auto. constructor; auto.
  pose proof (dedup_length_le (x :: cl)). lia.
Qed.
Lemma dimacs_lines_narrow ls : forall cl done cl' done', dimacs_lines ls cl done = Ok (cl', done') ->
  Forall (fun c => (List.length c <= 3)%nat) done -> Forall (fun c => (List.length c <= 3)%nat) done'.
Proof.
  induction ls as [|l ls IH]; intros cl done cl' done'; cbn [dimacs_lines]; [congruence|].
  destruct (strip is_uspace l) as [|x t]; [congruence|]. destruct (starts_with (txt "c") _); eauto.
  destruct (starts_with (txt "p") _).
  - destruct (split_ws (x :: t)) as [|? [|? [|? [|? [|]]]]]; try discriminate; eauto.
  - intros E Hd. apply bind_ok in E as ([cl1 done1] & E1 & E). eapply IH; eauto. eapply dimacs_tokens_narrow; eauto.
Qed.

Lemma after_blank ls b rest : blanks b -> forall cl done,
  dimacs_lines (ls ++ b :: rest) cl done = dimacs_lines ls cl done.
Proof.
  intros Hb. induction ls as [|l ls IH]; intros cl done; cbn [app dimacs_lines].
  - rewrite strip_blank; auto.
  - destruct (strip is_uspace l) as [|x t]; auto. destruct (starts_with (txt "c") _); auto.
    destruct (starts_with (txt "p") _).
    + destruct (split_ws (x :: t)) as [|? [|? [|? [|? [|]]]]]; auto.
    + destruct (dimacs_tokens _ cl done) as [[cl1 done1]| |]; auto. cbn [bind]. auto.
Qed.
Lemma feed_err ts : forall cl done e, feed ts cl done = Err e -> e = OtherException.
Proof.
  induction ts as [|z t IH]; intros cl done e; cbn [feed]; [discriminate|].
  destruct (z =? 0); eauto. destruct cl; eauto. destruct (3 <? _)%nat; eauto. congruence.
Qed.
Lemma feed_total ts : forall cl done, feed ts cl done <> OutOfFuel.
Proof.
  induction ts as [|z t IH]; intros cl done; cbn [feed]; [discriminate|].
  destruct (z =? 0); auto. destruct cl; auto. destruct (3 <? _)%nat; auto. congruence.
Qed.
Lemma feed_wide pre c post : (pre = [] \/ exists p, pre = p ++ [0]) -> ~ In 0 c -> (3 < List.length c)%nat ->
  feed (pre ++ c ++ 0 :: post) [] [] = Err OtherException.
Proof.
  intros Hp Hc Hl.
  assert (W : forall done, feed (c ++ 0 :: post) [] done = Err OtherException).
  { intros done. rewrite feed_app, feed_literals by auto. cbn [bind app feed Z.eqb].
    destruct c as [|z c]; [simpl in Hl; lia|]. destruct (Nat.ltb_spec 3 (List.length (z :: c))); [auto|lia]. }
  destruct Hp as [-> |[p ->]]; [apply W|].
  rewrite <- app_assoc, feed_app. destruct (feed p [] []) as [[cl done]|e|] eqn:E; cbn [bind].
  - cbn [app feed Z.eqb]. destruct cl as [|x cl]; [apply W|]. destruct (3 <? _)%nat; [auto|apply W].
  - rewrite (feed_err _ _ _ _ E). auto.
  - destruct (feed_total _ _ _ E).
Qed.
Lemma add_numbered_read_any F : clauses (add_numbered empty_set 1 (map dedup F)) = read_clauses 1 F.
Proof.
  destruct F as [|c F]; [reflexivity|]. rewrite add_numbered_read by discriminate. auto.
Qed.
Lemma read_clauses_incl F : forall i c, In c (read_clauses i F) -> exists d, In d F /\ raw c = sort_abs (dedup d) /\ cvalue c = None.
Proof.
  unfold read_clauses. induction F as [|d F IH]; intros i c; cbn [map numbered filter]; [intros []|].
  unfold undecided at 1. cbn [cvalue with_index]. destruct (clause_init_value (dedup d)) as [Ev|[Ev Er]]; rewrite Ev.
  - intros H. apply IH in H as (x & Hx & E). exists x. split; [right|]; auto.
  - intros [<-|H].
    + exists d. split; [left; auto|]. auto.
    + apply IH in H as (x & Hx & E). exists x. split; [right|]; auto.
Qed.
Lemma read_clauses_app F G : forall i, read_clauses i (F ++ G) = read_clauses i F ++ read_clauses (i + Z.of_nat (List.length F)) G.
Proof.
  unfold read_clauses. induction F as [|d F IH]; intros i; cbn [map numbered filter app].
  - simpl. rewrite Z.add_0_r. auto.
  - rewrite IH. replace (i + 1 + Z.of_nat (List.length F)) with (i + Z.of_nat (List.length (d :: F))) by (simpl List.length; lia).
    destruct (undecided _); auto.
Qed.
