(* PText.v -- decimal numbers, split/join, printing and parsing of sets, node properties. *)
From Coq Require Import String Ascii ZArith List Bool Lia Permutation Sorted.
From Verif Require Import Spec PyBase MSet MText MQueue MDb MSolver SpecRun PLib PClause PRename PLo PNorm PEval.
Import ListNotations.
Open Scope Z_scope.

(* ---- characters ---- *)
Definition is_digit (c : ascii) : bool := match digit_val c with Some _ => true | None => false end.
Lemma digit_char_val n : (n < 10)%N -> digit_val (digit_char n) = Some (Z.of_N n).
Proof.
  intros H. unfold digit_val, digit_char, code. rewrite N_ascii_embedding by lia.
  destruct (N.leb_spec 48 (48 + n)); [|lia]. destruct (N.leb_spec (48 + n) 57); [|lia]. cbn [andb].
  f_equal. lia.
Qed.
Lemma digit_cases (c : ascii) (P : ascii -> Prop) :
  (forall n, (n < 10)%N -> P (digit_char n)) -> is_digit c = true -> P c.
Proof.
  intros H. unfold is_digit, digit_val. destruct (_ && _) eqn:E; [|discriminate]. intros _.
  apply andb_true_iff in E as [E1 E2]. apply N.leb_le in E1, E2.
  specialize (H (code c - 48)%N ltac:(lia)). unfold digit_char in H.
  replace (48 + (code c - 48))%N with (code c) in H by lia. unfold code in H.
  rewrite ascii_N_embedding in H. auto.
Qed.
Definition numchar (c : ascii) : bool := is_digit c || Ascii.eqb c "-"%char.

Lemma digit_bound c : is_digit c = true -> (48 <= code c <= 57)%N.
Proof.
  unfold is_digit, digit_val. destruct (_ && _) eqn:E; [|discriminate]. intros _.
  apply andb_true_iff in E as [E1 E2]. apply N.leb_le in E1, E2. lia.
Qed.
Lemma numchar_bound c : numchar c = true -> (48 <= code c <= 57)%N \/ code c = 45%N.
Proof.
  unfold numchar. intros H. apply orb_true_iff in H as [H|H]; [left; apply digit_bound; auto|].
  apply Ascii.eqb_eq in H; subst; auto.
Qed.
Lemma numchar_neq c d : numchar c = true -> (code d < 45 \/ 45 < code d < 48 \/ 57 < code d)%N -> c <> d.
Proof. intros H Hd ->. apply numchar_bound in H. lia. Qed.
Lemma digit_neq c d : is_digit c = true -> (code d < 48 \/ 57 < code d)%N -> c <> d.
Proof. intros H Hd ->. apply digit_bound in H. lia. Qed.
Lemma numchar_nospace c : numchar c = true -> is_space c = false.
Proof.
  intros H. apply numchar_bound in H. unfold is_space.
  destruct (N.eqb_spec (code c) 32); [lia|]. destruct (N.leb_spec 9 (code c)); [|lia].
  destruct (N.leb_spec (code c) 13); [lia|]. auto.
Qed.

(* ---- decimal printing ---- *)
Lemma digits_fuel_digits f n acc : Forall (fun c => is_digit c = true) acc ->
  Forall (fun c => is_digit c = true) (digits_fuel f n acc).
Proof.
  revert n acc; induction f as [|f IH]; cbn [digits_fuel]; intros n acc H; auto.
  assert (H1 : Forall (fun c => is_digit c = true) (digit_char (n mod 10) :: acc)).
  { constructor; auto. unfold is_digit. rewrite digit_char_val; auto. apply N.mod_lt; lia. }
  destruct (n / 10 =? 0)%N; auto.
Qed.
Lemma digits_N_digits n : Forall (fun c => is_digit c = true) (digits_N n).
Proof. apply digits_fuel_digits; constructor. Qed.
Lemma digits_fuel_ne f n acc : acc <> [] \/ (0 < f)%nat -> digits_fuel f n acc <> [].
Proof.
  revert n acc; induction f as [|f IH]; cbn [digits_fuel]; intros n acc H.
  - destruct H; [auto | lia].
  - destruct (n / 10 =? 0)%N; [discriminate|]. apply IH. left; discriminate.
Qed.
Lemma digits_N_ne n : digits_N n <> [].
Proof. apply digits_fuel_ne. right. lia. Qed.
Lemma size_nat_div10 n : n <> 0%N -> (N.size_nat (n / 10) < N.size_nat n)%nat.
Proof.
  intros Hn.
  assert (Hs : forall m, N.to_nat (N.size m) = N.size_nat m).
  { intros [|p]; auto. simpl. induction p; simpl; rewrite ?Pos2Nat.inj_succ; auto. }
  rewrite <- !Hs. assert (N.size (n / 10) < N.size n)%N; [|lia].
  destruct (N.eq_dec (n / 10) 0) as [->|H0].
  - destruct n; simpl; lia.
  - rewrite !N.size_log2 by auto. rewrite <- N.succ_lt_mono.
    assert (Hle : (2 * (n / 10) <= n)%N).
    { assert (Hm : (10 * (n / 10) <= n)%N) by (apply N.mul_div_le; discriminate). lia. }
    apply N.log2_le_mono in Hle. rewrite N.log2_double in Hle by (apply N.neq_0_lt_0; auto).
    apply N.le_succ_l; exact Hle.
Qed.
Lemma digits_val_fuel f n acc b : (N.size_nat n < f)%nat ->
  digits_val b 0 (digits_fuel f n acc) = digits_val true (Z.of_N n) acc.
Proof.
  revert n acc b; induction f as [|f IH]; intros n acc b Hf; [lia|]. cbn [digits_fuel].
  assert (Hd : digit_val (digit_char (n mod 10)) = Some (Z.of_N (n mod 10)))
    by (apply digit_char_val, N.mod_lt; lia).
  destruct (N.eqb_spec (n / 10) 0) as [E|E].
  - cbn [digits_val]. rewrite Hd. f_equal.
    rewrite (N.div_mod n 10) at 2 by lia. rewrite E. lia.
  - rewrite IH.
    + cbn [digits_val]. rewrite Hd. f_equal. rewrite (N.div_mod n 10) at 3 by lia. lia.
    + assert (n <> 0%N) by (intros ->; apply E; reflexivity).
      pose proof (size_nat_div10 n H). lia.
Qed.
Lemma digits_N_val n b : digits_val b 0 (digits_N n) = Some (Z.of_N n).
Proof. unfold digits_N. rewrite digits_val_fuel by lia. reflexivity. Qed.

Lemma str_Z_numchar z : Forall (fun c => numchar c = true) (str_Z z).
Proof.
  assert (H : forall n, Forall (fun c => numchar c = true) (digits_N n)).
  { intros n. eapply Forall_impl; [|apply digits_N_digits]. intros c Hc. unfold numchar; rewrite Hc; auto. }
  unfold str_Z. destruct (z <? 0); auto.
Qed.
Lemma str_Z_ne z : str_Z z <> [].
Proof. unfold str_Z. destruct (z <? 0); [discriminate | apply digits_N_ne]. Qed.
Lemma str_Z_digits z : 0 <= z -> Forall (fun c => is_digit c = true) (str_Z z).
Proof. intros H. unfold str_Z. destruct (Z.ltb_spec z 0); [lia | apply digits_N_digits]. Qed.

Lemma lstrip_id sp t : match t with [] => True | c :: _ => sp c = false end -> lstrip sp t = t.
Proof. destruct t; simpl; auto. intros ->; auto. Qed.
Lemma strip_id sp t : Forall (fun c => sp c = false) t -> strip sp t = t.
Proof.
  intros H. unfold strip. rewrite (lstrip_id sp t) by (destruct H; auto).
  rewrite lstrip_id, rev_involutive; auto. apply Forall_rev in H. destruct H; auto.
Qed.
Lemma py_int_core t : Forall (fun c => is_space c = false) t ->
  py_int t = match t with
             | [] => None
             | c :: t' => if Ascii.eqb c "-"%char then option_map Z.opp (digits_val false 0 t')
                          else if Ascii.eqb c "+"%char then digits_val false 0 t'
                          else digits_val false 0 (c :: t') end.
Proof. intros H. unfold py_int. rewrite strip_id by auto. reflexivity. Qed.
Lemma py_int_str z : py_int (str_Z z) = Some z.
Proof.
  rewrite py_int_core.
  2: { eapply Forall_impl; [|apply str_Z_numchar]. intros; apply numchar_nospace; auto. }
  unfold str_Z. destruct (Z.ltb_spec z 0).
  - rewrite Ascii.eqb_refl,  digits_N_val. simpl. f_equal. lia.
  - destruct (digits_N (Z.to_N z)) as [|c t] eqn:E; [exfalso; apply (digits_N_ne (Z.to_N z)); auto|].
    assert (Hc : is_digit c = true).
    { pose proof (digits_N_digits (Z.to_N z)) as H2. rewrite E in H2. inv H2; auto. }
    destruct (Ascii.eqb_spec c "-"%char); [apply digit_neq with (d := "-"%char) in Hc; [tauto | left; reflexivity]|].
    destruct (Ascii.eqb_spec c "+"%char); [apply digit_neq with (d := "+"%char) in Hc; [tauto | left; reflexivity]|].
    rewrite <- E, digits_N_val. f_equal; lia.
Qed.
(* with one leading blank, as written by str(dict) and str(list) *)
Lemma py_int_blank_str z : py_int (" "%char :: str_Z z) = Some z.
Proof.
  rewrite <- (py_int_str z). unfold py_int, strip. cbn [lstrip is_space].
  replace (is_space " "%char) with true by reflexivity. reflexivity.
Qed.
Lemma str_Z_inj x y : str_Z x = str_Z y -> x = y.
Proof. intros H. pose proof (py_int_str x) as Hx. rewrite H, py_int_str in Hx. congruence. Qed.

(* ---- split and join ---- *)
Definition lacks (c : ascii) (t : text) : Prop := ~ In c t.
Lemma split_on_lacks c t : lacks c t -> split_on c t = [t].
Proof.
  unfold lacks. induction t as [|x t IH]; simpl; auto. intros H.
  destruct (Ascii.eqb_spec x c); [subst; tauto|]. rewrite IH by tauto. auto.
Qed.
Lemma split_on_app c t u : lacks c t -> split_on c (t ++ c :: u) = t :: split_on c u.
Proof.
  unfold lacks. induction t as [|x t IH]; simpl; intros H.
  - rewrite Ascii.eqb_refl; auto.
  - destruct (Ascii.eqb_spec x c); [subst; tauto|]. rewrite IH by tauto. auto.
Qed.
Lemma split_on_join c ps : ps <> [] -> Forall (lacks c) ps -> split_on c (join [c] ps) = ps.
Proof.
  intros Hn H. induction H as [|p ps Hp H IH]; [congruence|]. destruct ps as [|q ps].
  - simpl. apply split_on_lacks; auto.
  - change (join [c] (p :: q :: ps)) with (p ++ [c] ++ join [c] (q :: ps)). cbn [app].
    rewrite split_on_app by auto. rewrite IH by discriminate. auto.
Qed.
Lemma join_In sep ps x : In x (join sep ps) -> In x sep \/ exists p, In p ps /\ In x p.
Proof.
  induction ps as [|p ps IH]; simpl; [tauto|]. destruct ps as [|q ps].
  - intros H; right; exists p; auto.
  - intros H. apply in_app_iff in H as [H|H]; [right; exists p; auto|].
    apply in_app_iff in H as [H|H]; auto. destruct (IH H) as [?|(r & ? & ?)]; auto.
    right; exists r; auto.
Qed.
Lemma join_ne sep p ps : p <> [] -> join sep (p :: ps) <> [].
Proof. destruct p; [congruence|]. intros _. destruct ps; simpl; discriminate. Qed.
Lemma mapO_map {A B C} (f : B -> option C) (g : A -> B) (h : A -> C) l :
  (forall x, In x l -> f (g x) = Some (h x)) -> mapO f (map g l) = Some (map h l).
Proof. induction l as [|x t IH]; simpl; intros H; auto. rewrite H, IH by auto. auto. Qed.
Lemma remove_char_id c t : lacks c t -> remove_char c t = t.
Proof.
  intros H. apply filter_all_id. intros x Hx. destruct (Ascii.eqb_spec x c); [subst; contradiction | auto].
Qed.

(* ---- clause and set texts ---- *)
Lemma str_Z_lacks c z : (code c < 45 \/ 45 < code c < 48 \/ 57 < code c)%N -> lacks c (str_Z z).
Proof.
  intros Hc Hi. pose proof (str_Z_numchar z) as H. rewrite Forall_forall in H. specialize (H c Hi).
  (exact (numchar_neq _ _ ltac:(eassumption) Hc eq_refl)).
Qed.
Lemma clause_text_In r x : In x (clause_text r) -> numchar x = true \/ x = "|"%char.
Proof.
  intros H. apply join_In in H as [H|(p & Hp & H)].
  - simpl in H. destruct H as [<-|[]]; auto.
  - apply in_map_iff in Hp as (z & <- & _). pose proof (str_Z_numchar z) as Hz.
    rewrite Forall_forall in Hz; auto.
Qed.
Lemma clause_text_lacks c r : c <> "|"%char -> (code c < 45 \/ 45 < code c < 48 \/ 57 < code c)%N ->
  lacks c (clause_text r).
Proof.
  intros H1 H2 Hi. apply clause_text_In in Hi as [Hi|Hi]; auto. (exact (numchar_neq _ _ ltac:(eassumption) H2 eq_refl)).
Qed.
Lemma parse_clause_text r : r <> [] -> parse_clause (clause_text r) = Some (dedup r).
Proof.
  intros Hr. unfold parse_clause, clause_text. change (txt "|") with ["|"%char].
  rewrite split_on_join.
  - rewrite (mapO_map _ _ (fun z => z)) by (intros; apply py_int_str). rewrite map_id. auto.
  - destruct r; simpl; congruence.
  - apply Forall_forall. intros p Hp. apply in_map_iff in Hp as (z & <- & _). apply str_Z_lacks.
    right; right; reflexivity.
Qed.

Lemma formula_text_In F x : In x (formula_text F) -> numchar x = true \/ x = "|"%char \/ x = "&"%char.
Proof.
  intros H. apply join_In in H as [H|(p & Hp & H)].
  - simpl in H. destruct H as [<-|[]]; auto.
  - apply in_map_iff in Hp as (r & <- & _). apply clause_text_In in H as [?|?]; auto.
Qed.
Lemma formula_text_lacks c F : c <> "|"%char -> c <> "&"%char ->
  (code c < 45 \/ 45 < code c < 48 \/ 57 < code c)%N -> lacks c (formula_text F).
Proof.
  intros H1 H2 H3 Hi. apply formula_text_In in Hi as [Hi|[Hi|Hi]]; auto. (exact (numchar_neq _ _ ltac:(eassumption) H3 eq_refl)).
Qed.
Lemma filter_nonempty_raw cs : nonempty_clauses (map raw cs) -> filter nonempty_raw cs = cs.
Proof.
  intros H. apply filter_all_id. intros c Hc. unfold nonempty_raw.
  destruct (raw c) eqn:E; auto. exfalso. apply (H []); auto. rewrite <- E. apply in_map; auto.
Qed.
Lemma to_text_eq s : svalue s = None -> clauses s <> [] -> nonempty_clauses (raws s) ->
  to_text s = Ok (formula_text (raws s)).
Proof.
  intros Hv Hc Hn. unfold to_text, formula_text, raws. rewrite Hv.
  destruct (clauses s) as [|c t] eqn:E; [congruence|]. rewrite <- E in *. f_equal. 
  rewrite filter_nonempty_raw by auto. rewrite map_map. auto.
Qed.
Lemma to_pretty_total s : svalue s <> None \/ clauses s <> [] -> exists t, to_pretty s = Ok t.
Proof.
  intros H. unfold to_pretty. destruct (svalue s) as [[]|]; eauto.
  destruct (clauses s); eauto. destruct H; congruence.
Qed.
Lemma clause_text_ne r : r <> [] -> clause_text r <> [].
Proof. destruct r; [congruence|]. intros _. apply join_ne, str_Z_ne. Qed.
Lemma formula_text_ne F : F <> [] -> nonempty_clauses F -> formula_text F <> [].
Proof.
  destruct F as [|c F]; [congruence|]. intros _ H. apply join_ne, clause_text_ne, H; simpl; auto.
Qed.
Lemma parse_formula_text F : F <> [] -> nonempty_clauses F ->
  parse_clauses (formula_text F) = Some (map dedup F).
Proof.
  intros HF Hn. unfold parse_clauses.
  rewrite (remove_char_id "("%char) by (apply formula_text_lacks; try discriminate; left; reflexivity).
  rewrite (remove_char_id ")"%char) by (apply formula_text_lacks; try discriminate; left; reflexivity).
  unfold formula_text. change (txt "&") with ["&"%char]. rewrite split_on_join.
  - apply mapO_map. intros r Hr. apply parse_clause_text; auto.
  - destruct F; simpl; congruence.
  - apply Forall_forall. intros p Hp. apply in_map_iff in Hp as (z & <- & _).
    apply clause_text_lacks; [discriminate | left; reflexivity].
Qed.
Lemma NoDup_of_map {A B} (f : A -> B) l : NoDup (map f l) -> NoDup l.
Proof. apply NoDup_map_inv. Qed.
Lemma map_dedup_id F : (forall c, In c F -> NoDup c) -> map dedup F = F.
Proof. intros H. rewrite <- (map_id F) at 2. apply map_ext_in. intros c Hc. apply dedup_id; auto. Qed.

Lemma mapO_some {A B} (f : A -> option B) l r : mapO f l = Some r -> Forall2 (fun x y => f x = Some y) l r.
Proof.
  revert r; induction l as [|x t IH]; simpl; intros r H; [inv H; constructor|].
  destruct (f x) eqn:E; [|discriminate]. destruct (mapO f t); [|discriminate]. inv H. constructor; auto.
Qed.
(* formulas with the same text are equal, literal by literal (also with repeated literals) *)
Lemma clause_text_inj r r' : r <> [] -> r' <> [] -> clause_text r = clause_text r' -> r = r'.
Proof.
  intros H1 H2 E.
  assert (Hs : forall q, q <> [] -> split_on "|"%char (clause_text q) = map str_Z q).
  { intros q Hq. unfold clause_text. change (txt "|") with ["|"%char]. apply split_on_join.
    - destruct q; simpl; congruence.
    - apply Forall_forall. intros p Hp. apply in_map_iff in Hp as (z & <- & _). apply str_Z_lacks.
      right; right; reflexivity. }
  pose proof (Hs r H1) as A. rewrite E, Hs in A by auto. clear -A.
  revert r' A. induction r as [|x r IH]; intros [|y r'] A; simpl in A; inv A; auto.
  apply str_Z_inj in H0. f_equal; auto.
Qed.
Lemma formula_text_inj F G : F <> [] -> G <> [] -> nonempty_clauses F -> nonempty_clauses G ->
  formula_text F = formula_text G -> F = G.
Proof.
  intros H1 H2 N1 N2 E.
  assert (Hs : forall q, q <> [] -> split_on "&"%char (formula_text q) = map clause_text q).
  { intros q Hq. unfold formula_text. change (txt "&") with ["&"%char]. apply split_on_join.
    - destruct q; simpl; congruence.
    - apply Forall_forall. intros p Hp. apply in_map_iff in Hp as (z & <- & _).
      apply clause_text_lacks; [discriminate | left; reflexivity]. }
  pose proof (Hs F H1) as A. rewrite E, Hs in A by auto. clear -A N1 N2.
  revert G N2 A. induction F as [|x F IH]; intros [|y G] N2 A; simpl in A; inv A; auto.
  f_equal.
  - apply clause_text_inj; auto; [apply N1 | apply N2]; simpl; auto.
  - apply IH; auto; intros c Hc; [apply N1 | apply N2]; simpl; auto.
Qed.
Lemma formula_text_not_const F : F <> [] -> nonempty_clauses F ->
  formula_text F <> txt "T" /\ formula_text F <> txt "F".
Proof.
  intros H1 H2.
  split; intros E; [assert (Hi : In "T"%char (formula_text F)) by (rewrite E; simpl; auto)
                   |assert (Hi : In "F"%char (formula_text F)) by (rewrite E; simpl; auto)];
    apply formula_text_In in Hi as [Hi|[Hi|Hi]]; discriminate.
Qed.

Lemma add_numbered_fold cls : forall s i, add_numbered s i cls = fold_left add_clause (numbered i cls) s.
Proof. induction cls as [|c t IH]; simpl; intros s i; auto. Qed.
Lemma plain_raw i cls : map raw (plain i cls) = cls.
Proof. revert i; induction cls; simpl; intros; f_equal; auto. Qed.
Lemma numbered_distinct cls : forall i, (forall c, In c cls -> distinct_vars c) ->
  numbered i cls = plain i (map sort_abs cls).
Proof.
  induction cls as [|c t IH]; simpl; intros i H; auto. rewrite IH by auto.
  rewrite clause_init_distinct by auto. reflexivity.
Qed.
Lemma plain_undecided i cls : filter undecided (plain i cls) = plain i cls.
Proof. revert i; induction cls; simpl; intros; f_equal; auto. Qed.
Lemma plain_value i cls c : In c (plain i cls) -> cvalue c = None.
Proof. revert i; induction cls; simpl; intros i H; [tauto|]. destruct H as [<-|H]; eauto. Qed.

Lemma add_numbered_distinct cls : cls <> [] -> (forall c, In c cls -> distinct_vars c) ->
  add_numbered empty_set 1 cls = set_clauses empty_set (plain 1 (map sort_abs cls)).
Proof.
  intros Hn H. rewrite add_numbered_fold, numbered_distinct by auto.
  destruct (fold_add_nofalse (plain 1 (map sort_abs cls)) empty_set) as [A B]; simpl; auto; try congruence.
  { intros c Hc. apply plain_value in Hc. congruence. }
  simpl in A, B. rewrite plain_undecided in *.
  assert (Hp : plain 1 (map sort_abs cls) <> []) by (destruct cls; [congruence | discriminate]).
  destruct (plain 1 (map sort_abs cls)) as [|c0 cs0] eqn:E; [congruence|].
  rewrite <- E in *.
  assert (K : forall cs s, (forall c, In c cs -> cvalue c = None) -> svalue s = None ->
     fold_left add_clause cs s = set_clauses s (clauses s ++ cs)).
  { clear. induction cs as [|c cs IH]; intros s H Hv; simpl.
    - rewrite app_nil_r. destruct s; auto.
    - rewrite IH; auto.
      + unfold add_clause. rewrite Hv, (H c) by (simpl; auto). destruct s; simpl in *; subst. unfold set_clauses; simpl.
        rewrite <- app_assoc; auto.
      + intros; apply H; simpl; auto.
      + unfold add_clause. rewrite Hv, (H c) by (simpl; auto). auto. }
  rewrite K; auto. intros c Hc; eapply plain_value; eauto.
Qed.

(* Set(text of F): clauses of F numbered from 1 *)
Lemma set_of_formula_text F : F <> [] -> nonempty_clauses F ->
  (forall c, In c F -> distinct_vars c /\ sorted_clause c) ->
  set_of_text (formula_text F) = set_clauses empty_set (plain 1 F).
Proof.
  intros H1 H2 H3. unfold set_of_text.
  destruct (formula_text F) as [|x t] eqn:E; [exfalso; apply (formula_text_ne F); auto|]. rewrite <- E.
  rewrite parse_formula_text by auto. rewrite map_dedup_id.
  2: { intros c Hc. apply H3 in Hc as [Hc _]. eapply NoDup_map_inv; eauto. }
  rewrite add_numbered_distinct; auto.
  - f_equal. f_equal. rewrite <- (map_id F) at 2. apply map_ext_in. intros c Hc.
    apply sort_abs_id, H3; auto.
  - intros c Hc; apply H3; auto.
Qed.

(* ---- serialisation of the node properties ---- *)
Lemma join_strs_In sep l x : In x (join sep (map str_Z l)) -> In x sep \/ numchar x = true.
Proof.
  intros H. apply join_In in H as [H|(p & Hp & H)]; auto. right.
  apply in_map_iff in Hp as (z & <- & _). pose proof (str_Z_numchar z) as Hz.
  rewrite Forall_forall in Hz; auto.
Qed.
Lemma join_strs_lacks sep c l : ~ In c sep -> (code c < 45 \/ 45 < code c < 48 \/ 57 < code c)%N ->
  lacks c (join sep (map str_Z l)).
Proof. intros H1 H2 Hi. apply join_strs_In in Hi as [?|Hi]; auto. (exact (numchar_neq _ _ ltac:(eassumption) H2 eq_refl)). Qed.

Lemma inner_spec o c b : inner o c (o :: b ++ [c]) = Some b.
Proof.
  unfold inner. rewrite app_comm_cons, rev_app_distr. cbn [rev app].
  rewrite !Ascii.eqb_refl. cbn [andb].
  destruct (Nat.leb_spec 2 (List.length (o :: b ++ [c])));
    [|simpl in H; rewrite app_length in H; simpl in H; lia].
  cbn [tl]. unfold drop_last. rewrite rev_app_distr. cbn [rev app tl]. rewrite rev_involutive. auto.
Qed.
Lemma str_list_roundtrip l : literal_eval_list (str_list l) = Some l.
Proof.
  unfold literal_eval_list, str_list.
  set (b := join (txt ", ") (map str_Z l)).
  change (txt "[" ++ b ++ txt "]") with ("["%char :: b ++ ["]"%char]).
  rewrite inner_spec.
  destruct l as [|z l]; [reflexivity|].
  destruct b as [|b0 bt] eqn:Eb; [exfalso; revert Eb; apply join_ne, str_Z_ne|]. rewrite <- Eb.
  assert (Hs : split_on ","%char b = str_Z z :: map (fun w => " "%char :: str_Z w) l).
  { subst b. clear. revert z. induction l as [|w l IH]; intros z.
    - simpl. apply split_on_lacks, str_Z_lacks. left; reflexivity.
    - change (join (txt ", ") (map str_Z (z :: w :: l)))
        with (str_Z z ++ ","%char :: " "%char :: join (txt ", ") (map str_Z (w :: l))).
      rewrite split_on_app by (apply str_Z_lacks; left; reflexivity).
      cbn [split_on]. replace (Ascii.eqb " " ",") with false by reflexivity. rewrite IH. auto. }
  rewrite Eb in *. rewrite Hs. cbn [mapO]. rewrite py_int_str.
  rewrite (mapO_map _ _ (fun w => w)) by (intros; apply py_int_blank_str). rewrite map_id. auto.
Qed.
Lemma str_list_lacks c l : (code c < 32 \/ 32 < code c < 44 \/ 45 < code c < 48 \/
  57 < code c < 91 \/ code c = 92 \/ 93 < code c)%N -> lacks c (str_list l).
Proof.
  intros H Hi. unfold str_list in Hi. apply in_app_iff in Hi as [Hi|Hi].
  - destruct Hi as [<-|[]]. cbv in H. intuition discriminate.
  - apply in_app_iff in Hi as [Hi|Hi].
    + apply join_strs_In in Hi as [[<-|[<-|[]]]|Hi]; try (cbv in H; intuition discriminate).
      apply numchar_bound in Hi. lia.
    + destruct Hi as [<-|[]]. cbv in H. intuition discriminate.
Qed.

Definition str_pair (kv : Z * Z) : text := str_Z (fst kv) ++ txt ": " ++ str_Z (snd kv).
Lemma str_pair_In kv x : In x (str_pair kv) -> numchar x = true \/ x = ":"%char \/ x = " "%char.
Proof.
  unfold str_pair. intros H. apply in_app_iff in H as [H|H].
  - left. pose proof (str_Z_numchar (fst kv)) as Hz. rewrite Forall_forall in Hz; auto.
  - apply in_app_iff in H as [H|H].
    + simpl in H. destruct H as [<-|[<-|[]]]; auto.
    + left. pose proof (str_Z_numchar (snd kv)) as Hz. rewrite Forall_forall in Hz; auto.
Qed.
Lemma str_pair_lacks c kv : (code c < 32 \/ 32 < code c < 45 \/ 45 < code c < 48 \/ 58 < code c)%N ->
  lacks c (str_pair kv).
Proof.
  intros H Hi. apply str_pair_In in Hi as [Hi|[->| ->]].
  - apply numchar_bound in Hi. lia.
  - cbv in H. intuition discriminate.
  - cbv in H. intuition discriminate.
Qed.
Lemma parse_pair_str kv : parse_pair (str_pair kv) = Some kv /\ parse_pair (" "%char :: str_pair kv) = Some kv.
Proof.
  destruct kv as [k v]. unfold parse_pair, str_pair. cbn [fst snd].
  change (txt ": " ++ str_Z v) with (":"%char :: " "%char :: str_Z v).
  assert (Hl : forall w, lacks ":"%char (str_Z w)) by (intros; apply str_Z_lacks; right; right; reflexivity).
  assert (Hv : split_on ":"%char (" "%char :: str_Z v) = [" "%char :: str_Z v]).
  { apply split_on_lacks. intros [E|E]; [discriminate | apply (Hl v); auto]. }
  split.
  - rewrite split_on_app by auto. rewrite Hv. rewrite py_int_str, py_int_blank_str. auto.
  - change (" "%char :: str_Z k ++ ":"%char :: " "%char :: str_Z v)
      with ((" "%char :: str_Z k) ++ ":"%char :: " "%char :: str_Z v).
    rewrite split_on_app by (intros [E|E]; [discriminate | apply (Hl k); auto]).
    rewrite Hv, !py_int_blank_str. auto.
Qed.
Lemma NoDup_app_l {A} (l r : list A) : NoDup (l ++ r) -> NoDup l.
Proof.
  induction l as [|x l IH]; simpl; intros H; [constructor|]. inv H. constructor; auto.
  intros Hx; apply H2, in_app_iff; auto.
Qed.
Lemma dupdate_nodup {V} (d2 : list (Z * V)) : forall d, NoDup (dkeys (d ++ d2)) -> dupdate Z.eqb d d2 = d ++ d2.
Proof.
  induction d2 as [|[k v] t IH]; intros d H; unfold dupdate; simpl; [rewrite app_nil_r; auto|].
  fold (dupdate Z.eqb (dset Z.eqb k v d) t).
  assert (Hk : ~ In k (dkeys d)).
  { unfold dkeys in *. rewrite map_app in H. simpl in H. intros Hi.
    apply NoDup_remove_2 in H. apply H, in_app_iff; auto. }
  rewrite (dset_new _ zspec) by auto. rewrite IH; rewrite <- app_assoc; auto.
Qed.
Lemma str_dict_roundtrip d : NoDup (dkeys d) -> literal_eval_dict (str_dict d) = Some d.
Proof.
  intros Hd. unfold literal_eval_dict.
  change (str_dict d) with ("{"%char :: join (txt ", ") (map str_pair d) ++ ["}"%char]).
  set (b := join (txt ", ") (map str_pair d)).
  rewrite inner_spec.
  destruct d as [|z l]; [reflexivity|].
  assert (Hne : forall kv, str_pair kv <> []).
  { intros kv E. apply app_eq_nil in E as [E _]. apply (str_Z_ne (fst kv)); auto. }
  destruct b as [|b0 bt] eqn:Eb; [exfalso; revert Eb; apply join_ne; auto|]. rewrite <- Eb.
  assert (Hs : split_on ","%char b = str_pair z :: map (fun w => " "%char :: str_pair w) l).
  { subst b. clear. revert z. induction l as [|w l IH]; intros z.
    - simpl. apply split_on_lacks, str_pair_lacks. right; left; split; reflexivity.
    - change (join (txt ", ") (map str_pair (z :: w :: l)))
        with (str_pair z ++ ","%char :: " "%char :: join (txt ", ") (map str_pair (w :: l))).
      rewrite split_on_app by (apply str_pair_lacks; right; left; split; reflexivity).
      cbn [split_on]. replace (Ascii.eqb " " ",") with false by reflexivity. rewrite IH. auto. }
  rewrite Eb in *. rewrite Hs. cbn [mapO]. rewrite (proj1 (parse_pair_str z)).
  rewrite (mapO_map _ _ (fun w => w)) by (intros; apply parse_pair_str). rewrite map_id.
  cbn [option_map]. rewrite dupdate_nodup by auto. auto.
Qed.
Lemma str_dict_lacks d : lacks "|"%char (str_dict d).
Proof.
  intros Hi. unfold str_dict in Hi. apply in_app_iff in Hi as [Hi|Hi].
  - destruct Hi as [E|[]]. discriminate.
  - apply in_app_iff in Hi as [Hi|Hi].
    + apply join_In in Hi as [Hi|(p & Hp & Hi)].
      * simpl in Hi. intuition discriminate.
      * apply in_map_iff in Hp as (kv & <- & _). revert Hi. apply (str_pair_lacks _ kv).
        right; right; right; reflexivity.
    + destruct Hi as [E|[]]. discriminate.
Qed.
Lemma join_comma_split l : l <> [] -> split_on ","%char (join comma (map str_Z l)) = map str_Z l.
Proof.
  intros H. change comma with [","%char]. apply split_on_join.
  - destruct l; simpl; congruence.
  - apply Forall_forall. intros p Hp. apply in_map_iff in Hp as (z & <- & _). apply str_Z_lacks.
    left; reflexivity.
Qed.
Lemma eval_vars_roundtrip b l :
  eval_vars_part b (join comma (map str_Z l)) = Ok (map (fun v => (v, b)) l).
Proof.
  destruct l as [|z l]; [reflexivity|]. unfold eval_vars_part.
  destruct (join comma (map str_Z (z :: l))) as [|x t] eqn:E;
    [exfalso; revert E; apply join_ne, str_Z_ne|]. rewrite <- E.
  rewrite join_comma_split by discriminate.
  rewrite (mapO_map _ _ (fun w => w)) by (intros; apply py_int_str). rewrite map_id. auto.
Qed.
Lemma lacks_app c t u : lacks c t -> lacks c u -> lacks c (t ++ u).
Proof. unfold lacks. intros H1 H2 H. apply in_app_iff in H as [?|?]; auto. Qed.

Lemma reordered_Perm d : Permutation d (reordered d).
Proof.
  unfold reordered. induction d as [|[k []] t IH]; simpl; auto.
  rewrite IH at 1. apply Permutation_middle.
Qed.
Lemma true_keys_pairs d : map (fun v => (v, true)) (true_keys d) = filter snd d.
Proof. unfold true_keys. induction d as [|[k []] t IH]; simpl; auto. f_equal; auto. Qed.
Lemma false_keys_pairs d : map (fun v => (v, false)) (false_keys d) = filter (fun kv => negb (snd kv)) d.
Proof. unfold false_keys. induction d as [|[k []] t IH]; simpl; auto. f_equal; auto. Qed.
Lemma reordered_nodup d : NoDup (dkeys d) -> NoDup (dkeys (reordered d)).
Proof. apply Permutation_NoDup, Permutation_map, reordered_Perm. Qed.

Lemma digits_join_lacks l : (forall v, In v l -> 0 <= v) -> lacks "-"%char (join comma (map str_Z l)).
Proof.
  intros H Hi. apply join_In in Hi as [Hi|(p & Hp & Hi)].
  - simpl in Hi. intuition discriminate.
  - apply in_map_iff in Hp as (z & <- & Hz). pose proof (str_Z_digits z (H z Hz)) as Hd.
    rewrite Forall_forall in Hd. apply Hd in Hi. discriminate.
Qed.
Lemma parse_evaluated_roundtrip d : NoDup (dkeys d) -> (forall v, In v (dkeys d) -> 0 <= v) ->
  parse_evaluated (join comma (map str_Z (true_keys d)) ++ txt "-" ++ join comma (map str_Z (false_keys d)))
  = Ok (reordered d).
Proof.
  intros Hn Hd.
  assert (Ht : forall v, In v (true_keys d) -> 0 <= v).
  { intros v Hv. apply Hd. unfold true_keys, dkeys in *. apply in_map_iff in Hv as (kv & <- & Hk).
    apply filter_In in Hk as [Hk _]. apply in_map; auto. }
  assert (Hf : forall v, In v (false_keys d) -> 0 <= v).
  { intros v Hv. apply Hd. unfold false_keys, dkeys in *. apply in_map_iff in Hv as (kv & <- & Hk).
    apply filter_In in Hk as [Hk _]. apply in_map; auto. }
  unfold parse_evaluated. set (A := join comma (map str_Z (true_keys d))).
  set (B := join comma (map str_Z (false_keys d))). change (A ++ txt "-" ++ B) with (A ++ "-"%char :: B).
  destruct (A ++ "-"%char :: B) as [|x t] eqn:E; [destruct A; discriminate|]. rewrite <- E.
  rewrite split_on_app by (apply digits_join_lacks; auto).
  rewrite split_on_lacks by (apply digits_join_lacks; auto).
  unfold A, B. rewrite !eval_vars_roundtrip. cbn [bind]. f_equal.
  rewrite true_keys_pairs, false_keys_pairs. pose proof (reordered_nodup d Hn) as Hr.
  assert (H1 : dupdate Z.eqb [] (filter snd d) = filter snd d).
  { rewrite dupdate_nodup; auto. simpl. unfold reordered, dkeys in Hr. rewrite map_app in Hr.
    apply NoDup_app_l in Hr. auto. }
  rewrite H1. apply dupdate_nodup; auto.
Qed.


Lemma deserialize_serialize s0 s : saved_props s ->
  deserialize_properties s0 (serialize_properties s) =
  Ok (set_names (set_original (set_evaluated s0 (reordered (evaluated_vars s))) (original_values s))
                (final_names_map s)).
Proof.
  intros (H1 & H2 & H3). unfold deserialize_properties, serialize_properties.
  set (E := join comma _ ++ txt "-" ++ _).
  change (E ++ txt "|" ++ str_dict (original_values s) ++ txt "|" ++ str_list (final_names_map s))
    with (E ++ "|"%char :: str_dict (original_values s) ++ "|"%char :: str_list (final_names_map s)).
  assert (HE : lacks "|"%char E).
  { apply lacks_app; [apply join_strs_lacks|apply lacks_app; [|apply join_strs_lacks]].
    - intros [H|[]]; discriminate. - right; right; reflexivity.
    - intros [H|[]]; discriminate.
    - intros [H|[]]; discriminate. - right; right; reflexivity. }
  rewrite split_on_app by auto. rewrite split_on_app by apply str_dict_lacks.
  rewrite split_on_lacks by (apply str_list_lacks; right; right; right; right; right; reflexivity).
  unfold E. rewrite parse_evaluated_roundtrip by auto. cbn [bind].
  rewrite str_dict_roundtrip by auto. rewrite str_list_roundtrip.
  assert (Hd : str_dict (original_values s) <> []) by discriminate.
  destruct (str_dict (original_values s)); [congruence|]. cbn [of_option bind].
  assert (Hl : str_list (final_names_map s) <> []) by discriminate.
  destruct (str_list (final_names_map s)); [congruence|]. reflexivity.
Qed.
Lemma serialize_ne s : serialize_properties s <> [].
Proof.
  unfold serialize_properties. destruct (join comma (map str_Z (true_keys (evaluated_vars s)))); discriminate.
Qed.

Lemma set_init_roundtrip s : clauses s <> [] -> nonempty_clauses (raws s) ->
  (forall c, In c (raws s) -> distinct_vars c /\ sorted_clause c) -> saved_props s ->
  exists x, set_init (formula_text (raws s)) (serialize_properties s) = Ok x /\
            set_id x (sid s) = reloaded s.
Proof.
  intros H1 H2 H3 H4. unfold set_init.
  destruct (serialize_properties s) as [|x t] eqn:E; [exfalso; apply (serialize_ne s); auto|]. rewrite <- E.
  rewrite set_of_formula_text; auto; [|intros E0; apply raws_nil in E0; auto].
  rewrite deserialize_serialize by auto. eexists; split; reflexivity.
Qed.
