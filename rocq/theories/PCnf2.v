(* PCnf2.v -- the CNF object *)
From Coq Require Import String Ascii ZArith List Bool Lia.
From Verif Require Import Spec PyBase MCnf SpecCnf PLib PCnf1.
Import ListNotations.
Open Scope Z_scope.

Lemma position_Some v names i k : position v names i = Some k ->
  i <= k < i + Z.of_nat (List.length names) /\ forall d, nth (Z.to_nat (k - i)) names d = v.
Proof.
  revert i. induction names as [|m t IH]; intros i H; [discriminate|]. cbn [position] in H. cbn [List.length].
  destruct (text_eqb_spec v m) as [->|N].
  - injection H as <-. split; [lia|]. intros d. rewrite Z.sub_diag. reflexivity.
  - apply IH in H as [H1 H2]. split; [lia|]. intros d. replace (Z.to_nat (k - i)) with (S (Z.to_nat (k - (i + 1)))) by lia. cbn. auto.
Qed.
Lemma position_None v names i : position v names i = None <-> ~ In v names.
Proof.
  revert i. induction names as [|m t IH]; intros i; cbn [position In]; [tauto|].
  destruct (text_eqb_spec v m) as [->|N]; [split; [discriminate|tauto]|]. rewrite IH. split; [intros H [K|K]; [congruence|auto]|tauto].
Qed.
Lemma position_In v names i : In v names -> exists k, position v names i = Some k.
Proof. intros H. destruct (position v names i) eqn:E; eauto. apply position_None in E. contradiction. Qed.
Lemma position_nth names i k d : NoDup names -> (k < List.length names)%nat -> position (nth k names d) names i = Some (i + Z.of_nat k).
Proof.
  revert i k. induction names as [|m t IH]; intros i k N H; cbn [List.length] in H; [lia|]. inversion N; subst. cbn [position].
  destruct k as [|k]; cbn [nth].
  - rewrite text_eqb_refl. f_equal. lia.
  - destruct (text_eqb_spec (nth k t d) m) as [E|_].
    + exfalso. apply H2. rewrite <- E. apply nth_In. lia.
    + rewrite IH by (auto; lia). f_equal. lia.
Qed.

(* the numbers in the clauses are those of the names *)
Definition well (c : cnf) : Prop := NoDup (cn_names c) /\
  forall cl l, In cl (cn_clauses c) -> In l cl -> 1 <= Z.abs l <= Z.of_nat (List.length (cn_names c)).

Lemma with_new_app k l1 l2 : with_new k (l1 ++ l2) = with_new (with_new k l1) l2.
Proof. revert k. induction l1; intros; cbn [app with_new]; auto. Qed.
Lemma with_new_known k vs : (forall v, In v vs -> In v k) -> with_new k vs = k.
Proof.
  induction vs as [|v t IH]; intros H; cbn [with_new]; auto.
  destruct (in_dec (list_eq_dec ascii_dec) v k) as [|N]; [apply IH; intros; apply H; right; auto|]. exfalso. apply N, H. left; auto.
Qed.
Lemma with_new_prefix k vs : exists l, with_new k vs = k ++ l.
Proof.
  revert k. induction vs as [|v t IH]; intros k; cbn [with_new]; [exists []; rewrite app_nil_r; auto|].
  destruct (in_dec (list_eq_dec ascii_dec) v k); auto. destruct (IH (k ++ [v])) as (l & ->). exists (v :: l). rewrite <- app_assoc. auto.
Qed.
Lemma with_new_In k vs v : In v (with_new k vs) <-> In v k \/ In v vs.
Proof.
  revert k. induction vs as [|w t IH]; intros k; cbn [with_new In]; [tauto|]. rewrite IH.
  destruct (in_dec (list_eq_dec ascii_dec) w k) as [H|H].
  - split; [tauto|]. intros [|[->|]]; auto.
  - rewrite in_app_iff. cbn. tauto.
Qed.
Lemma NoDup_snoc {A} (l : list A) x : NoDup l -> ~ In x l -> NoDup (l ++ [x]).
Proof.
  intros N H. induction N; cbn; [constructor; auto; constructor|]. constructor.
  - rewrite in_app_iff. cbn. intros [K|[K|[]]]; auto. apply H. left; auto.
  - apply IHN. intros K. apply H. right; auto.
Qed.
Lemma with_new_NoDup k vs : NoDup k -> NoDup (with_new k vs).
Proof.
  revert k. induction vs as [|w t IH]; intros k N; cbn [with_new]; auto. apply IH.
  destruct (in_dec (list_eq_dec ascii_dec) w k); auto. apply NoDup_snoc; auto.
Qed.

Lemma add_variable_names v c : cn_names (add_variable v c) = with_new (cn_names c) [v].
Proof.
  unfold add_variable. cbn [with_new]. destruct (position v (cn_names c) 1) eqn:E.
  - destruct (in_dec (list_eq_dec ascii_dec) v (cn_names c)); auto. apply (position_None v _ 1) in n. congruence.
  - apply position_None in E. destruct (in_dec (list_eq_dec ascii_dec) v (cn_names c)); [contradiction|auto].
Qed.
Lemma add_variable_numbers v c : cn_clauses (add_variable v c) = cn_clauses c.
Proof. unfold add_variable. destruct (position _ _ _); auto. Qed.
Lemma add_variables_names vs c : cn_names (add_variables vs c) = with_new (cn_names c) vs.
Proof.
  unfold add_variables. revert c. induction vs as [|v t IH]; intros c; cbn [fold_left with_new]; auto.
  rewrite IH, add_variable_names. reflexivity.
Qed.
Lemma add_variables_numbers vs c : cn_clauses (add_variables vs c) = cn_clauses c.
Proof. unfold add_variables. revert c. induction vs as [|v t IH]; intros c; cbn [fold_left]; auto. rewrite IH. apply add_variable_numbers. Qed.
Lemma fold_add_variable cl c : fold_left (fun c (l : plit text) => add_variable (snd l) c) cl c = add_variables (map snd cl) c.
Proof. unfold add_variables. revert c. induction cl; intros; cbn [fold_left map]; auto. Qed.

Lemma grown_well c c' vs : well c -> cn_names c' = with_new (cn_names c) vs -> cn_clauses c' = cn_clauses c -> well c'.
Proof.
  intros [N H] E1 E2. split; [rewrite E1; apply with_new_NoDup; auto|]. rewrite E1, E2. intros cl l Hc Hl. specialize (H cl l Hc Hl).
  destruct (with_new_prefix (cn_names c) vs) as (u & ->). rewrite app_length. lia.
Qed.
Lemma grown_clauses c c' vs : well c -> cn_names c' = with_new (cn_names c) vs -> cn_clauses c' = cn_clauses c -> cnf_clauses c' = cnf_clauses c.
Proof.
  intros [N H] E1 E2. unfold cnf_clauses. rewrite E1, E2. apply map_ext_in. intros cl Hc. apply map_ext_in. intros l Hl.
  specialize (H cl l Hc Hl). destruct (with_new_prefix (cn_names c) vs) as (u & ->). f_equal. rewrite app_nth1 by lia. auto.
Qed.

Lemma compress_ok names cl z : compress_clause names cl = Ok z ->
  uncompress_clause names z = cl /\ (forall l, In l z -> 1 <= Z.abs l <= Z.of_nat (List.length names)) /\
  forall v, In v (map snd cl) -> In v names.
Proof.
  intros H. apply mapM_ok in H. induction H as [|[p v] l cl z E HF IH]; cbn; [split; [auto|split; intros ? []]|].
  destruct IH as (I1 & I2 & I3). cbn [fst snd] in E. destruct (position v names 1) as [k|] eqn:Ep; [|discriminate]. cbn [bind of_option fst snd] in E.
  pose proof (position_Some v names 1 k Ep) as (B & Nt). injection E as <-. split; [|split].
  - replace (Z.abs ((if p then 1 else -1) * k)) with k by (destruct p; lia). rewrite Nt.
    replace (0 <? (if p then 1 else -1) * k) with p by (destruct p; symmetry; [apply Z.ltb_lt|apply Z.ltb_ge]; lia).
    f_equal. exact I1.
  - intros l [<-|Hl]; auto. destruct p; lia.
  - intros w [<-|Hw]; auto. cbn. specialize (Nt []). rewrite <- Nt. apply nth_In. lia.
Qed.
Lemma compress_total names cl : (forall v, In v (map snd cl) -> In v names) -> exists z, compress_clause names cl = Ok z.
Proof.
  intros H. apply mapM_total. intros [p v] Hl. destruct (position_In v names 1) as (k & E).
  - apply H. apply in_map_iff. exists (p, v). auto.
  - cbn [snd fst]. rewrite E. cbn. eauto.
Qed.
Lemma compress_err names cl : (exists v, In v (map snd cl) /\ ~ In v names) -> compress_clause names cl = Err KeyError.
Proof.
  intros (v & Hv & N). unfold compress_clause. induction cl as [|[p w] t IH]; [destruct Hv|]. cbn [mapM snd fst].
  destruct (position w names 1) as [k|] eqn:E; [|reflexivity]. cbn [of_option bind].
  destruct Hv as [Hv|Hv].
  - cbn in Hv. subst w. apply position_Some in E as [B Nt]. exfalso. apply N. rewrite <- (Nt []). apply nth_In. lia.
  - rewrite IH; auto.
Qed.
Lemma known_dec names (vs : list text) : (forall v, In v vs -> In v names) \/ exists v, In v vs /\ ~ In v names.
Proof.
  induction vs as [|v t IH]; [left; intros ? []|]. destruct (in_dec (list_eq_dec ascii_dec) v names) as [H|H]; [|right; exists v; split; [left|]; auto].
  destruct IH as [IH|(w & Hw & N)]; [left; intros w [<-|Hw]; auto|right; exists w; split; [right|]; auto].
Qed.
Lemma append_well c z : well c -> (forall l, In l z -> 1 <= Z.abs l <= Z.of_nat (List.length (cn_names c))) -> well (append_clause c z).
Proof.
  intros [N H] Hz. split; auto. intros cl l Hc Hl. cbn [append_clause cn_clauses cn_names] in *. apply in_app_iff in Hc as [Hc|[<-|[]]]; eauto.
Qed.
Lemma append_clauses c z : cnf_clauses (append_clause c z) = cnf_clauses c ++ [uncompress_clause (cn_names c) z].
Proof. unfold cnf_clauses. cbn [append_clause cn_clauses cn_names]. rewrite map_app. reflexivity. Qed.

Lemma literal_eqb_spec (a b : plit text) : literal_eqb a b = true <-> a = b.
Proof.
  destruct a as [p v], b as [q w]. unfold literal_eqb. cbn [fst snd]. rewrite andb_true_iff, Bool.eqb_true_iff. split.
  - intros [-> E]. destruct (text_eqb_spec v w); [subst; auto|discriminate].
  - intros E. injection E as -> ->. rewrite text_eqb_refl. auto.
Qed.
Lemma repeated_spec cl : repeated cl = false <-> NoDup cl.
Proof.
  induction cl as [|l t IH]; cbn [repeated]; [split; [constructor|auto]|]. rewrite orb_false_iff, IH. split.
  - intros [E N]. constructor; auto. intros K. rewrite <- not_true_iff_false in E. apply E. apply existsb_exists. exists l. split; auto. apply literal_eqb_spec. auto.
  - inversion 1; subst. split; auto. rewrite <- not_true_iff_false. intros K. apply existsb_exists in K as (x & Hx & E).
    apply literal_eqb_spec in E as <-. auto.
Qed.
Lemma opposite_spec cl : opposite cl = true <-> contradicts cl.
Proof.
  unfold opposite, contradicts. rewrite existsb_exists. split.
  - intros ([p v] & Hx & E). cbn [fst snd] in E. apply andb_true_iff in E as [-> E]. apply existsb_exists in E as (y & Hy & E).
    apply literal_eqb_spec in E as <-. eauto.
  - intros (v & H1 & H2). exists (true, v). split; auto. cbn. apply existsb_exists. exists (false, v). split; auto. apply literal_eqb_spec. auto.
Qed.

Lemma add_unsafe_ok cl c : (forall v, In v (map snd cl) -> In v (cn_names c)) -> well c ->
  exists c', add_clause_unsafe cl c = Ok c' /\ well c' /\ cn_names c' = cn_names c /\ cnf_clauses c' = cnf_clauses c ++ [cl].
Proof.
  intros H W. destruct (compress_total _ _ H) as (z & E). unfold add_clause_unsafe. rewrite E. cbn [bind].
  eexists. split; [reflexivity|]. destruct (compress_ok _ _ _ E) as (A & B & _). split; [apply append_well; auto|]. split; [reflexivity|].
  rewrite append_clauses, A. auto.
Qed.
Lemma add_unsafe_err cl c : (exists v, In v (map snd cl) /\ ~ In v (cn_names c)) -> add_clause_unsafe cl c = Err KeyError.
Proof. intros H. unfold add_clause_unsafe. rewrite compress_err; auto. Qed.

Lemma add_with_ok r o av st cl c : well c ->
  ((r = true /\ st = false) \/ NoDup cl) -> ((o = true /\ st = false) \/ ~ contradicts cl) ->
  ((av = true /\ st = false) \/ forall v, In v (map snd cl) -> In v (cn_names c)) ->
  exists c', add_clause_with r o av st cl c = Ok c' /\ well c' /\ cn_names c' = with_new (cn_names c) (map snd cl) /\
    cnf_clauses c' = cnf_clauses c ++ [cl].
Proof.
  intros W H1 H2 H3. unfold add_clause_with.
  assert (E1 : negb (r && negb st) && repeated cl = false).
  { destruct H1 as [[-> ->]|H1]; auto. apply repeated_spec in H1. rewrite H1. apply andb_false_r. }
  assert (E2 : negb (o && negb st) && opposite cl = false).
  { destruct H2 as [[-> ->]|H2]; auto. destruct (opposite cl) eqn:E; [apply opposite_spec in E; contradiction|apply andb_false_r]. }
  rewrite E1, E2. destruct (known_dec (cn_names c) (map snd cl)) as [K|K].
  - destruct (compress_total _ _ K) as (z & E). rewrite E. eexists. split; [reflexivity|].
    destruct (compress_ok _ _ _ E) as (A & B & _). split; [apply append_well; auto|]. split.
    + rewrite with_new_known; auto.
    + rewrite append_clauses, A. auto.
  - rewrite (compress_err _ _ K). destruct H3 as [[-> ->]|H3]; [|destruct K as (v & K1 & K2); destruct (K2 (H3 v K1))].
    cbn [andb negb]. rewrite fold_add_variable.
    set (c1 := add_variables (map snd cl) c).
    assert (Nm : cn_names c1 = with_new (cn_names c) (map snd cl)) by apply add_variables_names.
    assert (Nc : cn_clauses c1 = cn_clauses c) by apply add_variables_numbers.
    destruct (compress_total (cn_names c1) cl) as (z & E).
    { intros v Hv. rewrite Nm. apply with_new_In. auto. }
    rewrite E. cbn [bind]. eexists. split; [reflexivity|]. destruct (compress_ok _ _ _ E) as (A & B & _).
    assert (W1 : well c1) by (eapply grown_well; eauto). split; [apply append_well; auto|]. split; auto.
    rewrite append_clauses, A. f_equal. eapply grown_clauses; eauto.
Qed.
Lemma add_with_err r o av st cl c :
  (((r = false \/ st = true) /\ ~ NoDup cl) \/ ((o = false \/ st = true) /\ contradicts cl) \/
   ((av = false \/ st = true) /\ exists v, In v (map snd cl) /\ ~ In v (cn_names c))) ->
  add_clause_with r o av st cl c = Err ValueError.
Proof.
  intros H. unfold add_clause_with.
  destruct (negb (r && negb st) && repeated cl) eqn:E1; auto.
  destruct (negb (o && negb st) && opposite cl) eqn:E2; auto.
  destruct H as [[H K]|[[H K]|[H K]]].
  - exfalso. apply K. apply repeated_spec. destruct (repeated cl); auto. destruct H as [H|H]; subst; try destruct st; try destruct r; discriminate.
  - exfalso. apply opposite_spec in K. rewrite K in E2. destruct H as [H|H]; subst; try destruct st; try destruct o; discriminate.
  - rewrite (compress_err _ _ K). replace (av && negb st) with false; auto. destruct H as [-> | ->]; auto. rewrite andb_false_r; auto.
Qed.
Lemma made_well c : made c -> well c.
Proof.
  induction 1 as [|c v M IH|c r o av st cl c' M IH E|c cl c' M IH E].
  - split; [constructor|intros ? ? []].
  - apply (grown_well c _ [v]); auto; [apply add_variable_names|apply add_variable_numbers].
  - assert (X : (((r = true /\ st = false) \/ NoDup cl) /\ ((o = true /\ st = false) \/ ~ contradicts cl)) /\
      ((av = true /\ st = false) \/ forall v, In v (map snd cl) -> In v (cn_names c))).
    { split; [split|].
      - destruct (repeated cl) eqn:Er; [|right; apply repeated_spec; auto]. destruct r, st; auto; rewrite add_with_err in E; try discriminate;
          left; (split; [auto|]); intros K; apply repeated_spec in K; congruence.
      - destruct (opposite cl) eqn:Er; [|right; intros K; apply opposite_spec in K; congruence].
        apply opposite_spec in Er. destruct o, st; auto; rewrite add_with_err in E; try discriminate; right; left; auto.
      - destruct (known_dec (cn_names c) (map snd cl)) as [K|K]; auto. destruct av, st; auto; rewrite add_with_err in E; try discriminate; right; right; auto. }
    destruct X as ((X1 & X2) & X3). destruct (add_with_ok r o av st cl c IH X1 X2 X3) as (c2 & E2 & W & _). congruence.
  - destruct (known_dec (cn_names c) (map snd cl)) as [K|K]; [|rewrite add_unsafe_err in E; [discriminate|auto]].
    destruct (add_unsafe_ok cl c K IH) as (c2 & E2 & W & _). congruence.
Qed.
Lemma made_names c : made c -> forall cl p v, In cl (cnf_clauses c) -> In (p, v) cl -> In v (cn_names c).
Proof.
  intros M cl p v Hc Hv. destruct (made_well c M) as [N H]. unfold cnf_clauses in Hc. apply in_map_iff in Hc as (z & <- & Hz).
  apply in_map_iff in Hv as (l & E & Hl). injection E as _ <-. specialize (H z l Hz Hl). apply nth_In. lia.
Qed.

(* clauses that are accepted with every setting *)
Definition clean (cl : list (bool * text)) : Prop := NoDup cl /\ ~ contradicts cl.
Lemma clean_vars cl : NoDup (map snd cl) -> clean cl.
Proof.
  intros N. split; [eapply NoDup_map_inv; eauto|]. intros (v & H1 & H2).
  induction cl as [|[p w] t IH]; [destruct H1|]. cbn [map snd] in N. inversion N as [|? ? X Y]; subst.
  destruct H1 as [H1|H1], H2 as [H2|H2]; try congruence; auto.
  - injection H1 as -> ->. apply X. apply in_map_iff. exists (false, v). auto.
  - injection H2 as -> ->. apply X. apply in_map_iff. exists (true, v). auto.
Qed.
Lemma add_all_unsafe cls c : well c -> (forall cl v, In cl cls -> In v (map snd cl) -> In v (cn_names c)) ->
  exists c', add_all add_clause_unsafe cls c = Ok c' /\ well c' /\ cn_names c' = cn_names c /\ cnf_clauses c' = cnf_clauses c ++ cls.
Proof.
  revert c. induction cls as [|cl t IH]; intros c W H; cbn [add_all].
  - exists c. rewrite app_nil_r. auto.
  - destruct (add_unsafe_ok cl c) as (c1 & E & W1 & N1 & C1); auto. { intros; eapply H; eauto. left; auto. }
    rewrite E. cbn [bind]. destruct (IH c1 W1) as (c2 & E2 & W2 & N2 & C2).
    { intros cl' v Hc Hv. rewrite N1. eapply H; eauto. right; auto. }
    exists c2. split; auto. split; auto. split; [congruence|]. rewrite C2, C1, <- app_assoc. reflexivity.
Qed.
Lemma add_all_strict cls c : well c -> (forall cl, In cl cls -> clean cl) -> (forall cl v, In cl cls -> In v (map snd cl) -> In v (cn_names c)) ->
  exists c', add_all add_clause_strict cls c = Ok c' /\ well c' /\ cn_names c' = cn_names c /\ cnf_clauses c' = cnf_clauses c ++ cls.
Proof.
  revert c. induction cls as [|cl t IH]; intros c W HC H; cbn [add_all].
  - exists c. rewrite app_nil_r. auto.
  - destruct (HC cl (or_introl eq_refl)) as [Cl1 Cl2]. destruct (add_with_ok false false true true cl c) as (c1 & E & W1 & N1 & C1); auto.
    { right. intros; eapply H; eauto. left; auto. }
    rewrite with_new_known in N1 by (intros; eapply H; eauto; left; auto).
    unfold add_clause_strict at 1. rewrite E. cbn [bind]. destruct (IH c1 W1) as (c2 & E2 & W2 & N2 & C2).
    { intros; apply HC; right; auto. }
    { intros cl' v Hc Hv. rewrite N1. eapply H; eauto. right; auto. }
    exists c2. split; auto. split; auto. split; [congruence|]. rewrite C2, C1, <- app_assoc. reflexivity.
Qed.
Lemma add_all_plain cls c : well c -> (forall cl, In cl cls -> clean cl) ->
  exists c', add_all cnf_add_clause cls c = Ok c' /\ well c' /\ cn_names c' = with_new (cn_names c) (map snd (concat cls)) /\
    cnf_clauses c' = cnf_clauses c ++ cls.
Proof.
  revert c. induction cls as [|cl t IH]; intros c W HC; cbn [add_all concat].
  - exists c. rewrite app_nil_r. auto.
  - destruct (HC cl (or_introl eq_refl)) as [Cl1 Cl2]. destruct (add_with_ok false false true false cl c) as (c1 & E & W1 & N1 & C1); auto.
    unfold cnf_add_clause at 1. rewrite E. cbn [bind]. destruct (IH c1 W1) as (c2 & E2 & W2 & N2 & C2).
    { intros; apply HC; right; auto. }
    exists c2. split; auto. split; auto. split; [rewrite N2, N1, map_app, with_new_app; auto|]. rewrite C2, C1, <- app_assoc. reflexivity.
Qed.
Lemma add_all_app add F G c : add_all add (F ++ G) c = (c' <- add_all add F c ;; add_all add G c').
Proof. revert c. induction F as [|cl t IH]; intros c; cbn [app add_all bind]; auto. destruct (add cl c); cbn [bind]; auto. Qed.
Lemma vars_well vs : well (add_variables vs empty_cnf).
Proof.
  apply (grown_well empty_cnf _ vs); [split; [constructor|intros ? ? []]|apply add_variables_names|apply add_variables_numbers].
Qed.
Lemma vars_names vs v : In v (cn_names (add_variables vs empty_cnf)) <-> In v vs.
Proof. rewrite add_variables_names. rewrite with_new_In. cbn. tauto. Qed.
Lemma vars_clauses vs : cnf_clauses (add_variables vs empty_cnf) = [].
Proof. unfold cnf_clauses. rewrite add_variables_numbers. reflexivity. Qed.
Lemma add_all_made add cls c c' : (forall cl c c', made c -> add cl c = Ok c' -> made c') -> made c -> add_all add cls c = Ok c' -> made c'.
Proof.
  intros HA. revert c. induction cls as [|cl t IH]; intros c M H; cbn [add_all] in H.
  - injection H as <-. auto.
  - destruct (add cl c) eqn:E; try discriminate. cbn [bind] in H. eapply IH; [|exact H]. eauto.
Qed.
Lemma strict_made cl c c' : made c -> add_clause_strict cl c = Ok c' -> made c'.
Proof. intros; eapply made_clause; eauto. Qed.
Lemma plain_made cl c c' : made c -> cnf_add_clause cl c = Ok c' -> made c'.
Proof. intros; eapply made_clause; eauto. Qed.
Lemma unsafe_made cl c c' : made c -> add_clause_unsafe cl c = Ok c' -> made c'.
Proof. intros; eapply made_unsafe; eauto. Qed.
Lemma variables_made vs c : made c -> made (add_variables vs c).
Proof. unfold add_variables. revert c. induction vs; intros; cbn [fold_left]; auto. apply IHvs. constructor; auto. Qed.

(* numbers and names: the same formula *)
Lemma names_numbers c (asg : Z -> bool) : well c ->
  (cnf_true asg (cn_clauses c) <->
   all_hold (fun v => match position v (cn_names c) 1 with Some k => asg k | None => false end) (cnf_clauses c)).
Proof.
  intros [N H]. unfold cnf_clauses. split.
  - intros T cl Hc. apply in_map_iff in Hc as (z & <- & Hz). destruct (T z Hz) as (l & Hl & E). specialize (H z l Hz Hl).
    exists (0 <? l), (nth (Z.to_nat (Z.abs l - 1)) (cn_names c) []). split; [apply in_map_iff; exists l; auto|].
    rewrite position_nth by (auto; lia). unfold lit_true in E. destruct (Z.ltb_spec l 0), (Z.ltb_spec 0 l); try lia.
    + apply negb_true_iff in E. rewrite <- E. f_equal. lia.
    + rewrite <- E. f_equal. lia.
  - intros T z Hz. destruct (T (uncompress_clause (cn_names c) z)) as (p & v & Hv & E); [apply in_map; auto|].
    apply in_map_iff in Hv as (l & El & Hl). injection El as <- <-. specialize (H z l Hz Hl). exists l. split; auto.
    rewrite position_nth in E by (auto; lia). unfold lit_true. destruct (Z.ltb_spec l 0), (Z.ltb_spec 0 l); try lia.
    + apply negb_true_iff. rewrite <- E. f_equal. lia.
    + rewrite <- E. f_equal. lia.
Qed.
Lemma clause_holds_ext {A} (a b : A -> bool) c : (forall p v, In (p, v) c -> a v = b v) -> clause_holds a c -> clause_holds b c.
Proof. intros H (p & v & Hv & E). exists p, v. split; auto. rewrite <- E. symmetry. eauto. Qed.
Lemma same_satisfiable c : well c -> (satisfiable (cn_clauses c) <-> has_model (cnf_clauses c)).
Proof.
  intros W. split.
  - intros (asg & T). eexists. apply (names_numbers c asg W). exact T.
  - intros (a & T). exists (fun z => a (nth (Z.to_nat (z - 1)) (cn_names c) [])). apply names_numbers; auto.
    intros cl Hc. specialize (T cl Hc). revert T. apply clause_holds_ext. intros p v Hv.
    destruct W as [N H]. unfold cnf_clauses in Hc. apply in_map_iff in Hc as (z & <- & Hz). apply in_map_iff in Hv as (l & E & Hl).
    injection E as _ <-. specialize (H z l Hz Hl). rewrite position_nth by (auto; lia). f_equal. f_equal. lia.
Qed.
