(* PEval.v -- lemmas about Set.evaluate and Set.substitute_vars. *)
From Coq Require Import String Ascii ZArith List Bool Lia Permutation Sorted.
From Verif Require Import Spec PyBase MSet MText MQueue MDb MSolver SpecRun PLib PClause PRename PLo PNorm.
Import ListNotations.
Open Scope Z_scope.

(* ---- truth only depends on the variables that occur ---- *)
Lemma lit_true_ext a b l : a (Z.abs l) = b (Z.abs l) -> lit_true a l = lit_true b l.
Proof.
  unfold lit_true. intros H. destruct (Z.ltb_spec l 0).
  - replace (- l) with (Z.abs l) by lia. congruence.
  - replace l with (Z.abs l) by lia. auto.
Qed.
Lemma clause_true_ext a b c : (forall v, In v (cvars c) -> a v = b v) ->
  clause_true a c -> clause_true b c.
Proof.
  intros H (l & Hl & Ht). exists l; split; auto. rewrite <- (lit_true_ext a); auto.
  apply H, in_map; auto.
Qed.
Lemma cnf_true_ext a b F : (forall v, In v (fvars F) -> a v = b v) ->
  cnf_true a F -> cnf_true b F.
Proof.
  intros H HF c Hc. apply (clause_true_ext a); auto. intros v Hv. apply H, in_fvars; eauto.
Qed.
Lemma cnf_true_ext_iff a b F : (forall v, In v (fvars F) -> a v = b v) ->
  (cnf_true a F <-> cnf_true b F).
Proof. intros H; split; apply cnf_true_ext; auto. intros; symmetry; auto. Qed.

(* ---- restriction ---- *)
Lemma made_true_lit a v b l : a v = b -> Z.abs l = v -> made_true v b l = lit_true a l.
Proof.
  intros Ha Hl. unfold made_true, lit_true. rewrite Hl, Z.eqb_refl; simpl.
  destruct (Z.ltb_spec l 0).
  - replace (- l) with v by lia. rewrite Ha; auto.
  - replace l with v by lia. auto.
Qed.
Lemma restrict_true a v b F : a v = b -> (cnf_true a F <-> cnf_true a (restrict v b F)).
Proof.
  intros Ha. unfold restrict, cnf_true. split.
  - intros H d Hd. apply in_map_iff in Hd as (c & <- & Hc). apply filter_In in Hc as [Hc He].
    destruct (H c Hc) as (l & Hl & Ht). exists l; split; auto. apply filter_In; split; auto.
    destruct (Z.eqb_spec (Z.abs l) v) as [E|E]; auto. exfalso.
    apply negb_true_iff in He. rewrite <- not_true_iff_false in He. apply He.
    apply existsb_exists. exists l; split; auto. rewrite (made_true_lit a); auto.
  - intros H c Hc. destruct (existsb (made_true v b) c) eqn:E.
    + apply existsb_exists in E as (l & Hl & Hm). exists l; split; auto.
      rewrite <- (made_true_lit a v b); auto. unfold made_true in Hm.
      apply andb_true_iff in Hm as [Hm _]. apply Z.eqb_eq in Hm; auto.
    + destruct (H (filter (fun l => negb (Z.abs l =? v)) c)) as (l & Hl & Ht).
      * apply in_map. apply filter_In; split; auto. rewrite E; auto.
      * apply filter_In in Hl as [Hl _]. exists l; auto.
Qed.
Lemma restrict_vars v b F w : In w (fvars (restrict v b F)) -> In w (fvars F) /\ w <> v.
Proof.
  intros H. apply in_fvars in H as (d & Hd & Hw). unfold restrict in Hd.
  apply in_map_iff in Hd as (c & <- & Hc). apply filter_In in Hc as [Hc _].
  apply in_cvars in Hw as (l & Hl & <-). apply filter_In in Hl as [Hl Hn].
  split; [apply in_fvars; exists c; split; auto; apply in_map; auto|].
  destruct (Z.eqb_spec (Z.abs l) v); [discriminate | auto].
Qed.
Lemma cnf_true_nonempty a F :
  cnf_true a F <-> ~ In [] F /\ cnf_true a (filter nonempty F).
Proof.
  unfold cnf_true. split.
  - intros H. split.
    + intros Hn. destruct (H [] Hn) as (l & [] & _).
    + intros c Hc. apply filter_In in Hc as [Hc _]; auto.
  - intros [H1 H2] c Hc. apply H2, filter_In. split; auto. destruct c; auto.
Qed.


Lemma good_init c : good_clause c ->
  with_index (clause_init (raw c)) (initial_index c) =
  mkClause (raw c) None false (initial_index c).
Proof.
  intros (H1 & H2 & _). rewrite clause_init_distinct by auto. rewrite sort_abs_id by auto.
  reflexivity.
Qed.

Lemma forallb_filter_id {A} (f : A -> bool) l : forallb f l = true -> filter f l = l.
Proof.
  induction l as [|x t IH]; simpl; auto. intros H. apply andb_true_iff in H as [-> H]. f_equal; auto.
Qed.

Lemma distinct_removal p c : distinct_vars c -> In p c ->
  remove_first p c = filter (fun l => negb (Z.abs l =? Z.abs p)) c.
Proof.
  induction c as [|x t IH]; simpl; [tauto|]. intros Hd Hp.
  apply distinct_vars_cons in Hd as [Hx Hd].
  destruct (Z.eqb_spec p x) as [->|Hne].
  - rewrite Z.eqb_refl; simpl. symmetry. apply forallb_filter_id. apply forallb_forall.
    intros y Hy. apply negb_true_iff, Z.eqb_neq. intros E. apply Hx. rewrite <- E. apply in_map; auto.
  - destruct Hp as [->|Hp]; [congruence|].
    destruct (Z.eqb_spec (Z.abs x) (Z.abs p)) as [E|E]; simpl.
    + exfalso. apply Hx. rewrite E. apply in_map; auto.
    + f_equal; auto.
Qed.
Lemma no_pivot_filter p c : ~ In p c -> ~ In (- p) c ->
  filter (fun l => negb (Z.abs l =? Z.abs p)) c = c.
Proof.
  intros H1 H2. apply forallb_filter_id, forallb_forall. intros y Hy.
  apply negb_true_iff, Z.eqb_neq. intros E.
  apply abs_eq_cases in E as [->| ->]; auto.
Qed.
Lemma existsb_false {A} (f : A -> bool) l : (forall x, In x l -> f x = false) -> existsb f l = false.
Proof.
  intros H. rewrite <- not_true_iff_false, existsb_exists. intros (x & Hx & E).
  rewrite H in E by auto. discriminate.
Qed.
Lemma existsb_true {A} (f : A -> bool) l x : In x l -> f x = true -> existsb f l = true.
Proof. intros; apply existsb_exists; eauto. Qed.

Lemma distinct_unique c x y : distinct_vars c -> In x c -> In y c -> Z.abs x = Z.abs y -> x = y.
Proof.
  induction c as [|z t IH]; simpl; [tauto|]. intros Hd Hx Hy E.
  apply distinct_vars_cons in Hd as [Hz Hd].
  destruct Hx as [->|Hx], Hy as [->|Hy]; auto; exfalso; apply Hz.
  - rewrite E. apply in_map; auto. - rewrite <- E. apply in_map; auto.
Qed.

Lemma cvars_filter_incl f c v : In v (cvars (filter f c)) -> In v (cvars c).
Proof.
  intros H. apply in_cvars in H as (l & Hl & <-). apply filter_In in Hl as [Hl _]. apply in_map; auto.
Qed.
Lemma filter_distinct f c : distinct_vars c -> distinct_vars (filter f c).
Proof.
  induction c as [|x t IH]; simpl; auto. intros Hd. apply distinct_vars_cons in Hd as [Hx Hd].
  destruct (f x); auto. apply distinct_vars_cons; split; auto.
  intros H; apply Hx. eapply cvars_filter_incl; eauto.
Qed.
Lemma filter_sorted f c : sorted_clause c -> sorted_clause (filter f c).
Proof.
  unfold sorted_clause. induction c as [|x t IH]; simpl; auto. intros Hs. inv Hs.
  destruct (f x); auto. simpl. constructor; auto. rewrite Forall_forall in *.
  intros y Hy. apply H2. eapply cvars_filter_incl; eauto.
Qed.

Lemma branch_spec p cs : 0 <= p -> Forall good_clause cs ->
  forall lc rc lf rf, branch p cs = (lc, rc, lf, rf) ->
  map raw lc = filter nonempty (restrict p true (map raw cs)) /\
  map raw rc = filter nonempty (restrict p false (map raw cs)) /\
  (lf = true <-> In [] (restrict p true (map raw cs))) /\
  (rf = true <-> In [] (restrict p false (map raw cs))) \/
  (exists c, In c cs /\ raw c = []).
Proof.
  intros Hp. induction 1 as [|c t Hg Ht IH]; intros lc rc lf rf E.
  - simpl in E. inv E. left. unfold restrict; simpl. repeat split; auto; try discriminate; tauto.
  - cbn [branch] in E. destruct (branch p t) as [[[lc0 rc0] lf0] rf0].
    rewrite good_init in E by auto. cbn [raw initial_index] in E.
    destruct (IH _ _ _ _ eq_refl) as [(I1 & I2 & I3 & I4)|(c0 & Hc0 & E0)];
      [|right; exists c0; simpl; auto].
    destruct (raw c) as [|x0 r0] eqn:Er0; [right; exists c; simpl; auto|]. rewrite <- Er0 in *. left.
    destruct Hg as (Hd & Hs & Hv). unfold restrict in *. cbn [map filter].
    assert (Habs : Z.abs p = p) by lia.
    destruct (zmem_spec p (raw c)) as [Hi|Hi].
    + assert (T1 : existsb (made_true p true) (raw c) = true).
      { apply (existsb_true _ _ p); auto. unfold made_true. rewrite Habs, Z.eqb_refl; simpl.
        destruct (Z.ltb_spec p 0); [lia|auto]. }
      assert (T2 : existsb (made_true p false) (raw c) = false).
      { apply existsb_false. intros x Hx. unfold made_true.
        destruct (Z.eqb_spec (Z.abs x) p) as [Ea|]; auto. simpl.
        assert (x = p) by (apply (distinct_unique (raw c)); auto; lia). subst x.
        destruct (Z.ltb_spec p 0); [lia|auto]. }
      rewrite T1, T2. cbn [negb map].
      rewrite (distinct_removal p) in E by auto. rewrite Habs in E.
      destruct (filter (fun l => negb (Z.abs l =? p)) (raw c)) as [|y r] eqn:Ef; inv E.
      * repeat split; auto; try tauto. all: simpl; intros; auto.
      * cbn [map raw filter nonempty]. repeat split; auto; try (f_equal; auto); try tauto.
        -- intros H; right; apply I4; auto. -- intros [H|H]; [discriminate | apply I4; auto].
    + destruct (zmem_spec (- p) (raw c)) as [Hj|Hj].
      * assert (Hp0 : p <> 0) by (intros ->; simpl in Hj; auto).
        assert (T1 : existsb (made_true p true) (raw c) = false).
        { apply existsb_false. intros x Hx. unfold made_true.
          destruct (Z.eqb_spec (Z.abs x) p) as [Ea|]; auto. simpl.
          assert (x = - p) by (apply (distinct_unique (raw c)); auto; lia). subst x.
          destruct (Z.ltb_spec (- p) 0); [auto|lia]. }
        assert (T2 : existsb (made_true p false) (raw c) = true).
        { apply (existsb_true _ _ (- p)); auto. unfold made_true. rewrite Z.abs_opp, Habs, Z.eqb_refl; simpl.
          destruct (Z.ltb_spec (- p) 0); [auto|lia]. }
        rewrite T1, T2. cbn [negb map].
        rewrite (distinct_removal (- p)) in E by auto. rewrite Z.abs_opp, Habs in E.
        destruct (filter (fun l => negb (Z.abs l =? p)) (raw c)) as [|y r] eqn:Ef; inv E.
        -- repeat split; auto; try tauto. all: simpl; intros; auto.
        -- cbn [map raw filter nonempty]. repeat split; auto; try (f_equal; auto); try tauto.
           ++ intros H; right; apply I3; auto. ++ intros [H|H]; [discriminate | apply I3; auto].
      * assert (T : forall b, existsb (made_true p b) (raw c) = false).
        { intros b. apply existsb_false. intros x Hx. unfold made_true.
          destruct (Z.eqb_spec (Z.abs x) p) as [Ea|]; auto. exfalso.
          rewrite <- Habs in Ea. apply abs_eq_cases in Ea as [->| ->]; auto. }
        rewrite !T. cbn [negb map].
        assert (Ec : clause_init (raw c) = mkClause (raw c) None false 0).
        { rewrite clause_init_distinct, sort_abs_id; auto. }
        rewrite Ec in E. inv E.
        pose proof (no_pivot_filter p (raw c) Hi Hj) as Hf. rewrite Habs in Hf. rewrite Hf.
        cbn [with_index map raw filter]. rewrite Er0; cbn [nonempty].
        repeat split; auto; try (f_equal; auto); try tauto.
        -- intros H; right; apply I3; auto. -- intros [H|H]; [discriminate | apply I3; auto].
        -- intros H; right; apply I4; auto. -- intros [H|H]; [discriminate | apply I4; auto].
Qed.

(* every clause of a branch: undecided, sorted, distinct, nonempty, no longer than its origin *)
Lemma branch_clauses p cs : 0 <= p -> Forall good_clause cs -> nonempty_clauses (map raw cs) ->
  forall lc rc lf rf, branch p cs = (lc, rc, lf, rf) ->
  Forall good_clause lc /\ Forall good_clause rc /\
  (List.length lc <= List.length cs)%nat /\ (List.length rc <= List.length cs)%nat /\
  (forall d, In d (lc ++ rc) -> exists c, In c cs /\ initial_index d = initial_index c /\
                                    (List.length (raw d) <= List.length (raw c))%nat).
Proof.
  intros Hp Hg. induction Hg as [|c t Hc Ht IH]; intros Hne lc rc lf rf E.
  - simpl in E; inv E. simpl. repeat split; auto. tauto.
  - cbn [branch] in E. destruct (branch p t) as [[[lc0 rc0] lf0] rf0].
    rewrite good_init in E by auto. cbn [raw initial_index cvalue] in E.
    destruct (IH (fun c Hc => Hne c (or_intror Hc)) _ _ _ _ eq_refl) as (I1 & I2 & I3 & I4 & I5).
    assert (I5' : forall d, In d (lc0 ++ rc0) -> exists c0, In c0 (c :: t) /\
        initial_index d = initial_index c0 /\ (List.length (raw d) <= List.length (raw c0))%nat).
    { intros d Hd. destruct (I5 d Hd) as (c0 & ? & ? & ?). exists c0; simpl; auto. }
    destruct Hc as (Hd & Hs & Hv).
    assert (Hrem : forall q r, In q (raw c) -> Z.abs q = p -> remove_first q (raw c) = r ->
      distinct_vars r /\ sorted_clause r /\ (List.length r <= List.length (raw c))%nat).
    { intros q r Hq Ha <-. rewrite distinct_removal by auto. split; [apply filter_distinct; auto|].
      split; [apply filter_sorted; auto|]. clear. induction (raw c); simpl; auto.
      destruct (negb _); simpl; lia. }
    destruct (zmem_spec p (raw c)) as [Hi|Hi].
    + destruct (Hrem p _ Hi ltac:(lia) eq_refl) as (R1 & R2 & R3).
      destruct (remove_first p (raw c)) as [|y r] eqn:Er; inv E; simpl.
      * repeat split; auto; lia.
      * repeat split; auto; try lia.
        -- constructor; auto. split; auto.
        -- intros d Hd'. apply in_app_iff in Hd' as [H|[<-|H]].
           ++ apply I5'; apply in_app_iff; auto.
           ++ exists c; auto.
           ++ apply I5'; apply in_app_iff; auto.
    + destruct (zmem_spec (- p) (raw c)) as [Hj|Hj].
      * destruct (Hrem (- p) _ Hj ltac:(lia) eq_refl) as (R1 & R2 & R3).
        destruct (remove_first (- p) (raw c)) as [|y r] eqn:Er; inv E; simpl.
        -- repeat split; auto; lia.
        -- repeat split; auto; try lia.
           ++ constructor; auto. split; auto.
           ++ intros d [<-|H]; [exists c; auto | apply I5'; auto].
      * rewrite clause_init_distinct, sort_abs_id in E by auto. inv E. simpl.
        repeat split; auto; try lia.
        -- constructor; auto. split; auto.
        -- constructor; auto. split; auto.
        -- intros d [<-|H]; [exists c; auto|]. apply in_app_iff in H as [H|[<-|H]].
           ++ apply I5'; apply in_app_iff; auto.
           ++ exists c; auto.
           ++ apply I5'; apply in_app_iff; auto.
Qed.

(* ---- evaluate ---- *)
(* the original variable behind variable v of the set *)
Definition orig (s : cset) (v : Z) : option Z :=
  match name_at s v with Some n => dget Z.eqb n (original_values s) | None => None end.

Lemma original_of_spec s v o :
  final_names_map s <> [] -> 1 <= v <= Z.of_nat (List.length (final_names_map s)) ->
  (original_of s v = Ok o <-> orig s v = Some o).
Proof.
  intros Hne Hv. unfold original_of, orig, name_at.
  destruct (py_index_nonneg (final_names_map s) (v - 1)) as (n & H1 & H2); [lia|].
  rewrite H1; simpl. destruct (final_names_map s) as [|f0 ft]; [congruence|].
  destruct (Z.leb_spec 1 v); [|lia]. rewrite H2.
  destruct (dget Z.eqb n (original_values s)); simpl; split; congruence.
Qed.

Lemma get_variables_In s v : In v (get_variables s) <-> In v (fvars (raws s)).
Proof. unfold get_variables. rewrite dedup_In, concat_map_abs. tauto. Qed.

Lemma child_originals_dget s vars lo :
  NoDup vars -> child_originals s vars = Ok lo ->
  forall v, In v vars -> exists o, original_of s v = Ok o /\ dget Z.eqb v lo = Some o.
Proof.
  intros Hn H. apply mapM_ok in H. 
  assert (HF : Forall2 (fun x y => fst y = x /\ original_of s x = Ok (snd y)) vars lo).
  { eapply Forall2_impl_in; [|exact H]. intros x y _ _ E. apply bind_ok in E as (o & E1 & E2).
    inv E2; auto. }
  clear H. induction HF as [|x [k o] vars lo [E1 E2] HF IH]; simpl; [tauto|]. simpl in E1, E2. subst k.
  inv Hn. intros v [->|Hv].
  - exists o. rewrite Z.eqb_refl; auto.
  - destruct (Z.eqb_spec v x); [congruence|]. auto.
Qed.
Lemma child_originals_total s vars :
  (forall v, In v vars -> exists o, original_of s v = Ok o) -> exists lo, child_originals s vars = Ok lo.
Proof.
  intros H. apply mapM_total. intros v Hv. destruct (H v Hv) as [o Ho]. rewrite Ho; simpl; eauto.
Qed.
Lemma child_originals_keys s vars lo :
  child_originals s vars = Ok lo -> dkeys lo = vars.
Proof.
  intros H. apply mapM_ok in H. induction H as [|x [k o] vars lo E HF IH]; simpl; auto.
  apply bind_ok in E as (o' & E1 & E2). inv E2. unfold dkeys in *; simpl. f_equal; auto.
Qed.

(* what evaluate returns on a set of undecided, sorted, distinct, non-empty clauses whose variables
   all have an original *)
Record child_of (s : cset) (p po : Z) (b : bool) (c : cset) : Prop := mkChild {
  ch_raws : raws c = filter nonempty (restrict p b (raws s));
  ch_value : svalue c = if existsb (fun d => negb (nonempty d)) (restrict p b (raws s)) then Some false
                        else match restrict p b (raws s) with [] => Some true | _ => None end;
  ch_good : Forall good_clause (clauses c);
  ch_len : (List.length (clauses c) <= List.length (clauses s))%nat;
  ch_from : forall d, In d (clauses c) -> exists c0, In c0 (clauses s) /\
              initial_index d = initial_index c0 /\ (List.length (raw d) <= List.length (raw c0))%nat;
  ch_evaluated : evaluated_vars c = dset Z.eqb po b (evaluated_vars s);
  ch_orig : forall v, In v (fvars (raws c)) -> exists o, original_of s v = Ok o /\
                                        dget Z.eqb v (original_values c) = Some o;
  ch_keys : NoDup (dkeys (original_values c)) /\
            forall v, In v (dkeys (original_values c)) <-> In v (fvars (raws c));
  ch_names : final_names_map c = [];
  ch_hash : computed_hash c = None;
  ch_id : sid c = []
}.

Lemma In_nil_existsb F : In [] F <-> existsb (fun d => negb (nonempty d)) F = true.
Proof.
  rewrite existsb_exists. split.
  - intros H. exists []; auto.
  - intros (x & Hx & E). destruct x; [auto | discriminate].
Qed.

Lemma branch_value_eq (lc : list clause) lf F :
  map raw lc = filter nonempty F -> (lf = true <-> In [] F) ->
  branch_value lc lf = if existsb (fun d => negb (nonempty d)) F then Some false
                       else match F with [] => Some true | _ => None end.
Proof.
  intros HR Hf. unfold branch_value. rewrite In_nil_existsb in Hf.
  destruct (existsb (fun d => negb (nonempty d)) F) eqn:E.
  - rewrite (proj2 Hf eq_refl); auto.
  - destruct lf; [destruct Hf as [Hf _]; specialize (Hf eq_refl); discriminate|].
    destruct F as [|d F].
    + apply map_eq_nil in HR; subst; auto.
    + simpl in E. apply orb_false_iff in E as [E1 E2]. destruct (nonempty d) eqn:En; [|discriminate].
      simpl in HR. rewrite En in HR. destruct lc; [discriminate | auto].
Qed.


Lemma lead_In s x r t : clauses s <> [] -> raws s = (x :: r) :: t -> In (Z.abs x) (fvars (raws s)).
Proof. intros _ E. rewrite E. unfold fvars; simpl; auto. Qed.


Lemma evaluate_spec s : eval_ready s ->
  exists l r po, evaluate s = Ok (Some (l, r)) /\
    In (pivot_of s) (fvars (raws s)) /\ original_of s (pivot_of s) = Ok po /\
    child_of s (pivot_of s) po true l /\ child_of s (pivot_of s) po false r.
Proof.
  intros (Hg & Hne & Hc & Ho).
  unfold evaluate, pivot_of. unfold raws at 1 2 3 4 5. 
  destruct (clauses s) as [|c t] eqn:Ec; [congruence|].
  assert (Hrs : raws s = raw c :: map raw t) by (unfold raws; rewrite Ec; auto).
  destruct (raw c) as [|x r0] eqn:Er; [exfalso; apply (Hne []); [rewrite Hrs; simpl; auto | auto]|].
  cbn [map hd]. rewrite Er. cbn [leading].
  assert (Hin : In (Z.abs x) (fvars (raws s))) by (rewrite Hrs; unfold fvars; simpl; auto).
  rewrite <- Ec in *.
  destruct (branch (Z.abs x) (clauses s)) as [[[lc rc] lf] rf] eqn:Eb.
  assert (Hp : 0 <= Z.abs x) by lia.
  destruct (branch_spec _ _ Hp Hg _ _ _ _ Eb) as [(B1 & B2 & B3 & B4)|(c0 & Hc0 & E0)];
    [|exfalso; apply (Hne []); [unfold raws; rewrite <- E0; apply in_map; auto | auto]].
  destruct (branch_clauses _ _ Hp Hg Hne _ _ _ _ Eb) as (C1 & C2 & C3 & C4 & C5).
  fold (raws s) in *.
  set (l0 := set_value (set_clauses empty_set lc) (branch_value lc lf)).
  set (r0' := set_value (set_clauses empty_set rc) (branch_value rc rf)).
  assert (Hvl : forall v, In v (fvars (raws l0)) -> In v (fvars (raws s))).
  { intros v Hv. unfold l0, raws in Hv; simpl in Hv. rewrite B1 in Hv.
    apply in_fvars in Hv as (d & Hd & Hv). apply filter_In in Hd as [Hd _].
    eapply restrict_vars. apply in_fvars; eauto. }
  assert (Hvr : forall v, In v (fvars (raws r0')) -> In v (fvars (raws s))).
  { intros v Hv. unfold r0', raws in Hv; simpl in Hv. rewrite B2 in Hv.
    apply in_fvars in Hv as (d & Hd & Hv). apply filter_In in Hd as [Hd _].
    eapply restrict_vars. apply in_fvars; eauto. }
  destruct (child_originals_total s (get_variables l0)) as [lo Elo].
  { intros v Hv. apply Ho, Hvl, get_variables_In; auto. }
  destruct (child_originals_total s (get_variables r0')) as [ro Ero].
  { intros v Hv. apply Ho, Hvr, get_variables_In; auto. }
  destruct (Ho _ Hin) as [po Hpo].
  rewrite Elo; cbn [bind]. rewrite Ero; cbn [bind].
  replace (Z.abs (Z.abs x)) with (Z.abs x) by lia. rewrite Hpo; cbn [bind].
  eexists _, _, po. split; [reflexivity|]. split; [rewrite Hrs in Hin; exact Hin|]. split; [auto|].
  split; constructor; auto.
  - cbn [svalue set_evaluated set_original set_value l0]. apply branch_value_eq; auto.
  - intros d Hd. apply C5, in_app_iff; auto.
  - intros v Hv. eapply child_originals_dget; eauto; [apply dedup_NoDup|].
    apply get_variables_In; auto.
  - cbn [original_values set_evaluated set_original]. rewrite (child_originals_keys _ _ _ Elo). split; [apply dedup_NoDup|].
    intros v. exact (get_variables_In l0 v).
  - cbn [svalue set_evaluated set_original set_value r0']. apply branch_value_eq; auto.
  - intros d Hd. apply C5, in_app_iff; auto.
  - intros v Hv. eapply child_originals_dget; eauto; [apply dedup_NoDup|].
    apply get_variables_In; auto.
  - cbn [original_values set_evaluated set_original]. rewrite (child_originals_keys _ _ _ Ero). split; [apply dedup_NoDup|].
    intros v. exact (get_variables_In r0' v).
Qed.

(* meaning of the value of a child *)
Lemma child_true s p po b c : child_of s p po b c -> svalue c = Some true ->
  forall a, a p = b -> cnf_true a (raws s).
Proof.
  intros C Hv a Ha. apply (restrict_true a p b); auto. rewrite (ch_value _ _ _ _ _ C) in Hv.
  destruct (existsb _ _); [discriminate|]. destruct (restrict p b (raws s)) eqn:E; [|discriminate].
  intros d [].
Qed.
Lemma child_false s p po b c : child_of s p po b c -> svalue c = Some false ->
  forall a, a p = b -> ~ cnf_true a (raws s).
Proof.
  intros C Hv a Ha H. apply (restrict_true a p b) in H; auto.
  rewrite (ch_value _ _ _ _ _ C) in Hv. apply cnf_true_nonempty in H as [H _].
  rewrite In_nil_existsb in H. destruct (existsb _ _); [auto|].
  destruct (restrict p b (raws s)); discriminate.
Qed.
Lemma child_none s p po b c : child_of s p po b c -> svalue c = None ->
  clauses c <> [] /\ nonempty_clauses (raws c) /\
  forall a, a p = b -> (cnf_true a (raws s) <-> cnf_true a (raws c)).
Proof.
  intros C Hv. rewrite (ch_value _ _ _ _ _ C) in Hv.
  destruct (existsb _ _) eqn:E; [discriminate|].
  destruct (restrict p b (raws s)) as [|d F] eqn:EF; [discriminate|]. split; [|split].
  - intros Hc. pose proof (ch_raws _ _ _ _ _ C) as HR. unfold raws in HR at 1; rewrite Hc in HR.
    rewrite EF in HR. simpl in HR, E. apply orb_false_iff in E as [E _].
    destruct (nonempty d); [discriminate HR | discriminate E].
  - intros x Hx. rewrite (ch_raws _ _ _ _ _ C) in Hx. apply filter_In in Hx as [_ Hx].
    destruct x; [discriminate | congruence].
  - intros a Ha. rewrite (restrict_true a p b) by auto. rewrite EF, cnf_true_nonempty.
    rewrite In_nil_existsb, E. rewrite (ch_raws _ _ _ _ _ C), EF. intuition discriminate.
Qed.
Lemma child_vars s p po b c : child_of s p po b c ->
  forall v, In v (fvars (raws c)) -> In v (fvars (raws s)) /\ v <> p.
Proof.
  intros C v Hv. rewrite (ch_raws _ _ _ _ _ C) in Hv. apply in_fvars in Hv as (d & Hd & Hv).
  apply filter_In in Hd as [Hd _]. eapply restrict_vars. apply in_fvars; eauto.
Qed.
Lemma child_nvars s p po b c : child_of s p po b c -> In p (fvars (raws s)) ->
  (nvars (raws c) < nvars (raws s))%nat.
Proof.
  intros C Hp. unfold nvars.
  assert (Hi : incl (p :: dedup (fvars (raws c))) (dedup (fvars (raws s)))).
  { intros x [<-|Hx]; [apply dedup_In; auto|]. apply (proj1 (dedup_In _ _)) in Hx.
    apply dedup_In. eapply child_vars; eauto. }
  apply NoDup_incl_length in Hi; [simpl in Hi; lia|]. constructor; [|apply dedup_NoDup].
  intros H. apply (proj1 (dedup_In _ _)) in H. apply (child_vars _ _ _ _ _ C) in H as [_ H]. auto.
Qed.
Lemma child_below_len L s p po b c : child_of s p po b c ->
  below_len L (raws s) -> below_len L (raws c).
Proof.
  intros C H d Hd. unfold raws in Hd. apply in_map_iff in Hd as (d' & <- & Hd).
  destruct (ch_from _ _ _ _ _ C d' Hd) as (c0 & H1 & _ & H3). specialize (H (raw c0) (in_map raw _ _ H1)). lia.
Qed.

(* ---- substitute_vars ---- *)
Lemma assigned_dget d l : assigned_by d l = dmem Z.eqb (Z.abs l) d.
Proof.
  unfold assigned_by, dmem. induction d as [|[k v] t IH]; simpl; auto.
  rewrite Z.eqb_sym. destruct (Z.eqb_spec (Z.abs l) k); simpl; auto.
Qed.
Lemma satisfied_dget d l : NoDup (dkeys d) -> l <> 0 ->
  satisfied_by d l = match dget Z.eqb (Z.abs l) d with
                     | Some b => (b && (0 <? l)) || (negb b && (l <? 0)) | None => false end.
Proof.
  intros Hn Hl. unfold satisfied_by. induction d as [|[k v] t IH]; auto.
  unfold dkeys in *. cbn [map fst] in Hn. inv Hn. cbn [existsb dget fst snd].
  rewrite IH by auto. rewrite (Z.eqb_sym k).
  destruct (Z.eqb_spec (Z.abs l) k) as [<-|Hne]; cbn [andb orb]; auto.
  assert (Hg : dget Z.eqb (Z.abs l) t = None) by (apply (dget_None _ zspec); auto). rewrite Hg.
  destruct (Z.ltb_spec 0 l), (Z.ltb_spec l 0), v; simpl; auto; lia.
Qed.
Lemma remove_first_app v p t : ~ In v p -> remove_first v (p ++ v :: t) = p ++ t.
Proof.
  induction p as [|x p IH]; simpl; intros H.
  - rewrite Z.eqb_refl; auto.
  - destruct (Z.eqb_spec v x); [subst; tauto|]. f_equal; auto.
Qed.
Lemma subst_lits_spec d todo p : NoDup (dkeys d) -> Forall (fun l => l <> 0) todo ->
  Forall (fun l => assigned_by d l = false) p ->
  subst_lits d todo (p ++ todo) =
    if existsb (satisfied_by d) todo then None
    else Some (p ++ filter (fun l => negb (assigned_by d l)) todo).
Proof.
  intros Hn. revert p. induction todo as [|v t IH]; intros p Hz Hp; cbn [subst_lits existsb filter]; auto.
  inv Hz. rewrite (satisfied_dget d v) by auto. rewrite (assigned_dget d v). unfold dmem.
  destruct (dget Z.eqb (Z.abs v) d) as [b|] eqn:Eg.
  - destruct ((b && (0 <? v)) || (negb b && (v <? 0))) eqn:Eb; cbn [orb negb]; auto.
    rewrite remove_first_app; auto. intros Hi. rewrite Forall_forall in Hp. specialize (Hp v Hi).
    rewrite assigned_dget in Hp. unfold dmem in Hp. rewrite Eg in Hp. discriminate.
  - cbn [orb negb]. replace (p ++ v :: t) with ((p ++ [v]) ++ t) by (rewrite <- app_assoc; auto).
    rewrite IH; auto.
    + rewrite <- app_assoc; auto.
    + apply Forall_app; split; auto. constructor; auto. rewrite assigned_dget; unfold dmem; rewrite Eg; auto.
Qed.

(* one clause: dropped if a literal is satisfied; unchanged if no variable is assigned; otherwise
   the assigned (hence falsified) literals are removed, and the clause becomes False if none is left *)
Definition subst_result (d : list (Z * bool)) (c c' : clause) : Prop :=
  raw c' = filter (fun l => negb (assigned_by d l)) (raw c) /\
  substituted c' = substituted c /\ initial_index c' = initial_index c /\
  (cvalue c' = if negb (nonempty (raw c')) && nonempty (raw c) then Some false else cvalue c).

Lemma filter_all_id {A} (f : A -> bool) l : (forall x, In x l -> f x = true) -> filter f l = l.
Proof. intros H; apply forallb_filter_id, forallb_forall; auto. Qed.

Lemma subst_clause_spec d c : NoDup (dkeys d) -> Forall (fun l => l <> 0) (raw c) ->
  match subst_clause d c with
  | None => existsb (satisfied_by d) (raw c) = true
  | Some c' => existsb (satisfied_by d) (raw c) = false /\ subst_result d c c'
  end.
Proof.
  intros Hn Hz. unfold subst_clause. destruct (existsb _ (raw c)) eqn:E.
  - pose proof (subst_lits_spec d (raw c) [] Hn Hz (Forall_nil _)) as H. cbn [app] in H. rewrite H.
    destruct (existsb (satisfied_by d) (raw c)); auto.
    assert (Hne : raw c <> []) by (intros E0; rewrite E0 in E; discriminate).
    destruct (filter _ (raw c)) as [|x r] eqn:Ef; split; auto; unfold subst_result; cbn; rewrite Ef;
      destruct (raw c); [congruence|auto|congruence|auto].
  - assert (Ha : forall l, In l (raw c) -> assigned_by d l = false).
    { intros l Hl. rewrite assigned_dget. rewrite <- not_true_iff_false in *. intros E2. apply E.
      apply existsb_exists; eauto. }
    split.
    + apply existsb_false. intros l Hl. rewrite satisfied_dget; auto.
      * specialize (Ha l Hl). rewrite assigned_dget in Ha. unfold dmem in Ha.
        destruct (dget Z.eqb (Z.abs l) d); [discriminate|auto].
      * rewrite Forall_forall in Hz; auto.
    + unfold subst_result. rewrite filter_all_id by (intros x Hx; rewrite Ha; auto).
      repeat split; auto. destruct (raw c); auto.
Qed.

Lemma substitute_spec s d : NoDup (dkeys d) -> Forall (fun l => l <> 0) (concat (raws s)) ->
  Forall2 (subst_result d)
    (filter (fun c => negb (existsb (satisfied_by d) (raw c))) (clauses s))
    (clauses (substitute_vars s d)).
Proof.
  intros Hn. unfold substitute_vars, raws; cbn [clauses set_clauses].
  induction (clauses s) as [|c t IH]; cbn [map concat subst_clauses filter]; [constructor|].
  intros Hz. apply Forall_app in Hz as [Hz1 Hz2]. specialize (IH Hz2).
  pose proof (subst_clause_spec d c Hn Hz1) as H. destruct (subst_clause d c).
  - destruct H as [-> H]. constructor; auto.
  - rewrite H. auto.
Qed.
Lemma substitute_raws s d : NoDup (dkeys d) -> Forall (fun l => l <> 0) (concat (raws s)) ->
  raws (substitute_vars s d) = restrict_all d (raws s).
Proof.
  intros Hn Hz. pose proof (substitute_spec s d Hn Hz) as H. unfold restrict_all, raws in *.
  revert H. generalize (clauses (substitute_vars s d)). induction (clauses s) as [|c t IH];
    cbn [map filter]; intros cs H.
  - inv H; auto.
  - cbn [map concat] in Hz. apply Forall_app in Hz as [_ Hz]. destruct (existsb _ (raw c)); cbn [negb] in *; auto.
    inv H. cbn [map]. f_equal; auto. destruct H2 as (-> & _); auto.
Qed.

Lemma restrict_all_true a d F : NoDup (dkeys d) -> extends a d -> Forall (fun l => l <> 0) (concat F) ->
  (cnf_true a F <-> cnf_true a (restrict_all d F)).
Proof.
  intros Hn Ha Hz.
  assert (Hl : forall l, l <> 0 -> assigned_by d l = true -> lit_true a l = satisfied_by d l).
  { intros l Hl Hd. rewrite satisfied_dget by auto. rewrite assigned_dget in Hd. unfold dmem in Hd.
    destruct (dget Z.eqb (Z.abs l) d) as [b|] eqn:E; [|discriminate].
    apply (dget_In _ zspec) in E. apply Ha in E. unfold lit_true.
    destruct (Z.ltb_spec l 0).
    - replace (- l) with (Z.abs l) by lia. rewrite E. destruct (Z.ltb_spec 0 l); [lia|]. destruct b; auto.
    - replace l with (Z.abs l) at 1 by lia. rewrite E. destruct (Z.ltb_spec 0 l); [|lia]. destruct b; auto. }
  assert (Hs : forall l, satisfied_by d l = true -> assigned_by d l = true).
  { intros l H. apply existsb_exists in H as (kv & H1 & H2). apply existsb_exists. exists kv; split; auto.
    apply andb_true_iff in H2 as [H2 _]; auto. }
  rewrite Forall_forall in Hz.
  assert (Hz' : forall c l, In c F -> In l c -> l <> 0).
  { intros c l H1 H2. apply Hz. apply in_concat; eauto. }
  unfold restrict_all, cnf_true. split.
  - intros H x Hx. apply in_map_iff in Hx as (c & <- & Hc). apply filter_In in Hc as [Hc He].
    destruct (H c Hc) as (l & Hi & Ht). exists l; split; auto. apply filter_In; split; auto.
    destruct (assigned_by d l) eqn:E; auto. exfalso. apply negb_true_iff in He.
    rewrite <- not_true_iff_false in He. apply He. apply existsb_exists. exists l; split; auto.
    rewrite <- Hl; auto. eapply Hz'; eauto.
  - intros H c Hc. destruct (existsb (satisfied_by d) c) eqn:E.
    + apply existsb_exists in E as (l & Hi & Hm). exists l; split; auto. rewrite Hl; auto. eapply Hz'; eauto.
    + destruct (H (filter (fun l => negb (assigned_by d l)) c)) as (l & Hi & Ht).
      * apply in_map, filter_In; split; auto. rewrite E; auto.
      * apply filter_In in Hi as [Hi _]. exists l; auto.
Qed.
