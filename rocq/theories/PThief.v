(* PThief.v -- where the clauses of a set come from, and in which order they are. *)
From Coq Require Import String Ascii ZArith List Bool Lia Permutation Sorted.
From Verif Require Import Spec PyBase MSet MText MQueue MDb MSolver SpecRun SpecThief PLib PClause PRename PLo PNorm PEval
  PText PQueue PNode PStep PRun PStats PSolver PSolve.
Import ListNotations.
Open Scope Z_scope.

Lemma input_name_oname s v : input_name s v = oname s v.
Proof. unfold input_name, oname, orig. destruct (name_at s v); auto. Qed.

(* ---- evaluate, clause by clause ---- *)
Definition keeps (p : Z) (b : bool) (c : clause) : bool :=
  negb (existsb (made_true p b) (raw c)) && nonempty (filter (fun l => negb (Z.abs l =? p)) (raw c)).
Lemma branch_index p cs : 0 <= p -> Forall good_clause cs -> nonempty_clauses (map raw cs) ->
  forall lc rc lf rf, branch p cs = (lc, rc, lf, rf) ->
  map initial_index lc = map initial_index (filter (keeps p true) cs) /\
  map initial_index rc = map initial_index (filter (keeps p false) cs).
Proof.
  intros Hp Hg. induction Hg as [|c t Hg Ht IH]; intros Hne lc rc lf rf E.
  - simpl in E; inv E. auto.
  - cbn [branch] in E. destruct (branch p t) as [[[lc0 rc0] lf0] rf0].
    rewrite good_init in E by auto. cbn [raw initial_index] in E.
    destruct (IH (fun c Hc => Hne c (or_intror Hc)) _ _ _ _ eq_refl) as (I1 & I2).
    destruct (raw c) as [|x0 r0] eqn:Er0; [exfalso; apply (Hne []); [left; exact Er0|auto]|]. rewrite <- Er0 in *.
    destruct Hg as (Hd & Hs & Hv). cbn [filter].
    assert (Hk : forall b, keeps p b c = negb (existsb (made_true p b) (raw c)) && nonempty (filter (fun l => negb (Z.abs l =? p)) (raw c))) by reflexivity.
    rewrite !Hk. clear Hk.
    assert (Habs : Z.abs p = p) by lia.
    destruct (zmem_spec p (raw c)) as [Hi|Hi].
    + assert (T1 : existsb (made_true p true) (raw c) = true).
      { apply (existsb_true _ _ p); auto. unfold made_true. rewrite Habs, Z.eqb_refl; simpl.
        destruct (Z.ltb_spec p 0); [lia|auto]. }
      assert (T2 : existsb (made_true p false) (raw c) = false).
      { apply existsb_false. intros x Hx. unfold made_true.
        destruct (Z.eqb_spec (Z.abs x) p) as [Ea|]; auto. simpl.
        assert (x = p) by (apply (distinct_unique (raw c)); auto; lia). subst x.
        destruct (Z.ltb_spec p 0); [lia|auto]. }
      rewrite T1, T2. rewrite (distinct_removal p) in E by auto. rewrite Habs in E.
      destruct (filter (fun l => negb (Z.abs l =? p)) (raw c)) as [|y r] eqn:Ef; inv E; cbn [negb andb nonempty map initial_index]; split; auto.
      f_equal; auto.
    + destruct (zmem_spec (- p) (raw c)) as [Hj|Hj].
      * assert (Hp0 : p <> 0) by (intros ->; simpl in Hj; auto).
        assert (T1 : existsb (made_true p true) (raw c) = false).
        { apply existsb_false. intros x Hx. unfold made_true.
          destruct (Z.eqb_spec (Z.abs x) p) as [Ea|]; auto. simpl.
          assert (x = - p) by (apply (distinct_unique (raw c)); auto; lia). subst x.
          destruct (Z.ltb_spec (- p) 0); [auto|lia]. }
        assert (T2 : existsb (made_true p false) (raw c) = true).
        { apply (existsb_true _ _ (- p)); auto. unfold made_true. rewrite Z.abs_opp, Habs, Z.eqb_refl; simpl.
          destruct (Z.ltb_spec (- p) 0); [auto|lia]. }
        rewrite T1, T2. rewrite (distinct_removal (- p)) in E by auto. rewrite Z.abs_opp, Habs in E.
        destruct (filter (fun l => negb (Z.abs l =? p)) (raw c)) as [|y r] eqn:Ef; inv E; cbn [negb andb nonempty map initial_index]; split; auto.
        f_equal; auto.
      * assert (T : forall b, existsb (made_true p b) (raw c) = false).
        { intros b. apply existsb_false. intros x Hx. unfold made_true.
          destruct (Z.eqb_spec (Z.abs x) p) as [Ea|]; auto. exfalso.
          rewrite <- Habs in Ea. apply abs_eq_cases in Ea as [->| ->]; auto. }
        rewrite !T. pose proof (no_pivot_filter p (raw c) Hi Hj) as Hf. rewrite Habs in Hf. rewrite Hf.
        rewrite Er0 at 1 2. rewrite clause_init_distinct, sort_abs_id in E by auto. inv E.
        cbn [negb andb nonempty map initial_index with_index]. split; f_equal; auto.
Qed.
Lemma evaluate_index s l r : eval_ready s -> evaluate s = Ok (Some (l, r)) ->
  map initial_index (clauses l) = map initial_index (filter (keeps (pivot_of s) true) (clauses s)) /\
  map initial_index (clauses r) = map initial_index (filter (keeps (pivot_of s) false) (clauses s)).
Proof.
  intros (Hg & Hne & Hc & Ho) E. unfold evaluate in E. unfold pivot_of.
  destruct (clauses s) as [|c t] eqn:Ec; [discriminate|].
  assert (Hrs : raws s = raw c :: map raw t) by (unfold raws; rewrite Ec; auto). rewrite Hrs. cbn [hd].
  destruct (raw c) as [|x r0] eqn:Er; [discriminate|]. cbn [leading].
  destruct (branch (Z.abs x) (c :: t)) as [[[lc rc] lf] rf] eqn:Eb.
  apply bind_ok in E as (lo & _ & E). apply bind_ok in E as (ro & _ & E). apply bind_ok in E as (po & _ & E).
  injection E as <- <-. cbn [clauses set_evaluated set_original set_value set_clauses].
  eapply branch_index; eauto; [lia|]. intros d Hd. apply Hne. unfold raws. rewrite Ec. exact Hd.
Qed.
Lemma pair_maps {A B C D} (f : A -> C) (g : A -> D) (f' : B -> C) (g' : B -> D) : forall l l',
  map f l = map f' l' -> map g l = map g' l' -> Forall2 (fun x y => f x = f' y /\ g x = g' y) l l'.
Proof.
  induction l as [|x l IH]; intros [|y l'] H1 H2; try discriminate; constructor.
  - simpl in *. split; congruence.
  - apply IH; simpl in *; congruence.
Qed.
Lemma filter_map_swap {A B} (f : A -> B) q l : filter q (map f l) = map f (filter (fun x => q (f x)) l).
Proof. induction l as [|x t IH]; simpl; auto. destruct (q (f x)); simpl; congruence. Qed.
Lemma filter_ext_In {A} (f g : A -> bool) l : (forall x, In x l -> f x = g x) -> filter f l = filter g l.
Proof. intros H. induction l as [|x t IH]; simpl; auto. rewrite H by (left; auto). rewrite IH; auto. intros; apply H; right; auto. Qed.
Definition kept (p : Z) (b : bool) (c : clause) : bool := negb (existsb (made_true p b) (raw c)).
Lemma evaluate_kept (s l r : cset) (po : Z) (b : bool) (c : cset) : eval_ready s -> evaluate s = Ok (Some (l, r)) ->
  c = (if b then l else r) -> child_of s (pivot_of s) po b c -> svalue c = None ->
  Forall2 (fun c0 d => filter (fun x => negb (Z.abs x =? pivot_of s)) (raw c0) = raw d /\ initial_index c0 = initial_index d)
    (filter (kept (pivot_of s) b) (clauses s)) (clauses c).
Proof.
  intros R E Ec C Hv. set (p := pivot_of s) in *.
  assert (Hn : ~ In [] (restrict p b (raws s))).
  { rewrite (ch_value _ _ _ _ _ C) in Hv. intros H. apply In_nil_existsb in H. rewrite H in Hv. discriminate. }
  assert (Hk : filter (keeps p b) (clauses s) = filter (kept p b) (clauses s)).
  { apply filter_ext_In. intros d Hd. unfold keeps, kept. destruct (existsb (made_true p b) (raw d)) eqn:Ed; auto. cbn [negb andb].
    destruct (filter _ (raw d)) as [|y t] eqn:Ef; auto. exfalso. apply Hn. unfold restrict. rewrite <- Ef. apply in_map.
    apply filter_In. split; [apply in_map; auto|]. rewrite Ed. auto. }
  apply pair_maps.
  - transitivity (raws c); [|reflexivity]. rewrite (ch_raws _ _ _ _ _ C). rewrite (forallb_filter_id nonempty).
    + unfold restrict, raws.
      rewrite filter_map_swap, map_map. reflexivity.
    + apply forallb_forall. intros d Hd. destruct d; auto.
  - rewrite <- Hk. destruct (evaluate_index s l r R E) as [H1 H2]. subst c. fold p in H1, H2. destruct b; auto.
Qed.

(* ---- provenance ---- *)
Definition corr (idx : Prop) (e : list (Z * bool)) (nm : Z -> Z) (c D : clause) : Prop :=
  (idx -> initial_index c = initial_index D) /\
  Permutation (map (rename_lit nm) (raw c)) (open_literals e (raw D)).
Definition prov (root : cset) (idx : Prop) (x : cset) : Prop :=
  exists Ds, Permutation Ds (open_clauses (evaluated_vars x) (clauses root)) /\
    Forall2 (corr idx (evaluated_vars x) (oname x)) (clauses x) Ds.

Lemma filter_perm0 {A} (f : A -> bool) l l' : Permutation l l' -> Permutation (filter f l) (filter f l').
Proof.
  induction 1; simpl; auto.
  - destruct (f x); auto.
  - destruct (f x), (f y); auto. apply perm_swap.
  - eapply perm_trans; eauto.
Qed.
Lemma filter_filter0 {A} (f g : A -> bool) l : filter f (filter g l) = filter (fun x => g x && f x) l.
Proof. induction l as [|x t IH]; simpl; auto. destruct (g x); simpl; rewrite IH; auto. Qed.
Lemma Forall2_filter2 {A B} (R : A -> B -> Prop) f g : forall l l',
  Forall2 R l l' -> (forall x y, In x l -> R x y -> f x = g y) -> Forall2 R (filter f l) (filter g l').
Proof.
  induction 1 as [|x y l l' H H' IH]; simpl; intros Hq; auto. rewrite (Hq x y) by auto.
  destruct (g y); [constructor|]; auto.
Qed.
Lemma existsb_Perm {A} (f : A -> bool) l l' : Permutation l l' -> existsb f l = existsb f l'.
Proof.
  intros P. apply eq_iff_eq_true. rewrite !existsb_exists. split; intros (x & H & E); exists x; split; auto.
  - eapply Permutation_in; eauto. - eapply Permutation_in; [apply Permutation_sym|]; eauto.
Qed.
Lemma existsb_map0 {A B} (f : A -> B) q l : existsb q (map f l) = existsb (fun x => q (f x)) l.
Proof. induction l; simpl; congruence. Qed.
Lemma existsb_ext_In {A} (f g : A -> bool) l : (forall x, In x l -> f x = g x) -> existsb f l = existsb g l.
Proof. induction l as [|x t IH]; simpl; auto. intros H. rewrite H, IH by auto. auto. Qed.

Lemma open_clauses_perm d d' cs : Permutation d d' -> open_clauses d cs = open_clauses d' cs.
Proof.
  intros P. apply filter_ext. intros D. f_equal. apply existsb_ext_In. intros l _. apply existsb_Perm. auto.
Qed.
Lemma open_literals_perm d d' c : Permutation d d' -> open_literals d c = open_literals d' c.
Proof. intros P. apply filter_ext. intros l. f_equal. apply existsb_Perm. auto. Qed.

Lemma prov_norm root idx f c s' : norm f c s' -> (forall v, In v (fvars (raws c)) -> orig c v <> None) ->
  prov root idx c -> prov root idx s'.
Proof.
  intros NM Ho (Ds & P & HF). destruct (nl_clauses _ _ _ NM) as (cs & Pc & Hs).
  destruct (Permutation_Forall2 Pc HF) as (Ds' & P' & HF').
  exists Ds'. rewrite (nl_evaluated _ _ _ NM). split; [eapply perm_trans; [apply Permutation_sym|]; eauto|].
  assert (HI : forall x, In x cs -> forall l, In l (raw x) -> In (Z.abs l) (fvars (raws c))).
  { intros x Hx l Hl. apply in_fvars. exists (raw x). split; [apply in_map; eapply Permutation_in; [apply Permutation_sym|]; eauto|apply in_map; auto]. }
  clear HF P P' Pc. revert Ds' HF'. induction Hs as [|x y cs ys Hxy Hs IH]; intros Ds' HF'; inv HF'; constructor.
  - destruct Hxy as (Q & _ & _ & Ei). destruct H1 as [C1 C2]. split.
    + intros Hi. rewrite Ei. auto.
    + eapply perm_trans; [apply Permutation_map, Permutation_sym; exact Q|]. eapply perm_trans; [|exact C2].
      rewrite map_map. apply Permutation_refl'. apply map_ext_in. intros l Hl.
      assert (Hv : In (Z.abs l) (fvars (raws c))) by (eapply HI; [left; eauto|auto]).
      rewrite rename_lit_comp by (apply (nl_pos _ _ _ NM); auto). apply rename_lit_ext.
      unfold oname, orig. rewrite (nl_names _ _ _ NM) by auto. rewrite (nl_original _ _ _ NM).
      pose proof (Ho _ Hv) as H. unfold orig in H. destruct (name_at c (Z.abs l)); [|congruence]. destruct (dget _ _ _); congruence.
  - apply IH; auto. intros z Hz. apply HI. right; auto.
Qed.
Lemma prov_view root (rdb : bool) x : prov root (rdb = false) x -> prov root (rdb = false) (view rdb x).
Proof.
  destruct rdb; auto. intros (Ds & P & HF). exists Ds. cbn [view]. cbn [evaluated_vars reloaded clauses].
  pose proof (reordered_Perm (evaluated_vars x)) as Pe. split.
  - rewrite <- (open_clauses_perm _ _ _ Pe). auto.
  - assert (G : forall i, Forall2 (corr (true = false) (reordered (evaluated_vars x)) (oname (reloaded x))) (plain i (raws x)) Ds); [|apply G].
    unfold raws. clear P. induction HF as [|c D cs Ds [_ C] HF IH]; intros i; cbn [map plain]; constructor; auto.
    split; [discriminate|]. cbn [raw]. rewrite <- (open_literals_perm _ _ _ Pe). exact C.
Qed.
Lemma assigned_app e po b l : assigned_by (e ++ [(po, b)]) l = assigned_by e l || (po =? Z.abs l).
Proof. unfold assigned_by. rewrite existsb_app. simpl. rewrite orb_false_r. auto. Qed.
Lemma satisfied_app e po b l : l <> 0 -> satisfied_by (e ++ [(po, b)]) l = satisfied_by e l || made_true po b l.
Proof.
  intros Hl. unfold satisfied_by. rewrite existsb_app. simpl. rewrite orb_false_r. f_equal. unfold made_true.
  rewrite (Z.eqb_sym (Z.abs l)). f_equal. destruct (Z.ltb_spec l 0), (Z.ltb_spec 0 l); try lia; destruct b; auto.
Qed.
Lemma existsb_orb {A} (f g : A -> bool) l : existsb (fun x => f x || g x) l = existsb f l || existsb g l.
Proof. induction l as [|x t IH]; simpl; auto. rewrite IH. destruct (f x), (g x), (existsb f t); auto. Qed.

Lemma prov_child (root : cset) (idx : Prop) (y l r : cset) (po : Z) (b : bool) (c : cset) : node (raws root) y -> ~ In 0 (fvars (raws root)) ->
  evaluate y = Ok (Some (l, r)) -> c = (if b then l else r) -> orig y (pivot_of y) = Some po ->
  In (pivot_of y) (fvars (raws y)) -> ~ In po (dkeys (evaluated_vars y)) ->
  child_of y (pivot_of y) po b c -> svalue c = None ->
  prov root idx y -> prov root idx c.
Proof.
  intros N HZ Ev Ec Hp Hpi Hn C Hv (Ds & P & HF). set (p := pivot_of y) in *. set (e := evaluated_vars y) in *.
  assert (Hev : evaluated_vars c = e ++ [(po, b)]) by (rewrite (ch_evaluated _ _ _ _ _ C); apply (dset_new _ zspec); auto).
  assert (Hpos : forall v, In v (fvars (raws y)) -> exists x, orig y v = Some x /\ oname y v = x /\ 0 < x).
  { intros v Hi. destruct (n_orig _ _ N v Hi) as (x & A & B & _ & D). exists x. split; auto. split; [unfold oname; rewrite A; auto|].
    assert (x <> 0) by (intros ->; auto). lia. }
  assert (Hmt : forall d, In d (clauses y) -> forall z, In z (raw d) -> made_true po b (rename_lit (oname y) z) = made_true p b z /\
             (Z.abs (rename_lit (oname y) z) =? po) = (Z.abs z =? p)).
  { intros d Hd z Hz. assert (Hi : In (Z.abs z) (fvars (raws y))) by (apply in_fvars; exists (raw d); split; apply in_map; auto).
    destruct (Hpos _ Hi) as (x & A & B & D).
    assert (Ea : Z.abs (rename_lit (oname y) z) = x) by (rewrite rename_lit_abs, B; lia).
    assert (Eq : (x =? po) = (Z.abs z =? p)).
    { apply eq_iff_eq_true. rewrite !Z.eqb_eq. split; [|congruence]. intros ->. apply (n_inj _ _ N); auto. congruence. }
    split; [|rewrite Ea; exact Eq]. unfold made_true. rewrite Ea, Eq.
    assert (Es : (rename_lit (oname y) z <? 0) = (z <? 0)).
    { unfold rename_lit. destruct (Z.ltb_spec z 0).
      - replace (Z.abs z) with (- z) in B by lia. rewrite B. apply Z.ltb_lt. lia.
      - replace (Z.abs z) with z in B by lia. rewrite B. apply Z.ltb_ge. lia. }
    rewrite Es. auto. }
  set (q := fun D : clause => negb (existsb (made_true po b) (raw D))).
  assert (HF2 : Forall2 (corr idx e (oname y)) (filter (kept p b) (clauses y)) (filter q Ds)).
  { apply Forall2_filter2; auto. intros d D Hd [_ Q]. unfold kept, q. f_equal.
    transitivity (existsb (made_true po b) (map (rename_lit (oname y)) (raw d))).
    - rewrite existsb_map0. apply existsb_ext_In. intros z Hz. symmetry. apply (Hmt d Hd z Hz).
    - rewrite (existsb_Perm _ _ _ Q). apply eq_iff_eq_true. rewrite !existsb_exists. split; intros (z & Hz & Ez); exists z; split; auto.
      + apply filter_In in Hz as [Hz _]. auto.
      + apply filter_In. split; auto. unfold made_true in Ez. apply andb_true_iff in Ez as [Ez _]. apply Z.eqb_eq in Ez.
        apply negb_true_iff, existsb_false. intros [k w] Hk. cbn [fst]. apply Z.eqb_neq. intros ->. apply Hn. rewrite <- Ez. apply (in_map fst) in Hk. exact Hk. }
  exists (filter q Ds). rewrite Hev. split.
  - eapply perm_trans; [apply filter_perm0; exact P|]. unfold open_clauses. rewrite filter_filter0. apply Permutation_refl'.
    apply filter_ext_In. intros D HD. unfold q. rewrite <- negb_orb, <- existsb_orb. f_equal. apply existsb_ext_In. intros z Hz.
    symmetry. apply satisfied_app. intros ->. apply HZ. apply in_fvars. exists (raw D). split; [apply in_map; auto|]. apply (in_map Z.abs) in Hz. exact Hz.
  - pose proof (evaluate_kept y l r po b c (node_eval_ready _ _ N) Ev Ec C Hv) as HK. fold p in HK. clear Ec.
    assert (HI : forall d, In d (filter (kept p b) (clauses y)) -> In d (clauses y)) by (intros d Hd; apply filter_In in Hd; apply Hd).
    assert (HC : forall d, In d (clauses c) -> In d (clauses c)) by auto.
    revert HK HF2 HI HC. generalize (clauses c) at 1 2 4 as dd. generalize (filter (kept p b) (clauses y)) as cc. generalize (filter q Ds) as DD.
    intros DD cc dd HK. revert DD. induction HK as [|c0 d cc dd [K1 K2] HK IH]; intros DD HF2 HI HC; inv HF2; constructor; auto.
    + destruct H1 as [C1 C2]. split; [intros Hi; rewrite <- K2; auto|].
      assert (E1 : map (rename_lit (oname c)) (raw d) = filter (fun z => negb (Z.abs z =? po)) (map (rename_lit (oname y)) (raw c0))).
      { rewrite <- K1, filter_map_swap. transitivity (map (rename_lit (oname y)) (filter (fun z => negb (Z.abs z =? p)) (raw c0))).
        - apply map_ext_in. intros z Hz. apply rename_lit_ext. rewrite K1 in Hz.
          assert (Hz' : In (Z.abs z) (fvars (raws c))) by (apply in_fvars; exists (raw d); split; [apply in_map; apply HC; left; auto|apply in_map; auto]).
          destruct (child_orig _ _ _ _ _ _ _ N C Hz') as [Eo Hy]. unfold oname. rewrite Eo. auto.
        - f_equal. apply filter_ext_In. intros z Hz. f_equal. symmetry. apply (Hmt c0); auto. apply HI. left; auto. }
      rewrite E1. eapply perm_trans; [apply filter_perm0; exact C2|]. unfold open_literals. rewrite filter_filter0. apply Permutation_refl'.
      apply filter_ext. intros z. rewrite assigned_app, (Z.eqb_sym po), negb_orb. auto.
    + apply IH; auto. * intros; apply HI; right; auto. * intros; apply HC; right; auto.
Qed.

Lemma get_hash_forced hash s h s' : get_hash hash true s = Ok (h, s') -> s' = set_hash s (Some h).
Proof.
  unfold get_hash. cbn [negb]. intros H. destruct (computed_hash s); simpl in H; apply bind_ok in H as (t & E & H); injection H as <- <-; auto.
Qed.
Lemma searched_node hash o root x : root_ok root -> searched hash o root x -> node (raws root) x.
Proof.
  intros RO Hx.
  destruct (prepare_root_spec hash o (root_bound root) (root_L root) root RO (root_below root) (le_n _))
      as (r & Ep & N & Hs & Hc & W & Hev & Heq).
  assert (Hr : is_node hash (raws root) (root_n root) (root_L root) (root_K root) r) by (split; auto).
  pose proof (searched_reach hash o root _ r x RO (le_n _) Ep Hx) as Hre.
  apply (reach_node _ _ _ _ _ _ _ _ _ _ Hr (le_n _) Hre).
Qed.
Lemma root_prov root idx : root_ok root ->
  let r0 := set_original root (combine (get_variables root) (get_variables root)) in
  prov root idx r0 /\ forall v, In v (fvars (raws r0)) -> orig r0 v <> None.
Proof.
  intros RO r0.
  assert (Ho : forall v, In v (fvars (raws root)) -> orig r0 v = Some v).
  { intros v Hv. unfold orig, name_at, r0. cbn [final_names_map set_original]. rewrite (ro_names _ RO). cbn [original_values set_original].
    apply dget_combine_same, get_variables_In; auto. }
  assert (Hd : forall D, In D (clauses root) -> forall l, In l (raw D) -> assigned_by (evaluated_vars root) l = false).
  { intros D HD l Hl. apply existsb_false. intros [k w] Hk. cbn [fst]. apply Z.eqb_neq. intros ->.
    apply (ro_disj _ RO (Z.abs l)); [apply (in_map fst) in Hk; exact Hk|]. apply in_fvars. exists (raw D). split; apply in_map; auto. }
  assert (Hsat : forall D, In D (clauses root) -> forall l, In l (raw D) -> satisfied_by (evaluated_vars root) l = false).
  { intros D HD l Hl. pose proof (Hd D HD l Hl) as H. unfold assigned_by, satisfied_by in *. apply existsb_false. intros kv Hk.
    destruct (fst kv =? Z.abs l) eqn:E; auto. exfalso. rewrite (existsb_true _ _ kv Hk E) in H. discriminate. }
  split.
  - exists (clauses root). cbn [evaluated_vars r0 set_original clauses]. split.
    + unfold open_clauses. apply Permutation_refl'. symmetry. apply forallb_filter_id, forallb_forall. intros D HD.
      apply negb_true_iff, existsb_false. intros l Hl. eauto.
    + assert (HI : forall D, In D (clauses root) -> In D (clauses root)) by auto. revert HI.
      generalize (clauses root) at 1 3 4 as cs. induction cs as [|D cs IH]; intros HI; constructor.
      * split; auto. unfold open_literals. rewrite forallb_filter_id.
        -- apply Permutation_refl'. transitivity (map (rename_lit (fun v => v)) (raw D)); [|apply map_rename_id].
           apply map_ext_in. intros l Hl. apply rename_lit_ext. unfold oname. rewrite Ho; auto.
           apply in_fvars. exists (raw D). split; [apply in_map; apply HI; left; auto|apply in_map; auto].
        -- apply forallb_forall. intros l Hl. apply negb_true_iff. apply (Hd D); auto. apply HI; left; auto.
      * apply IH. intros; apply HI; right; auto.
  - intros v Hv. change (raws r0) with (raws root) in Hv. rewrite Ho by auto. discriminate.
Qed.
Lemma searched_prov hash o root x : root_ok root -> ~ In 0 (fvars (raws root)) -> searched hash o root x ->
  prov root (o_rdb o = false) x.
Proof.
  intros RO HZ Hx. induction Hx as [lf r Hr|lf x l r c c1 c2 h Hx IH Ev Hc Hv Hlo Hh].
  - unfold prepare_root in Hr. apply bind_ok in Hr as (r1 & E1 & Hr). apply bind_ok in Hr as ([h r2] & E2 & Hr). injection Hr as <-.
    apply get_hash_forced in E2 as ->. destruct (root_prov root (o_rdb o = false) RO) as [P0 O0].
    assert (Hp : pre_lo (set_original root (combine (get_variables root) (get_variables root)))).
    { split; [apply RO|]. split; [apply RO|]. left. apply RO. }
    destruct (to_lo_spec _ _ _ _ _ _ Hp E1) as (f & NM & _).
    exact (prov_norm _ _ _ _ _ NM O0 P0).
  - apply get_hash_forced in Hh as ->.
    pose proof (node_view _ (o_rdb o) _ (searched_node _ _ _ _ RO Hx)) as N.
    destruct (node_evaluate _ _ N) as (l' & r' & po & Ev' & Hpi & Hp & Hn & _ & _ & C1 & C2). rewrite Ev in Ev'. injection Ev' as <- <-.
    assert (G : forall b : bool, c = (if b then l else r) -> child_of (view (o_rdb o) x) (pivot_of (view (o_rdb o) x)) po b c ->
              prov root (o_rdb o = false) (set_id (set_hash c1 (Some h)) h)).
    { intros b Eb C. destruct (to_lo_spec _ _ _ _ _ _ (child_pre_lo _ _ _ _ _ C Hv) Hlo) as (f & NM & _).
      assert (Q : prov root (o_rdb o = false) c1); [|exact Q].
      eapply prov_norm; [exact NM| |].
      - intros v Hi. destruct (child_orig _ _ _ _ _ _ _ N C Hi) as [Eo Hy]. rewrite Eo.
        destruct (n_orig _ _ N v Hy) as (z & -> & _). discriminate.
      - eapply prov_child; eauto. apply prov_view. exact IH. }
    destruct Hc as [-> | ->]; [apply (G true)|apply (G false)]; auto.
Qed.

(* ---- order ---- *)
Definition profile (c : clause) : nat * Z := (List.length (raw c), initial_index c).
Definition plain_mode (m : mode) : Prop := m = MODE_LOU \/ m = MODE_NORMAL.

Lemma rename_profile s s' : names_ok s -> rename_vars s = Ok s' -> map profile (clauses s') = map profile (clauses s).
Proof.
  intros Hn E. destruct (rename_vars_spec _ _ Hn E) as [f Rn]. rewrite (rn_clauses _ _ _ Rn), map_map. apply map_ext. intros c.
  unfold profile. cbn [raw set_raw initial_index]. f_equal. unfold sort_abs. rewrite (Permutation_length (sort_by_Perm _ _)), map_length. auto.
Qed.
Lemma lo_loop_profile m : plain_mode m -> forall fuel n s s', ready n s -> lo_loop fuel m s = Ok s' ->
  map profile (clauses s') = map profile (clauses s).
Proof.
  intros Hm. assert (Hs : sorts_clauses m = false) by (destruct Hm as [-> | ->]; auto).
  induction fuel as [|fuel IH]; cbn [lo_loop]; intros n s s' R E; [discriminate|].
  apply bind_ok in E as (b & Eb & E). destruct b; [inv E; auto|]. rewrite Hs in E.
  apply bind_ok in E as (s2 & E2 & E).
  rewrite <- (rename_profile s s2 (ready_names_ok _ _ R) E2).
  destruct (rename_vars_spec s s2 (ready_names_ok _ _ R) E2) as [h Rh].
  destruct (ready_renamed h s s2 (rd_ne _ _ R) (rd_nonempty _ _ R) Rh) as (R2 & _).
  eapply IH; eauto.
Qed.
Lemma to_lo_profile fuel m z t s s' : plain_mode m -> pre_lo s -> to_lo_condition fuel m z t s = Ok s' ->
  map profile (clauses s') = map profile (clauses (pre_sort m z t s)).
Proof.
  intros Hm Hp. rewrite to_lo_unfold. intros E. apply bind_ok in E as (s2 & E2 & E).
  pose proof (pre_sort_pre_lo m z t s Hp) as (P1 & P2 & P3).
  rewrite <- (rename_profile _ _ P3 E2). destruct (rename_vars_spec _ _ P3 E2) as [f Rn].
  destruct (ready_renamed f _ s2 P1 P2 Rn) as (R2 & _). eapply lo_loop_profile; eauto.
Qed.

Lemma sorted_profile (R : nat * Z -> nat * Z -> Prop) : forall l l', map profile l = map profile l' ->
  StronglySorted (fun a b => R (profile a) (profile b)) l' -> StronglySorted (fun a b => R (profile a) (profile b)) l.
Proof.
  assert (G : forall l, StronglySorted (fun a b => R (profile a) (profile b)) l <-> StronglySorted R (map profile l)).
  { induction l as [|x l IH]; simpl; [split; constructor|]. split; intros H; inv H; constructor; try (apply IH; auto).
    - rewrite Forall_forall in *. intros y Hy. apply in_map_iff in Hy as (z & <- & Hz). auto.
    - rewrite Forall_forall in *. intros y Hy. apply H3. apply in_map; auto. }
  intros l l' E. rewrite !G, E. auto.
Qed.
Lemma len_idx_sorted l : StronglySorted thief_before (sort_by len_idx_lt l).
Proof.
  assert (H : StronglySorted (le_of len_idx_lt) (sort_by len_idx_lt l)).
  { apply sort_by_sorted.
    - intros x y. unfold len_idx_lt. intros H. apply orb_true_iff in H as [H|H].
      + apply Nat.ltb_lt in H. apply orb_false_iff. split; [apply Nat.ltb_ge; lia|]. apply andb_false_iff. left. apply Nat.eqb_neq. lia.
      + apply andb_true_iff in H as [H1 H2]. apply Nat.eqb_eq in H1. apply Z.ltb_lt in H2. apply orb_false_iff.
        split; [apply Nat.ltb_ge; lia|]. apply andb_false_iff. right. apply Z.ltb_ge. lia.
    - intros x y z. unfold len_idx_lt. rewrite !orb_false_iff, !andb_false_iff, !Nat.ltb_ge, !Nat.eqb_neq, !Z.ltb_ge. lia. }
  induction H as [|x t Hs IH Hx]; constructor; auto. rewrite Forall_forall in *. intros y Hy. specialize (Hx y Hy).
  unfold le_of, len_idx_lt in Hx. unfold thief_before. rewrite orb_false_iff, andb_false_iff, Nat.ltb_ge, Nat.eqb_neq, Z.ltb_ge in Hx. lia.
Qed.
Definition shorter_eq (c d : clause) : Prop := (List.length (raw c) <= List.length (raw d))%nat.
Lemma len_le_iff l : StronglySorted (le_of len_lt) l <-> StronglySorted shorter_eq l.
Proof.
  induction l as [|x t IH]; [split; constructor|]. split; intros H; inv H; constructor; try (apply IH; auto);
    rewrite Forall_forall in *; intros y Hy; specialize (H3 y Hy); unfold le_of, len_lt, shorter_eq in *.
  - apply Nat.ltb_ge in H3. auto. - apply Nat.ltb_ge. auto.
Qed.
Lemma len_sorted l : StronglySorted shorter_eq (sort_by len_lt l).
Proof.
  apply len_le_iff, sort_by_sorted; unfold len_lt.
  - intros x y. rewrite Nat.ltb_lt, Nat.ltb_ge. lia. - intros x y z. rewrite !Nat.ltb_ge. lia.
Qed.
Definition of_length (n : nat) (c : clause) : bool := (List.length (raw c) =? n)%nat.
Lemma len_insert_stable n x l : filter (of_length n) (insert_by len_lt x l) = filter (of_length n) (x :: l).
Proof.
  induction l as [|y t IH]; auto. cbn [insert_by]. destruct (len_lt y x) eqn:E; auto.
  cbn [filter] in *. rewrite IH. unfold len_lt in E. apply Nat.ltb_lt in E.
  destruct (of_length n x) eqn:Ex, (of_length n y) eqn:Ey; auto. unfold of_length in *. apply Nat.eqb_eq in Ex, Ey. lia.
Qed.
Lemma len_sort_stable n l : filter (of_length n) (sort_by len_lt l) = filter (of_length n) l.
Proof. induction l as [|x t IH]; auto. cbn [sort_by]. rewrite len_insert_stable. cbn [filter]. rewrite IH. auto. Qed.
Lemma sort_len_clauses s : clauses s <> [] -> nonempty_clauses (raws s) -> clauses (sort_clauses_by_length s) = sort_by len_lt (clauses s).
Proof.
  intros H1 H2. unfold sort_clauses_by_length, first_nonempty. destruct (clauses s) as [|c t] eqn:E; [congruence|].
  destruct (raw c) as [|z r] eqn:Er; [exfalso; apply (H2 []); [unfold raws; rewrite E; left; auto|auto]|]. reflexivity.
Qed.
Lemma filter_profile n : forall l l', map profile l = map profile l' ->
  map initial_index (filter (of_length n) l) = map initial_index (filter (of_length n) l').
Proof.
  induction l as [|x l IH]; intros [|y l'] E; try discriminate; auto. cbn [map] in E. injection E as E1 E2 E3.
  cbn [filter]. assert (Ef : of_length n x = of_length n y) by (unfold of_length; rewrite E1; auto). rewrite Ef.
  destruct (of_length n y); cbn [map]; [rewrite E2; f_equal|]; apply IH; auto.
Qed.

Lemma thief_sorted fuel m z s s' : plain_mode m -> pre_lo s -> to_lo_condition fuel m z true s = Ok s' ->
  StronglySorted thief_before (clauses s').
Proof.
  intros Hm Hp E. pose proof (to_lo_profile _ _ _ _ _ _ Hm Hp E) as HP.
  change thief_before with (fun a b => (fun p q : nat * Z => (fst p < fst q)%nat \/ fst p = fst q /\ snd p <= snd q) (profile a) (profile b)).
  eapply sorted_profile; [exact HP|]. fold thief_before. unfold pre_sort.
  set (s1 := sort_clauses_by_len_and_initial_index s).
  assert (H1 : StronglySorted thief_before (clauses s1)) by apply len_idx_sorted.
  destruct (mode_eqb m MODE_FLOP || z); [|exact H1].
  assert (Hl : StronglySorted shorter_eq (clauses s1)).
  { clear - H1. induction H1 as [|x t Hs IH Hx]; constructor; auto. rewrite Forall_forall in *. intros y Hy. specialize (Hx y Hy).
    unfold thief_before in Hx. unfold shorter_eq. lia. }
  assert (Es : clauses (sort_clauses_by_length s1) = clauses s1).
  { unfold sort_clauses_by_length. destruct (first_nonempty s1); auto. cbn [clauses set_clauses]. apply sort_by_id, len_le_iff. auto. }
  rewrite Es. exact H1.
Qed.
Lemma size_sorted fuel m t s s' : plain_mode m -> pre_lo s -> to_lo_condition fuel m true t s = Ok s' ->
  StronglySorted shorter_eq (clauses s') /\
  (t = false -> forall n, map initial_index (filter (of_length n) (clauses s')) = map initial_index (filter (of_length n) (clauses s))).
Proof.
  intros Hm Hp E. pose proof (to_lo_profile _ _ _ _ _ _ Hm Hp E) as HP. unfold pre_sort in HP. rewrite orb_true_r in HP.
  set (s1 := if t then _ else s) in HP.
  assert (P1 : clauses s1 <> [] /\ nonempty_clauses (raws s1)).
  { destruct (pre_sort_pre_lo m false t s Hp) as (A & B & _). unfold pre_sort in A, B. destruct Hm as [-> | ->]; split; auto. }
  rewrite (sort_len_clauses s1 (proj1 P1) (proj2 P1)) in HP. split.
  - change shorter_eq with (fun a b => (fun p q : nat * Z => (fst p <= fst q)%nat) (profile a) (profile b)).
    eapply sorted_profile; [exact HP|]. apply len_sorted.
  - intros -> n. rewrite (filter_profile n _ _ HP), len_sort_stable. auto.
Qed.
Lemma order_kept fuel m s s' : plain_mode m -> pre_lo s -> to_lo_condition fuel m false false s = Ok s' ->
  map profile (clauses s') = map profile (clauses s).
Proof.
  intros Hm Hp E. pose proof (to_lo_profile _ _ _ _ _ _ Hm Hp E) as HP. unfold pre_sort in HP. destruct Hm as [-> | ->]; exact HP.
Qed.
