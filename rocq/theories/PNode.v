(* PNode.v -- what a node of the search means for the input formula. *)
From Coq Require Import String Ascii ZArith List Bool Lia Permutation Sorted.
From Verif Require Import Spec PyBase MSet MText MQueue MDb MSolver SpecRun PLib PClause PRename PLo PNorm PEval PText PQueue.
Import ListNotations.
Open Scope Z_scope.

Definition oname (s : cset) (v : Z) : Z := match orig s v with Some x => x | None => v end.

(* s is an undecided node of the search for formula F *)
Record node (F : list (list Z)) (s : cset) : Prop := mkNode {
  n_ready : ready (nvars (raws s)) s;
  n_distinct : forall c, In c (raws s) -> distinct_vars c;
  n_undec : forall c, In c (clauses s) -> cvalue c = None;
  n_value : svalue s = None;
  n_orig : forall v, In v (fvars (raws s)) -> exists x, orig s v = Some x /\ 0 <= x /\
             ~ In x (dkeys (evaluated_vars s)) /\ In x (fvars F);
  n_inj : forall v w, In v (fvars (raws s)) -> In w (fvars (raws s)) -> orig s v = orig s w -> v = w;
  n_ev : NoDup (dkeys (evaluated_vars s));
  n_evpos : forall v, In v (dkeys (evaluated_vars s)) -> 0 <= v;
  n_keys : NoDup (dkeys (original_values s));
  n_sem : forall a, extends a (evaluated_vars s) ->
            (cnf_true a F <-> cnf_true (fun v => a (oname s v)) (raws s))
}.

Lemma raws_undec s : map raw (clauses s) = raws s. Proof. reflexivity. Qed.

Lemma node_good F s : node F s -> Forall good_clause (clauses s).
Proof.
  intros N. apply Forall_forall. intros c Hc.
  assert (Hi : In (raw c) (raws s)) by (apply in_map; auto).
  split; [apply (n_distinct _ _ N); auto|]. split; [apply (rd_sorted _ _ (n_ready _ _ N)); auto|].
  apply (n_undec _ _ N); auto.
Qed.
Lemma node_original_of F s v : node F s -> In v (fvars (raws s)) ->
  exists x, original_of s v = Ok x /\ orig s v = Some x.
Proof.
  intros N Hv. destruct (n_orig _ _ N v Hv) as (x & Hx & _). exists x; split; auto.
  pose proof (n_ready _ _ N) as R. apply (rd_vars _ _ R) in Hv.
  apply original_of_spec; auto.
  - intros E. pose proof (rd_len _ _ R) as Hl. rewrite E in Hl. simpl in Hl. rewrite <- Hl in Hv. simpl in Hv. lia.
  - rewrite (rd_len _ _ R). auto.
Qed.
Lemma node_eval_ready F s : node F s -> eval_ready s.
Proof.
  intros N. pose proof (n_ready _ _ N) as R. split; [eapply node_good; eauto|].
  split; [apply R|]. split; [apply R|]. intros v Hv.
  destruct (node_original_of F s v N Hv) as (x & Hx & _); eauto.
Qed.

(* reading a node back from the runtime table keeps it a node *)
Lemma reloaded_raws s : raws (reloaded s) = raws s.
Proof. unfold reloaded, raws at 1. simpl. apply plain_raw. Qed.
Lemma reloaded_orig s v : orig (reloaded s) v = orig s v. Proof. reflexivity. Qed.
Lemma extends_perm a d d' : Permutation d d' -> extends a d -> extends a d'.
Proof. intros P H v b Hi. apply H. apply (Permutation_in _ (Permutation_sym P)); auto. Qed.
Lemma node_reloaded F s : node F s -> node F (reloaded s).
Proof.
  intros N. pose proof (n_ready _ _ N) as R.
  assert (HP : Permutation (dkeys (evaluated_vars s)) (dkeys (reordered (evaluated_vars s))))
    by (apply Permutation_map, reordered_Perm).
  constructor; rewrite ?reloaded_raws; try apply N.
  - constructor; rewrite ?reloaded_raws; try apply R.
    intros E. apply (rd_ne _ _ R). apply raws_nil in E. rewrite reloaded_raws in E. apply raws_nil; auto.
  - intros c Hc. simpl in Hc. eapply plain_value; eauto.
  - reflexivity.
  - intros v Hv. destruct (n_orig _ _ N v Hv) as (x & H1 & H2 & H3 & H4). exists x.
    rewrite reloaded_orig. repeat split; auto. intros Hi; apply H3. simpl in Hi.
    apply (Permutation_in _ (Permutation_sym HP)); auto.
  - simpl. eapply Permutation_NoDup; eauto. apply N.
  - intros v Hv. apply (n_evpos _ _ N). simpl in Hv. apply (Permutation_in _ (Permutation_sym HP)); auto.
  - intros a Ha. apply (n_sem _ _ N). eapply extends_perm; [|exact Ha]. simpl.
    apply Permutation_sym, reordered_Perm.
Qed.
Lemma node_view F rdb s : node F s -> node F (view rdb s).
Proof. destruct rdb; simpl; auto using node_reloaded. Qed.
Lemma view_raws rdb s : raws (view rdb s) = raws s.
Proof. destruct rdb; auto. apply reloaded_raws. Qed.
Lemma view_sid rdb s : sid (view rdb s) = sid s. Proof. destruct rdb; auto. Qed.
Lemma view_ev_len rdb s : List.length (evaluated_vars (view rdb s)) = List.length (evaluated_vars s).
Proof. destruct rdb; simpl; auto. symmetry. apply Permutation_length, reordered_Perm. Qed.
Lemma view_clen rdb s : List.length (clauses (view rdb s)) = List.length (clauses s).
Proof.
  pose proof (f_equal (@List.length _) (view_raws rdb s)) as H. unfold raws in H.
  rewrite !map_length in H. auto.
Qed.
Lemma node_storable F s : node F s -> storable s.
Proof.
  intros N. pose proof (n_ready _ _ N) as R. split; [apply N|]. split; [apply R|]. split; [apply R|]. split.
  - intros c Hc. split; [apply (n_distinct _ _ N); auto | apply (rd_sorted _ _ R); auto].
  - split; [apply N|]. split; [apply N|apply N].
Qed.
Lemma node_text F s : node F s -> to_text s = Ok (formula_text (raws s)).
Proof. intros N. apply to_text_eq; [apply N | apply (n_ready _ _ N) | apply (n_ready _ _ N)]. Qed.
Lemma node_set_hash F s h : node F s -> node F (set_hash s h).
Proof. intros N. destruct N as [R]. constructor; auto. destruct R; constructor; auto. Qed.
Lemma node_set_id F s h : node F s -> node F (set_id s h).
Proof. intros N. destruct N as [R]. constructor; auto. destruct R; constructor; auto. Qed.

(* ---- one branch ---- *)
(* c is the cofactor of x for value b of its leading variable, as built by evaluate *)
Lemma node_evaluate F x : node F x ->
  exists l r po, evaluate x = Ok (Some (l, r)) /\ In (pivot_of x) (fvars (raws x)) /\
    orig x (pivot_of x) = Some po /\ ~ In po (dkeys (evaluated_vars x)) /\ 0 <= po /\ In po (fvars F) /\
    child_of x (pivot_of x) po true l /\ child_of x (pivot_of x) po false r.
Proof.
  intros N. destruct (evaluate_spec x (node_eval_ready _ _ N)) as (l & r & po & H1 & H2 & H3 & H4 & H5).
  destruct (node_original_of F x _ N H2) as (y & Hy1 & Hy2). rewrite H3 in Hy1; inv Hy1.
  destruct (n_orig _ _ N _ H2) as (z & Z1 & Z2 & Z3 & Z4). rewrite Hy2 in Z1; inv Z1.
  exists l, r, z. auto 10.
Qed.
Lemma extends_dset a po b d : ~ In po (dkeys d) ->
  (extends a (dset Z.eqb po b d) <-> extends a d /\ a po = b).
Proof.
  intros Hn. rewrite (dset_new _ zspec) by auto. unfold extends. split.
  - intros H. split; [intros v w Hi; apply H, in_app_iff; auto|]. apply H, in_app_iff; simpl; auto.
  - intros [H1 H2] v w Hi. apply in_app_iff in Hi as [Hi|[E|[]]]; auto. inv E; auto.
Qed.
Lemma child_leaf_true F x po b c : node F x -> orig x (pivot_of x) = Some po ->
  ~ In po (dkeys (evaluated_vars x)) -> child_of x (pivot_of x) po b c -> svalue c = Some true ->
  forall a, extends a (evaluated_vars c) -> cnf_true a F.
Proof.
  intros N Hp Hn C Hv a Ha. rewrite (ch_evaluated _ _ _ _ _ C) in Ha.
  apply extends_dset in Ha as [Ha Hb]; auto. apply (n_sem _ _ N a Ha).
  eapply (child_true _ _ _ _ _ C Hv). unfold oname; rewrite Hp; auto.
Qed.
Lemma child_pre_lo x p po b c : child_of x p po b c -> svalue c = None -> pre_lo c.
Proof.
  intros C Hv. destruct (child_none _ _ _ _ _ C Hv) as (H1 & H2 & _). split; auto. split; auto.
  left. apply C.
Qed.
Lemma child_orig F x p po b c v : node F x -> child_of x p po b c -> In v (fvars (raws c)) ->
  orig c v = orig x v /\ In v (fvars (raws x)).
Proof.
  intros N C Hv. destruct (child_vars _ _ _ _ _ C v Hv) as [Hx _]. split; auto.
  destruct (ch_orig _ _ _ _ _ C v Hv) as (y & H1 & H2).
  destruct (node_original_of F x v N Hx) as (z & H3 & H4). rewrite H1 in H3; inv H3.
  unfold orig at 1, name_at. rewrite (ch_names _ _ _ _ _ C), H2, H4. auto.
Qed.
Lemma child_node F x po b c f c' : node F x -> orig x (pivot_of x) = Some po ->
  In (pivot_of x) (fvars (raws x)) -> In po (fvars F) ->
  ~ In po (dkeys (evaluated_vars x)) -> 0 <= po -> child_of x (pivot_of x) po b c -> svalue c = None ->
  norm f c c' -> ready (nvars (raws c)) c' ->
  node F c' /\ nvars (raws c') = nvars (raws c) /\ (nvars (raws c') < nvars (raws x))%nat /\
  evaluated_vars c' = evaluated_vars x ++ [(po, b)] /\ (List.length (clauses c') <= List.length (clauses x))%nat.
Proof.
  intros N Hp Hpin HpF Hn Hpos C Hv NM R.
  assert (Hnv : nvars (raws c') = nvars (raws c)) by (apply ready_nvars; auto).
  assert (Hev : evaluated_vars c' = evaluated_vars x ++ [(po, b)]).
  { rewrite (nl_evaluated _ _ _ NM), (ch_evaluated _ _ _ _ _ C). apply (dset_new _ zspec); auto. }
  assert (Ho : forall v, In v (fvars (raws c)) -> orig c' (f v) = orig x v /\ In v (fvars (raws x)) /\ v <> pivot_of x).
  { intros v Hv'. destruct (child_orig F x _ _ _ _ v N C Hv') as [H1 H2].
    destruct (child_vars _ _ _ _ _ C v Hv') as [_ H3]. split; auto.
    rewrite <- H1. unfold orig. rewrite (nl_names _ _ _ NM v Hv'), (nl_original _ _ _ NM). auto. }
  assert (Hkeys : dkeys (evaluated_vars c') = dkeys (evaluated_vars x) ++ [po])
    by (rewrite Hev; unfold dkeys; rewrite map_app; auto).
  split; [|split; [auto|split; [rewrite Hnv; eapply child_nvars; eauto|split; [auto|]]]].
  2: { rewrite (norm_length _ _ _ NM). apply C. }
  constructor.
  - rewrite Hnv; auto.
  - eapply norm_distinct; [eauto|]. intros d Hd. unfold raws in Hd.
    apply in_map_iff in Hd as (d' & <- & Hd). pose proof (ch_good _ _ _ _ _ C) as HG.
    rewrite Forall_forall in HG. apply HG; auto.
  - eapply norm_undecided; [eauto|]. intros d Hd. pose proof (ch_good _ _ _ _ _ C) as HG.
    rewrite Forall_forall in HG. apply HG; auto.
  - rewrite (nl_value _ _ _ NM); auto.
  - intros w Hw. apply (norm_vars _ _ _ NM) in Hw as (v & Hv' & <-).
    destruct (Ho v Hv') as (H1 & H2 & H3). rewrite H1.
    destruct (n_orig _ _ N v H2) as (y & Y1 & Y2 & Y3 & Y4). exists y. repeat split; auto.
    rewrite Hkeys, in_app_iff. intros [Hi|[Hi|[]]]; [auto|]. subst y.
    apply H3. apply (n_inj _ _ N); auto. congruence.
  - intros w1 w2 Hw1 Hw2 E.
    apply (norm_vars _ _ _ NM) in Hw1 as (v1 & Hv1 & <-).
    apply (norm_vars _ _ _ NM) in Hw2 as (v2 & Hv2 & <-).
    destruct (Ho v1 Hv1) as (A1 & A2 & _). destruct (Ho v2 Hv2) as (B1 & B2 & _).
    f_equal. apply (n_inj _ _ N); auto. congruence.
  - rewrite Hkeys. rewrite <- (rev_involutive (_ ++ [po])). apply NoDup_rev. rewrite rev_app_distr; simpl.
    constructor; [rewrite <- in_rev; auto | apply NoDup_rev, N].
  - intros v. rewrite Hkeys, in_app_iff. intros [Hi|[<-|[]]]; auto. apply (n_evpos _ _ N); auto.
  - rewrite (nl_original _ _ _ NM). apply C.
  - intros a Ha. rewrite (nl_evaluated _ _ _ NM), (ch_evaluated _ _ _ _ _ C) in Ha.
    apply extends_dset in Ha as [Ha Hb]; auto.
    rewrite (n_sem _ _ N a Ha).
    destruct (child_none _ _ _ _ _ C Hv) as (_ & _ & Hc). rewrite Hc by (unfold oname; rewrite Hp; auto).
    rewrite (norm_true f c c' _ NM). apply cnf_true_ext_iff. intros v Hv'.
    destruct (Ho v Hv') as (H1 & H2 & _). unfold oname. rewrite H1.
    destruct (n_orig _ _ N v H2) as (y & -> & _). auto.
Qed.
(* satisfiability of a node through its cofactors *)
Lemma child_sat x p po b c f c' : child_of x p po b c -> svalue c = None -> norm f c c' ->
  forall a, a p = b -> cnf_true a (raws x) -> satisfiable (raws c').
Proof.
  intros C Hv NM a Ha H. destruct (child_none _ _ _ _ _ C Hv) as (_ & _ & Hc).
  apply Hc in H; auto.
  (* an inverse of f on the variables of c *)
  set (g := fun w => match find (fun v => f v =? w) (fvars (raws c)) with Some v => a v | None => false end).
  exists g. apply (norm_true f c c' g NM). eapply cnf_true_ext; [|exact H].
  intros v Hv'. unfold g. destruct (find _ _) as [u|] eqn:E.
  - apply find_some in E as [E1 E2]. apply Z.eqb_eq in E2. f_equal. symmetry. apply (nl_inj _ _ _ NM); auto.
  - exfalso. apply (find_none _ _ E) in Hv'. rewrite Z.eqb_refl in Hv'. discriminate.
Qed.
Lemma child_sat_back x p po b c f c' : child_of x p po b c -> ~ In p (fvars (raws c)) ->
  svalue c = None -> norm f c c' -> satisfiable (raws c') -> satisfiable (raws x).
Proof.
  intros C Hp Hv NM (a & Ha). apply (norm_true f c c' _ NM) in Ha.
  destruct (child_none _ _ _ _ _ C Hv) as (_ & _ & Hc).
  exists (fun v => if v =? p then b else a (f v)). apply Hc.
  - rewrite Z.eqb_refl; auto.
  - eapply cnf_true_ext; [|exact Ha]. intros v Hv'. destruct (Z.eqb_spec v p); auto. subst; contradiction.
Qed.
