(* PUnits.v -- the search on a formula of n positive unit clauses: a chain of n sets. *)
From Coq Require Import String Ascii ZArith List Bool Lia Permutation Sorted.
From Verif Require Import Spec PyBase MSet MText MQueue MDb MSolver MMain MStack SpecRun SpecStack PLib PClause PRename PLo PNorm PEval PText PQueue PNode PStep PRun PStats PSolver PSolve PMain PP2 PStack.
Import ListNotations.
Open Scope Z_scope.

Definition singles (vs : list Z) : list (list Z) := map (fun v => [v]) vs.
Definition zseq (a : Z) (k : nat) : list Z := map (fun i => a + Z.of_nat i) (seq 0 k).
Lemma zseq_S a k : zseq a (S k) = a :: zseq (a + 1) k.
Proof.
  unfold zseq. cbn [seq map]. f_equal; [lia|]. rewrite <- seq_shift, map_map. apply map_ext. intros. lia.
Qed.
Lemma unit_clauses_singles n : unit_clauses n = singles (zseq 1 n).
Proof.
  unfold unit_clauses, singles, zseq. rewrite map_map, <- seq_shift, map_map. apply map_ext. intros. f_equal. lia.
Qed.
Lemma in_zseq a k v : In v (zseq a k) <-> a <= v < a + Z.of_nat k.
Proof.
  unfold zseq. rewrite in_map_iff. split.
  - intros (i & <- & Hi). apply in_seq in Hi. lia.
  - intros H. exists (Z.to_nat (v - a)). split; [lia|]. apply in_seq. lia.
Qed.
Lemma zseq_nodup a k : NoDup (zseq a k).
Proof. unfold zseq. apply FinFun.Injective_map_NoDup; [|apply seq_NoDup]. intros i j. lia. Qed.
Lemma zseq_length a k : List.length (zseq a k) = k.
Proof. unfold zseq. rewrite map_length, seq_length. auto. Qed.

Lemma rename_singles : forall cs vs nm id, map raw cs = singles vs -> NoDup vs -> (forall v, In v vs -> 0 < v) ->
  (forall v, In v vs -> ~ In v (dkeys nm)) ->
  exists cs' nm', rename_clauses cs nm id = (cs', nm', id + Z.of_nat (List.length vs)) /\
    map raw cs' = singles (zseq id (List.length vs)).
Proof.
  induction cs as [|c cs IH]; intros [|v vs] nm id E ND P H; try discriminate.
  - exists [], nm. cbn. split; auto. f_equal. lia.
  - cbn [map singles] in E. injection E as Ec E. fold (singles vs) in E. inv ND.
    cbn [rename_clauses]. rewrite Ec. cbn [rename_raw].
    assert (Hv : 0 < v) by (apply P; left; auto). rewrite Z.abs_eq by lia.
    assert (dget Z.eqb v nm = None) as ->.
    { apply (dget_None _ zspec). apply H. left; auto. }
    destruct (Z.ltb_spec v 0); [lia|].
    destruct (IH vs (dset Z.eqb v id nm) (id + 1) E) as (cs' & nm' & Er & Em); auto.
    { intros w Hw. apply P. right; auto. }
    { intros w Hw Hin. apply (dset_keys_incl _ zspec) in Hin as [->|Hin]; [auto|]. eapply H; [right|]; eauto. }
    rewrite Er. eexists _, nm'. split; [cbn [List.length]; f_equal; lia|].
    cbn [map List.length]. rewrite zseq_S. cbn [singles map set_raw raw]. f_equal; auto. f_equal. lia.
Qed.

Lemma map_clause_sort_singles cs vs : map raw cs = singles vs -> map raw (map clause_sort cs) = singles vs.
Proof.
  revert vs. induction cs as [|c cs IH]; intros [|v vs] E; try discriminate; auto.
  cbn [map singles] in E. injection E as Ec E. cbn [map singles]. f_equal.
  - unfold clause_sort. cbn [raw]. rewrite Ec. reflexivity.
  - apply IH; auto.
Qed.
Lemma cond3_seq : forall k a seen, (forall v, In v seen -> v <= a) -> cond3 a seen (zseq (a + 1) k) = true.
Proof.
  induction k as [|k IH]; intros a seen H; [reflexivity|].
  rewrite zseq_S. cbn [cond3]. destruct (Z.ltb_spec (a + 1) a); [lia|]. cbn [andb].
  destruct (zmem (a + 1) seen) eqn:E; cbn [negb].
  - exfalso. apply zmem_In in E. specialize (H _ E). lia.
  - apply IH. intros v [<-|Hv]; [lia|]. specialize (H v Hv). lia.
Qed.
Lemma cond2_seq : forall cs a b k, map raw cs = singles (zseq b k) -> 0 <= a <= b -> cond2 a cs = Ok true.
Proof.
  induction cs as [|c cs IH]; intros a b [|k] E H; try discriminate; auto.
  rewrite zseq_S in E. cbn [map singles] in E. injection E as Ec E. cbn [cond2]. rewrite Ec.
  rewrite Z.abs_eq by lia. destruct (Z.ltb_spec b a); [lia|]. eapply (IH b (b + 1) k); auto. lia.
Qed.
Lemma concat_singles vs : concat (singles vs) = vs.
Proof. induction vs; cbn; auto. f_equal; auto. Qed.
Lemma units_ordered m s n : raws s = singles (zseq 1 (S n)) -> is_in_lo_state m s = Ok true.
Proof.
  intros E. unfold is_in_lo_state. rewrite E, concat_singles.
  assert (Em : map Z.abs (zseq 1 (S n)) = zseq 1 (S n)).
  { rewrite <- (map_id (zseq 1 (S n))) at 2. apply map_ext_in. intros v Hv. apply in_zseq in Hv. lia. }
  rewrite Em. unfold raws in E. rewrite zseq_S in *. change (1 + 1) with 2 in *.
  destruct (clauses s) as [|c cs] eqn:Ec; [discriminate|]. cbn [map singles] in E. injection E as Er E. rewrite Er.
  change (Z.abs 1) with 1. change (MIN_LITERAL <? 1) with false.
  assert (C3 : cond3 1 [1] (1 :: zseq 2 n) = true).
  { cbn [cond3]. change (zmem 1 [1]) with true. cbn [negb andb]. change (1 <? 1) with false. cbn [andb].
    apply (cond3_seq n 1). intros v [<-|[]]. lia. }
  rewrite C3. cbn [negb].
  assert (C2 : cond2 1 (c :: cs) = Ok true).
  { apply (cond2_seq _ 1 1 (S n)); [|lia]. rewrite zseq_S. cbn [map singles]. f_equal; auto. }
  rewrite C2. destruct m; auto.
Qed.
Lemma to_lo_singles lf m z t s s' vs : raws s = singles vs -> vs <> [] -> NoDup vs -> (forall v, In v vs -> 0 < v) ->
  to_lo_condition lf m z t s = Ok s' -> raws s' = unit_clauses (List.length vs).
Proof.
  intros E Hne ND P H. rewrite unit_clauses_singles.
  rewrite to_lo_unfold in H. destruct (pre_sort_eq m z t s) as (cs & Pm & Es). rewrite Es in H. clear Es.
  apply bind_ok in H as (s3 & E3 & H).
  assert (exists vs', map raw cs = singles vs' /\ Permutation vs vs') as (vs' & Ecs & Pv).
  { assert (Permutation (map raw cs) (singles vs)) as Q.
    { rewrite <- E. unfold raws. apply Permutation_map, Permutation_sym. auto. }
    unfold singles in Q; apply Permutation_map_inv in Q as (vs' & A & B). exists vs'. auto. }
  rewrite (Permutation_length Pv).
  assert (E3' : raws s3 = singles (zseq 1 (List.length vs'))).
  { unfold rename_vars in E3. cbn [clauses set_clauses] in E3.
    destruct (rename_singles cs vs' [] 1 Ecs) as (cs' & nm' & Er & Em).
    - eapply Permutation_NoDup; eauto.
    - intros v Hv. apply P. eapply Permutation_in; [apply Permutation_sym; eauto|auto].
    - intros v _ [].
    - rewrite Er in E3. apply bind_ok in E3 as (hov & Eh & E3). apply bind_ok in E3 as (fnm & Ef & E3).
      injection E3 as <-. unfold raws, sort_within_clauses. cbn [clauses set_clauses set_names set_highest].
      apply map_clause_sort_singles; auto. }
  destruct vs' as [|v vs']; [apply Permutation_sym, Permutation_nil in Pv; congruence|]. cbn [List.length] in *.
  destruct lf as [|lf]; [discriminate|]. cbn [lo_loop] in H.
  rewrite (units_ordered m s3 _ E3') in H. cbn [bind] in H. injection H as <-. auto.
Qed.

Lemma restrict_units k b : restrict 1 b (unit_clauses (S k)) =
  if b then singles (zseq 2 k) else [] :: singles (zseq 2 k).
Proof.
  rewrite unit_clauses_singles, zseq_S. change (1 + 1) with 2. unfold restrict. cbn [singles map].
  assert (G : map (filter (fun l => negb (Z.abs l =? 1)))
               (filter (fun c => negb (existsb (made_true 1 b) c)) (map (fun v => [v]) (zseq 2 k))) = singles (zseq 2 k)).
  { assert (Hs : forall v, In v (zseq 2 k) -> 2 <= v) by (intros v Hv; apply in_zseq in Hv; lia).
    revert Hs. generalize (zseq 2 k). induction l as [|v l IH]; intros Hs; [reflexivity|].
    assert (Hv : 2 <= v) by (apply Hs; left; auto).
    cbn [map filter existsb]. unfold made_true at 1. rewrite Z.abs_eq by lia.
    destruct (Z.eqb_spec v 1); [lia|]. cbn [andb orb negb map filter].
    rewrite Z.abs_eq by lia. destruct (Z.eqb_spec v 1); [lia|]. cbn [negb singles map]. f_equal.
    apply IH. intros w Hw. apply Hs. right; auto. }
  cbn [filter existsb]. unfold made_true at 1. change (Z.abs 1 =? 1) with true. change (0 <? 1) with true. cbn [andb].
  destruct b; [exact G|]. change (1 <? 0) with false. cbn [orb negb map filter]. change (Z.abs 1 =? 1) with true. cbn [negb]. f_equal. exact G.
Qed.
Lemma nonempty_singles vs : filter nonempty (singles vs) = singles vs.
Proof. induction vs; cbn; auto. f_equal; auto. Qed.
Lemma units_expand hash o F lf m x k1 k2 k : node F x -> expands hash o lf m x k1 k2 ->
  raws x = unit_clauses (S k) ->
  (exists d, k2 = KLeaf false d) /\
  match k with
  | O => exists d, k1 = KLeaf true d
  | _ => exists c, k1 = KNode c /\ raws c = unit_clauses k
  end.
Proof.
  intros N (l & r & E & P1 & P2) Ex.
  destruct (node_evaluate F (view (o_rdb o) x) (node_view F _ _ N)) as (l' & r' & po & E' & _ & _ & _ & _ & _ & C1 & C2).
  rewrite E in E'; inv E'.
  assert (Hp : pivot_of (view (o_rdb o) x) = 1).
  { unfold pivot_of. rewrite view_raws, Ex, unit_clauses_singles, zseq_S. reflexivity. }
  rewrite Hp in *. split.
  - pose proof (ch_value _ _ _ _ _ C2) as Hv. rewrite view_raws, Ex, restrict_units in Hv. cbn [existsb nonempty negb orb] in Hv.
    inv P2; [|congruence]. rewrite Hv in H. inv H. eauto.
  - pose proof (ch_value _ _ _ _ _ C1) as Hv. pose proof (ch_raws _ _ _ _ _ C1) as Hr.
    rewrite view_raws, Ex, restrict_units in Hv, Hr. rewrite nonempty_singles in Hr.
    assert (En : existsb (fun d => negb (nonempty d)) (singles (zseq 2 k)) = false).
    { generalize (zseq 2 k). induction l as [|a q IH]; cbn; auto. }
    rewrite En in Hv. destruct k as [|k].
    + cbn in Hv. inv P1; [|congruence]. rewrite Hv in H. inv H. eauto.
    + rewrite zseq_S in Hv. cbn [singles map] in Hv. inv P1; [congruence|]. eexists. split; [reflexivity|].
      rewrite finish_raws.
      eapply eq_trans; [eapply (to_lo_singles _ _ _ _ _ _ (zseq 2 (S k)) Hr); [| | |exact H0]|rewrite zseq_length; auto].
      * rewrite zseq_S. discriminate.
      * apply zseq_nodup.
      * intros v Hv'. apply in_zseq in Hv'. lia.
Qed.

Lemma unit_clauses_inj a b : unit_clauses a = unit_clauses b -> a = b.
Proof. intros H. apply (f_equal (@List.length _)) in H. unfold unit_clauses in H. rewrite !map_length, !seq_length in H. auto. Qed.

(* ---- a chain overflows a shorter stack ---- *)
Section Chain.
  Variable g : graph.
  Variable id : nat -> digest.
  Variable n : nat.
  Hypothesis edge : forall k, (S (S k) <= n)%nat -> dget text_eqb (id (S (S k))) g = Some [id (S k)].
  Hypothesis inj : forall i j, (1 <= i <= n)%nat -> (1 <= j <= n)%nat -> id i = id j -> i = j.
  Lemma chain_overflow : forall f k st, (f < k <= n)%nat -> (forall j, (1 <= j <= k)%nat -> ~ In (id j) (d_desc st)) ->
    node_stats f g (id k) st = OutOfFuel.
  Proof.
    induction f as [|f IH]; intros k st Hk Hst; [reflexivity|].
    destruct k as [|[|k]]; try lia. cbn [node_stats].
    assert (existsb (text_eqb (id (S (S k)))) (d_desc st) = false) as ->.
    { destruct (existsb _ _) eqn:E; auto. apply existsb_exists in E as (x & Hx & Ex).
      destruct (tspec (id (S (S k))) x); [subst|discriminate]. exfalso. eapply Hst; [|exact Hx]. lia. }
    rewrite edge by lia. rewrite IH; auto; [lia|].
    intros j Hj Hin. cbn [d_desc] in Hin. apply in_app_iff in Hin as [Hin|[Hin|[]]].
    - eapply Hst; [|exact Hin]. lia.
    - apply inj in Hin; lia.
  Qed.
End Chain.

(* ---- the graph recorded for unit clauses ---- *)
Section UnitRun.
  Variables (hash : text -> digest) (ifl : digest -> bool) (o : opts) (root : cset) (db : table) (out : outcome) (n : nat).
  Variables (r : cset) (p : pstate) (done : list entry) (pend : list cset).
  Hypothesis RO : root_ok root.
  Hypothesis FD : fresh_db o ifl db.
  Hypothesis CF : collision_free hash o root.
  Hypothesis Hroot : raws root = unit_clauses (S n).
  Hypothesis SV : solved_by hash ifl o root db out (root_bound root) r p done pend.
  Let I := sv_inv _ _ _ _ _ _ _ _ _ _ _ SV.
  Let Hp := sv_prep _ _ _ _ _ _ _ _ _ _ _ SV.
  Let Hb := sv_bound _ _ _ _ _ _ _ _ _ _ _ SV.
  Let NC := collision_free_no hash o root _ r RO Hb Hp CF.
  Lemma ur_root : raws r = unit_clauses (S n).
  Proof.
    unfold prepare_root in Hp. pose proof Hp as E. apply bind_ok in E as (r1 & E1 & E).
    apply bind_ok in E as ([h r2] & E2 & E). injection E as <-.
    assert (Er : raws (set_id r2 h) = raws r1).
    { unfold get_hash in E2. cbn in E2. destruct (computed_hash r1); apply bind_ok in E2 as (t & _ & E2); injection E2 as <- <-; reflexivity. }
    rewrite Er.
    eapply eq_trans; [eapply (to_lo_singles _ _ _ _ _ _ (zseq 1 (S n))); [| | | |exact E1]|rewrite zseq_length; auto].
    - rewrite <- unit_clauses_singles. exact Hroot.
    - rewrite zseq_S. discriminate.
    - apply zseq_nodup.
    - intros v Hv. apply in_zseq in Hv. lia.
  Qed.
  Lemma ur_in_root : In r (ys done pend).
  Proof. pose proof (i_root _ _ _ _ _ _ _ _ _ _ _ _ _ I) as Hr. destruct (ys done pend); [discriminate|]. inv Hr. left; auto. Qed.
  Lemma ur_node x : In x (ys done pend) -> is_node hash (raws root) (root_n root) (root_L root) (root_K root) x /\
    reach hash o (root_bound root) (input_mode o) r x.
  Proof. apply (i_nodes _ _ _ _ _ _ _ _ _ _ _ _ _ I). Qed.
  Lemma ur_reach x : reach hash o (root_bound root) (input_mode o) r x ->
    is_node hash (raws root) (root_n root) (root_L root) (root_K root) x.
  Proof. intros H. eapply reach_node; [apply ur_node, ur_in_root|exact Hb|exact H]. Qed.
  Lemma ur_same x y : reach hash o (root_bound root) (input_mode o) r x -> reach hash o (root_bound root) (input_mode o) r y ->
    sid x = sid y -> raws x = raws y.
  Proof. intros Rx Ry E. eapply same_id_same; [exact NC| | |exact Rx|exact Ry|exact E]; apply ur_reach; auto. Qed.
  Lemma ur_units x : reach hash o (root_bound root) (input_mode o) r x -> exists k, (k <= n)%nat /\ raws x = unit_clauses (S k).
  Proof.
    induction 1 as [|x k1 k2 c Hx (k & Hk & IH) EX Hc]; [exists n; split; auto; apply ur_root|].
    destruct (units_expand _ _ _ _ _ _ _ _ k (proj1 (ur_reach _ Hx)) EX IH) as ((d & ->) & H1).
    destruct k as [|k].
    - destruct H1 as (d' & ->). destruct Hc; discriminate.
    - destruct H1 as (c' & -> & Ec). destruct Hc as [Hc|Hc]; [|discriminate]. injection Hc as <-. exists k. split; [lia|auto].
  Qed.
  Lemma ur_entry y k1 k2 k : In (y, k1, k2) done -> raws y = unit_clauses (S k) ->
    (exists d, k2 = KLeaf false d) /\
    match k with O => exists d, k1 = KLeaf true d | S j =>
      exists c, k1 = KNode c /\ raws c = unit_clauses (S j) /\ reach hash o (root_bound root) (input_mode o) r c end.
  Proof.
    intros He Ey. destruct (i_exp _ _ _ _ _ _ _ _ _ _ _ _ _ I _ _ _ He) as (EX & _).
    assert (Hy : In y (ys done pend)).
    { unfold ys. apply in_app_iff. left. apply in_map_iff. exists (y, k1, k2). auto. }
    destruct (ur_node y Hy) as [Ny Ry].
    destruct (units_expand _ _ _ _ _ _ _ _ k (proj1 Ny) EX Ey) as (A & B). split; auto.
    destruct k; auto. destruct B as (c & Ec & Er). exists c. split; auto. split; auto.
    eapply reach_step; [exact Ry|exact EX|left; exact Ec].
  Qed.
  Lemma ur_present k : (k <= n)%nat -> exists y k1 k2, In (y, k1, k2) done /\ raws y = unit_clauses (S k).
  Proof.
    pose proof (sv_done _ _ _ _ _ _ _ _ _ _ _ SV) as Hl. unfold loop_done in Hl. apply orb_true_iff in Hl as [Hl|Hl].
    - rewrite (inv_empty _ _ _ _ _ _ _ _ _ _ _ _ _ I) in Hl. assert (Epend : pend = []) by (clear - Hl; destruct pend; [auto|discriminate]).
      assert (Hd : forall y, In y (ys done []) -> exists k1 k2, In (y, k1, k2) done).
      { intros y Hy. unfold ys in Hy. rewrite app_nil_r in Hy. apply in_map_iff in Hy as ([[y' k1] k2] & Ey & He).
        cbn in Ey; subst. eauto. }
      remember (n - k)%nat as j eqn:Ej. revert k Ej. induction j as [|j IH]; intros k Ej Hk.
      + assert (k = n) by lia. subst k. pose proof ur_in_root as Hr. rewrite Epend in Hr.
        destruct (Hd r Hr) as (k1 & k2 & He). exists r, k1, k2. split; auto. apply ur_root.
      + destruct (IH (S k) ltac:(lia) ltac:(lia)) as (y & k1 & k2 & He & Ey).
        destruct (ur_entry _ _ _ (S k) He Ey) as (_ & c & -> & Ec & Rc).
        pose proof (i_done _ _ _ _ _ _ _ _ _ _ _ _ _ I _ He) as [_ Hi].
        specialize (Hi (sid c)). unfold e_kids in Hi. cbn [fst snd kid_ids] in Hi. specialize (Hi (or_introl eq_refl)).
        apply in_map_iff in Hi as (w & Ew & Hw). pose proof Hw as Hw0. rewrite Epend in Hw0. destruct (Hd w Hw0) as (j1 & j2 & Hw').
        exists w, j1, j2. split; auto. rewrite <- Ec. apply ur_same; auto. apply ur_node. auto.
    - apply andb_true_iff in Hl as [Hl _].
      assert (exists y k1 k2, In (y, k1, k2) done /\ raws y = unit_clauses 1) as (y0 & a0 & b0 & He0 & E0).
      { rewrite (i_sol _ _ _ _ _ _ _ _ _ _ _ _ _ I) in Hl. destruct (true_leaves done) as [|d0 ds] eqn:Et; [discriminate|].
        assert (Hin : In d0 (true_leaves done)) by (rewrite Et; left; auto).
        unfold true_leaves in Hin. apply in_flat_map in Hin as ([[y k1] k2] & He & Hin).
        assert (Hy : In y (ys done pend)).
        { unfold ys. apply in_app_iff. left. apply in_map_iff. exists (y, k1, k2). auto. }
        destruct (ur_units y (proj2 (ur_node y Hy))) as (k' & Hk' & Ey).
        destruct (ur_entry _ _ _ k' He Ey) as ((d & ->) & H1). destruct k' as [|k']; [eauto|].
        destruct H1 as (c & -> & _). exfalso. cbn in Hin. destruct Hin. }
      induction k as [|k IH]; intros Hk; [eauto|].
      destruct IH as (y & k1 & k2 & He & Ey); [lia|].
      assert (Hy : In y (ys done pend)).
      { unfold ys. apply in_app_iff. left. apply in_map_iff. exists (y, k1, k2). auto. }
      destruct (i_conn _ _ _ _ _ _ _ _ _ _ _ _ _ I y Hy) as [->|([[z j1] j2] & Hz & Hid & _)].
      + exfalso. rewrite ur_root in Ey. apply unit_clauses_inj in Ey. lia.
      + assert (Hzin : In z (ys done pend)).
        { unfold ys. apply in_app_iff. left. apply in_map_iff. exists (z, j1, j2). auto. }
        destruct (ur_units z (proj2 (ur_node z Hzin))) as (k' & Hk' & Ez).
        destruct (ur_entry _ _ _ k' Hz Ez) as ((d & ->) & H1). unfold e_kids in Hid. cbn [fst snd kid_ids] in Hid.
        destruct k' as [|k']; [destruct H1 as (d' & ->); destruct Hid|].
        destruct H1 as (c & -> & Ec & Rc). cbn [app] in Hid. destruct Hid as [Hid|[]].
        assert (raws c = raws y) by (apply ur_same; auto; apply ur_node; auto).
        rewrite Ec, Ey in H. apply unit_clauses_inj in H. injection H as ->. eauto.
  Qed.
  Lemma ur_overflow limit : (limit <= n)%nat -> construct_graph_stats limit (sid r) (p_children p) = OutOfFuel.
  Proof.
    intros Hl. set (id := fun k => fhash hash (unit_clauses k)).
    assert (Hid : forall x, reach hash o (root_bound root) (input_mode o) r x -> sid x = fhash hash (raws x)).
    { intros x Hx. apply (ur_reach x Hx). }
    assert (Er : sid r = id (S n)).
    { unfold id. rewrite <- ur_root. apply Hid. apply (ur_node r ur_in_root). }
    unfold construct_graph_stats.
    assert (Hh : exists ks, dkeys (p_children p) = sid r :: ks).
    { rewrite (i_keys _ _ _ _ _ _ _ _ _ _ _ _ _ I). pose proof (i_root _ _ _ _ _ _ _ _ _ _ _ _ _ I) as Hr.
      destruct (ys done pend) as [|y l]; [discriminate|]. inv Hr. cbn. eauto. }
    destruct Hh as (ks & ->). cbn [graph_stats]. rewrite Er.
    rewrite (chain_overflow (p_children p) id (S n)); [reflexivity| | | |].
    - intros k Hk. destruct (ur_present (S k) ltac:(lia)) as (y & k1 & k2 & He & Ey).
      pose proof (i_done _ _ _ _ _ _ _ _ _ _ _ _ _ I _ He) as [Eg _]. change (e_node (y, k1, k2)) with y in Eg.
      assert (Hy : In y (ys done pend)).
      { unfold ys. apply in_app_iff. left. apply in_map_iff. exists (y, k1, k2). auto. }
      destruct (ur_entry _ _ _ (S k) He Ey) as ((d & ->) & c & -> & Ec & Rc).
      assert (E1 : sid y = id (S (S k))) by (unfold id; rewrite <- Ey; apply Hid; apply ur_node; auto).
      rewrite <- E1, Eg. unfold e_kids. cbn [fst snd kid_ids app]. rewrite (Hid c Rc), Ec. reflexivity.
    - intros i j Hi Hj E.
      destruct (ur_present (i - 1) ltac:(lia)) as (y & k1 & k2 & He & Ey).
      destruct (ur_present (j - 1) ltac:(lia)) as (z & j1 & j2 & Hz & Ez).
      assert (Hy : In y (ys done pend)). { unfold ys. apply in_app_iff. left. apply in_map_iff. exists (y, k1, k2). auto. }
      assert (Hzi : In z (ys done pend)). { unfold ys. apply in_app_iff. left. apply in_map_iff. exists (z, j1, j2). auto. }
      replace (S (i - 1))%nat with i in Ey by lia. replace (S (j - 1))%nat with j in Ez by lia.
      apply unit_clauses_inj. rewrite <- Ey, <- Ez. apply ur_same; try (apply ur_node; auto).
      rewrite !Hid by (apply ur_node; auto). rewrite Ey, Ez. exact E.
    - lia.
    - intros j _ [].
  Qed.
End UnitRun.
