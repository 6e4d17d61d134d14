(* PDb.v -- the global table: table operations, what a run on a fresh table leaves in it. *)
From Coq Require Import String Ascii ZArith List Bool Lia Permutation Sorted.
From Verif Require Import Spec PyBase MSet MText MQueue MDb MSolver MMain SpecRun PLib PClause PRename PLo PNorm PEval PText PQueue PNode PStep PRun PStats PSolver PSolve PSearch PGraph.
Import ListNotations.
Open Scope Z_scope.

(* ---- table operations ---- *)
Lemma dget_update f t h k : dget text_eqb k (update_row f t h) =
  if text_eqb h k then option_map f (dget text_eqb k t) else dget text_eqb k t.
Proof.
  induction t as [|[a r] t IH]; simpl; [destruct (text_eqb h k); auto|].
  destruct (text_eqb_spec h a) as [->|Hn]; simpl.
  - destruct (text_eqb_spec k a) as [->|Hk]; [rewrite text_eqb_refl; auto|].
    rewrite IH. auto.
  - destruct (text_eqb_spec k a) as [->|Hk]; [|apply IH].
    destruct (text_eqb_spec h a); [contradiction|auto].
Qed.
Lemma dkeys_update f t h : dkeys (update_row f t h) = dkeys t.
Proof. induction t as [|[a r] t IH]; simpl; auto. destruct (text_eqb h a); simpl; f_equal; auto. Qed.
Lemma dget_app_new {V} k h (v : V) t : dget text_eqb k (t ++ [(h, v)]) =
  match dget text_eqb k t with Some x => Some x | None => if text_eqb k h then Some v else None end.
Proof.
  induction t as [|[a r] t IH]; simpl; [destruct (text_eqb k h); auto|].
  destruct (text_eqb k a); auto.
Qed.

Definition counted (s : Z * Z * Z) (r : row) : row :=
  let '(u, rn, rh) := s in
  mkRow (r_body r) (r_cid1 r) (r_cid2 r) (r_num_clauses r) (r_num_vars r) u rn rh (r_times r).
Definition timed (n : Z) (r : row) : row :=
  mkRow (r_body r) (r_cid1 r) (r_cid2 r) (r_num_clauses r) (r_num_vars r)
        (r_unique r) (r_redundant r) (r_hits r) (r_times r + n).
Definition fold_counts (stats : list (digest * (Z * Z * Z))) (t : table) : table :=
  fold_left (fun t kv => let '(u, rn, rh) := snd kv in gs_update_count t u rn rh (fst kv)) stats t.
Definition fold_times (rr : list (digest * Z)) (t : table) : table :=
  fold_left (fun t kv => gs_update_redundant_times t (snd kv) (fst kv)) rr t.
Lemma fold_counts_get : forall stats t k, NoDup (dkeys stats) ->
  dget text_eqb k (fold_counts stats t) =
  match dget text_eqb k stats with
  | Some s => option_map (counted s) (dget text_eqb k t)
  | None => dget text_eqb k t
  end.
Proof.
  induction stats as [|[a [[u rn] rh]] stats IH]; intros t k ND; cbn [fold_counts fold_left dget]; auto.
  inv ND. cbn [fst snd]. change (fold_left _ stats ?x) with (fold_counts stats x). rewrite IH by auto.
  unfold gs_update_count. rewrite dget_update.
  destruct (text_eqb_spec k a) as [->|Hn].
  - rewrite text_eqb_refl. rewrite (proj2 (dget_None _ tspec _ _)) by auto. reflexivity.
  - destruct (text_eqb_spec a k); [congruence|auto].
Qed.
Lemma fold_counts_keys : forall stats t, dkeys (fold_counts stats t) = dkeys t.
Proof.
  induction stats as [|[a [[u rn] rh]] stats IH]; intros t; cbn [fold_counts fold_left]; auto.
  cbn [fst snd]. change (fold_left _ stats ?x) with (fold_counts stats x). rewrite IH.
  apply dkeys_update.
Qed.
Lemma fold_times_get : forall rr t k, NoDup (dkeys rr) ->
  dget text_eqb k (fold_times rr t) =
  match dget text_eqb k rr with
  | Some n => option_map (timed n) (dget text_eqb k t)
  | None => dget text_eqb k t
  end.
Proof.
  induction rr as [|[a n] rr IH]; intros t k ND; cbn [fold_times fold_left dget]; auto.
  inv ND. cbn [fst snd]. change (fold_left _ rr ?x) with (fold_times rr x). rewrite IH by auto.
  unfold gs_update_redundant_times. rewrite dget_update.
  destruct (text_eqb_spec k a) as [->|Hn].
  - rewrite text_eqb_refl. rewrite (proj2 (dget_None _ tspec _ _)) by auto. reflexivity.
  - destruct (text_eqb_spec a k); [congruence|auto].
Qed.
Lemma fold_times_keys : forall rr t, dkeys (fold_times rr t) = dkeys t.
Proof.
  induction rr as [|[a n] rr IH]; intros t; cbn [fold_times fold_left]; auto.
  cbn [fst snd]. change (fold_left _ rr ?x) with (fold_times rr x). rewrite IH. apply dkeys_update.
Qed.
Lemma save_keys stats rr t : dkeys (save_in_global_db stats rr t) = dkeys t.
Proof. unfold save_in_global_db. fold (fold_counts stats t). fold (fold_times rr (fold_counts stats t)).
  rewrite fold_times_keys, fold_counts_keys. auto. Qed.
Lemma save_get stats rr t k : NoDup (dkeys stats) -> NoDup (dkeys rr) ->
  dget text_eqb k (save_in_global_db stats rr t) =
  option_map (fun r => let s := match dget text_eqb k stats with Some s => s | None => (r_unique r, r_redundant r, r_hits r) end in
                       timed (match dget text_eqb k rr with Some n => n | None => 0 end) (counted s r))
             (dget text_eqb k t).
Proof.
  intros N1 N2. unfold save_in_global_db. fold (fold_counts stats t). fold (fold_times rr (fold_counts stats t)).
  rewrite fold_times_get, fold_counts_get by auto.
  destruct (dget text_eqb k stats) as [[[u rn] rh]|], (dget text_eqb k rr), (dget text_eqb k t) as [[]|];
    unfold timed, counted; cbn -[Z.add];
    rewrite ?Z.add_0_r; auto.
Qed.

Lemma NoDup_app_left {A} (l l' : list A) : NoDup (l ++ l') -> NoDup l.
Proof.
  induction l as [|a l IH]; simpl; intros H; constructor; inv H; auto.
  intros Hi. apply H2, in_app_iff; auto.
Qed.

(* ---- the statistics, all of them ---- *)
Lemma graph_stats_more g fuel root : forall ks acc rr acc' rr',
  graph_stats fuel g root ks acc rr = Ok (acc', rr') -> NoDup ks -> (forall k, In k ks -> ~ In k (dkeys acc)) ->
  dkeys acc' = dkeys acc ++ ks /\
  (if existsb (text_eqb root) ks then exists st, node_stats fuel g root (mkDfs [] []) = Ok st /\ rr' = d_red st
   else rr' = rr).
Proof.
  induction ks as [|k ks IH]; intros acc rr acc' rr' H ND Hd.
  - cbn in H. inv H. rewrite app_nil_r. split; reflexivity.
  - cbn [graph_stats] in H. apply bind_ok in H as (st & Est & H). inv ND.
    apply IH in H as [A B]; auto.
    2:{ intros x Hx Hi. apply (dset_keys_incl _ tspec) in Hi as [->|Hi]; auto. eapply Hd; simpl; eauto. }
    split.
    + rewrite A. rewrite (dset_new _ tspec) by (apply Hd; simpl; auto).
      unfold dkeys. rewrite map_app. simpl. rewrite <- app_assoc. auto.
    + cbn [existsb]. destruct (text_eqb_spec root k) as [->|Hn]; cbn [orb].
      * rewrite text_eqb_refl in B. destruct (existsb (text_eqb k) ks); eauto.
      * destruct (existsb (text_eqb root) ks); auto. destruct (text_eqb_spec k root); [congruence|auto].
Qed.
Lemma rsum_ind_get x d : NoDup (dkeys d) -> rsum (ind x) d = match dget text_eqb x d with Some n => n | None => 0 end.
Proof.
  induction d as [|[k v] d IH]; intros ND; cbn [rsum fold_right dget]; auto. inv ND.
  fold (rsum (ind x) d). rewrite IH by auto. cbn [fst snd]. unfold ind.
  destruct (text_eqb_spec x k) as [->|Hn]; [|lia].
  rewrite (proj2 (dget_None _ tspec _ _)) by auto. lia.
Qed.
Lemma stats_all g fuel root stats rr : closed_graph g -> In root (dkeys g) ->
  construct_graph_stats fuel root g = Ok (stats, rr) ->
  dkeys stats = dkeys g /\ NoDup (dkeys rr) /\
  (forall k, In k (dkeys g) -> exists s, dget text_eqb k stats = Some s /\ stat_row g k s) /\
  (forall k, extra_arrivals g root k (match dget text_eqb k rr with Some n => n | None => 0 end)).
Proof.
  intros G Hr E. set (f := Nat.max fuel (Datatypes.S (List.length (dkeys g)))).
  assert (Hf : (List.length (dkeys g) < f)%nat) by (unfold f; lia).
  destruct (construct_stats_spec g G f root Hf Hr) as (st' & rr' & E' & HS).
  unfold construct_graph_stats in *. apply (graph_stats_mono g root fuel f) in E; [|unfold f; lia].
  rewrite E in E'. injection E' as <- <-.
  apply graph_stats_more in E as [A B]; [|apply G|intros k _ []].
  simpl in A. split; auto.
  rewrite (proj2 (existsb_exists _ _)) in B by (exists root; split; auto; apply text_eqb_refl).
  destruct B as (st & Est & ->).
  destruct (dfs_from g G root f Hr Hf) as (st2 & Est2 & ND & HR & RO & W). rewrite Est in Est2. injection Est2 as <-.
  split; [apply RO|]. split; auto.
  intros k. exists (d_desc st). split; auto. split; auto.
  specialize (W (ind k)). rewrite rsum_ind_get in W by apply RO.
  rewrite wsum_flat_map, !wsum_ind in W. 
  change (count_occ text_dec (root :: flat_map (succs g) (d_desc st)) k) with
         (count_occ text_dec ([root] ++ flat_map (succs g) (d_desc st)) k).
  rewrite count_occ_app. pose proof (wsum_ind k [root]) as W2. cbn [wsum fold_right] in W2. lia.
Qed.

(* ---- what a run on a fresh table leaves there ---- *)
Section Left.
  Variable hash : text -> digest.
  Variable insert_fails : digest -> bool.
  Variable o : opts.
  Variable root : cset.
  Hypothesis RO : root_ok root.
  Hypothesis FD : fresh_db o insert_fails [].
  Hypothesis Hg : o_gdb o = true.

  Lemma left_keys out lf r p done pend : solved_by hash insert_fails o root [] out lf r p done pend ->
    dkeys (out_db out) = map sid (map e_node done).
  Proof.
    intros S. pose proof (sv_inv _ _ _ _ _ _ _ _ _ _ _ S) as I.
    assert (E : dkeys (p_db p) = map sid (map e_node done)).
    { rewrite (i_db _ _ _ _ _ _ _ _ _ _ _ _ _ I), Hg. simpl. unfold dkeys. rewrite !map_map. auto. }
    destruct (o_no_stats o) eqn:En.
    - destruct (sv_nostats _ _ _ _ _ _ _ _ _ _ _ S En) as (_ & _ & _ & ->). auto.
    - destruct (sv_stats _ _ _ _ _ _ _ _ _ _ _ S En) as (fuel & stats & rr & _ & _ & _ & ->).
      rewrite Hg, save_keys. auto.
  Qed.
  Lemma left_row out lf r p done pend e : solved_by hash insert_fails o root [] out lf r p done pend -> In e done ->
    exists n s, dget text_eqb (sid (e_node e)) (out_db out) = Some (timed n (counted s (snd (row_of_entry hash e)))) /\
      (o_no_stats o = true -> n = 0 /\ s = (0, 0, 0)) /\
      (o_no_stats o = false -> stat_row (p_children p) (sid (e_node e)) s /\
         extra_arrivals (p_children p) (sid r) (sid (e_node e)) n).
  Proof.
    intros S He. pose proof (sv_inv _ _ _ _ _ _ _ _ _ _ _ S) as I.
    assert (E : dget text_eqb (sid (e_node e)) (p_db p) = Some (snd (row_of_entry hash e))).
    { apply (dget_In_NoDup _ tspec).
      - rewrite (i_db _ _ _ _ _ _ _ _ _ _ _ _ _ I), Hg. simpl. unfold dkeys. rewrite map_map.
        pose proof (i_nodup _ _ _ _ _ _ _ _ _ _ _ _ _ I) as ND. unfold ys in ND. rewrite map_app, map_map in ND.
        apply NoDup_app_left in ND. exact ND.
      - rewrite (i_db _ _ _ _ _ _ _ _ _ _ _ _ _ I), Hg. simpl. apply in_map_iff. exists e; auto. }
    assert (Hin : In (sid (e_node e)) (dkeys (p_children p))).
    { rewrite (i_keys _ _ _ _ _ _ _ _ _ _ _ _ _ I). apply in_map, in_app_iff. left. apply in_map; auto. }
    destruct (o_no_stats o) eqn:En.
    - destruct (sv_nostats _ _ _ _ _ _ _ _ _ _ _ S En) as (_ & _ & _ & ->).
      exists 0, (0, 0, 0). rewrite E. split; [reflexivity|]. split; [auto|discriminate].
    - destruct (sv_stats _ _ _ _ _ _ _ _ _ _ _ S En) as (fuel & stats & rr & Ec & _ & _ & ->).
      destruct (inv_closed _ _ _ _ _ _ _ _ _ _ _ _ _ I) as [Hcl _].
      assert (Hr : In (sid r) (dkeys (p_children p))).
      { rewrite (i_keys _ _ _ _ _ _ _ _ _ _ _ _ _ I). apply in_map. pose proof (i_root _ _ _ _ _ _ _ _ _ _ _ _ _ I) as Hr.
        destruct (ys done pend); [discriminate|]. inv Hr. left; auto. }
      destruct (stats_all _ _ _ _ _ Hcl Hr Ec) as (A & B & C & D).
      destruct (C _ Hin) as (s & Es & Hs). rewrite Hg, save_get, E.
      + eexists _, s. rewrite Es. split; [reflexivity|]. split; [discriminate|]. intros _. split; auto.
      + rewrite A. apply Hcl.
      + exact B.
  Qed.
End Left.

(* the hashes stored for the branches, in terms of formulas *)
Lemma expands_hashes hash o : o_thief o = false -> forall lf m F x k1 k2, node F x -> expands hash o lf m x k1 k2 ->
  child_hash hash m (o_sort_by_size o) true (raws x) (kid_hash hash k1) /\
  child_hash hash m (o_sort_by_size o) false (raws x) (kid_hash hash k2).
Proof.
  intros Hthief lf m F x k1 k2 N EX. destruct (expands_formula hash o Hthief lf m F x k1 k2 N EX) as [A B].
  destruct EX as (l & r & E & P1 & P2).
  destruct (node_evaluate F (view (o_rdb o) x) (node_view F _ _ N)) as (l' & r' & po & E' & _ & _ & _ & _ & _ & C1 & C2).
  rewrite E in E'; inv E'.
  assert (G : forall b c k, child_of (view (o_rdb o) x) (pivot_of (view (o_rdb o) x)) po b c ->
            prepared hash o lf m c k -> kid_of o m b (raws x) k ->
            child_hash hash m (o_sort_by_size o) b (raws x) (kid_hash hash k)).
  { intros b c k C P Hk. pose proof (ch_value _ _ _ _ _ C) as Hv. unfold child_hash.
    unfold pivot_of in *. rewrite view_raws in *.
    set (R := restrict (leading (hd [] (raws x))) b (raws x)) in *.
    inv P.
    - rewrite H in Hv. destruct (existsb (fun d => negb (nonempty d)) R) eqn:Ex.
      + right; left. injection Hv as ->. split; [apply In_nil_existsb; auto|reflexivity].
      + left. destruct R; [|discriminate]. injection Hv as ->. auto.
    - right; right. exists (raws (finish hash c0)). split; auto. }
  split; [eapply (G true)|eapply (G false)]; eauto.
Qed.

(* ---- an insert that fails ---- *)
Section Lost.
  Variable hash : text -> digest.
  Variable insert_fails : digest -> bool.
  Variable o : opts.
  Variable seen_sets : list digest.

  Definition after_lost (x : cset) (k1 k2 : kid) (p : pstate) (q : squeue) : pstate :=
    let p2 := with_queue (upd o (sid x) k2 (upd o (sid x) k1 p)) q in
    if both_leaves k1 k2 then add_leaf p2 (sid x) else p2.

  Lemma step_lost F n L K lf m p ever x xs k1 k2 :
    node F x -> sid x = fhash hash (raws x) -> computed_hash x = Some (sid x) ->
    expands hash o lf m x k1 k2 -> kid_ok hash F n L K (view (o_rdb o) x) true k1 ->
    kid_ok hash F n L K (view (o_rdb o) x) false k2 ->
    qrep (o_rdb o) (p_queue p) ever (x :: xs) -> In (sid x) (dkeys (p_children p)) ->
    o_gdb o = true -> is_set_in_gdb o seen_sets (sid x) (p_db p) = false ->
    insert_fails (sid x) || dmem text_eqb (sid x) (p_db p) = true ->
    exists q', step hash insert_fails o seen_sets lf m p = Ok (after_lost x k1 k2 p q') /\
      qrep (o_rdb o) q' ever xs.
  Proof.
    intros N Hs Hc (l & r & Ev & Pl & Pr) K1 K2 Q Hin Hg Hing Hfail.
    destruct (qrep_pop _ _ _ _ _ Q) as (q1 & Epop & Q1). unfold step. rewrite Epop. cbn [bind].
    set (p0 := with_queue p q1).
    set (v := view (o_rdb o) x) in *.
    assert (Nv : node F v) by (apply node_view; auto).
    destruct (view_hash hash o F x N Hs Hc) as (cnf & G1 & E2 & G3). fold v in G1, E2.
    rewrite Hg, G1. cbn [bind andb]. change (p_db p0) with (p_db p). rewrite Hing.
    assert (Ev' : evaluate cnf = Ok (Some (l, r))) by (destruct E2 as [->| ->]; auto).
    assert (Esid : sid cnf = sid x).
    { destruct E2 as [->| ->]; simpl; unfold v; rewrite view_sid; auto. }
    rewrite Ev'. cbn [bind]. rewrite Esid.
    destruct (node_evaluate F v Nv) as (l0 & r0 & po & E0 & P1 & P2 & P3 & P4 & P5 & C1 & C2).
    rewrite Ev in E0; injection E0 as -> ->.
    destruct (process_child_spec hash o F n L K v true lf m (sid x) l0 k1 p0) as (c1 & A1 & A2 & A3 & A4); auto.
    { apply (ch_hash _ _ _ _ _ C1). } { intros Hv. eapply child_none; eauto. }
    rewrite A1. cbn [bind].
    destruct (process_child_spec hash o F n L K v false lf m (sid x) r0 k2 (upd o (sid x) k1 p0)) as (c2 & B1 & B2 & B3 & B4); auto.
    { rewrite upd_keys; auto. apply in_app_iff; auto. }
    { apply (ch_hash _ _ _ _ _ C2). } { intros Hv. eapply child_none; eauto. }
    rewrite B1. cbn [bind]. rewrite A2, B2. cbn [bind].
    assert (Hne : clauses v <> []) by apply (n_ready _ _ Nv).
    assert (Es : save_parent_children hash insert_fails o seen_sets cnf (kid_hash hash k1) (kid_hash hash k2)
                   (upd o (sid x) k2 (upd o (sid x) k1 p0)) =
                 Ok (DB_UNIQUE_VIOLATION, upd o (sid x) k2 (upd o (sid x) k1 p0))).
    { unfold save_parent_children. rewrite G3. cbn [bind].
      assert (Ecl : clauses cnf = clauses v) by (destruct E2 as [->| ->]; auto). rewrite Ecl.
      rewrite (last_error_ne (clauses v) (mkClause [] None false 0)) by auto.
      set (cl := last (clauses v) (mkClause [] None false 0)).
      assert (Hcl0 : raw cl <> []).
      { apply (rd_nonempty _ _ (n_ready _ _ Nv)). unfold raws. apply in_map. unfold cl.
        rewrite (app_removelast_last (mkClause [] None false 0) Hne) at 2. apply in_app_iff; simpl; auto. }
      rewrite (last_error_ne (raw cl) 0) by auto. cbn [bind of_option].
      rewrite !upd_db. change (p_db p0) with (p_db p). rewrite Hg, Hing. cbn [andb negb].
      assert (Et : to_text cnf = Ok (formula_text (raws v))).
      { destruct E2 as [->| ->]; [apply (node_text F); auto | exact (node_text F (set_hash v (Some (sid x))) (node_set_hash _ _ _ Nv))]. }
      rewrite Et. cbn [bind]. unfold gs_insert_row. change digest with text in *. rewrite Hfail. 
      f_equal. f_equal. rewrite <- (upd_db o (sid x) k1 p0) at 1 || idtac.
      assert (Hdb : p_db (upd o (sid x) k2 (upd o (sid x) k1 p0)) = p_db p) by (rewrite !upd_db; auto).
      rewrite <- Hdb. destruct (upd o (sid x) k2 _); reflexivity. }
    rewrite Es. cbn [bind]. rewrite A3, B3. exists q1. split; auto. f_equal. unfold after_lost.
    assert (Epk : forall k pp, upd o (sid x) k (with_queue pp q1) = with_queue (upd o (sid x) k pp) q1).
    { intros k pp. unfold upd, set_sol, is_new. destruct k as [[] d|c]; simpl; auto;
        [destruct (p_solution pp)|destruct (negb _)]; reflexivity. }
    unfold p0. rewrite !Epk.
    destruct k1, k2; reflexivity.
  Qed.
End Lost.

Lemma prepare_root_same hash o root lf r : root_ok root -> prepare_root hash lf o root = Ok r ->
  prepare_root hash (root_bound root) o root = Ok r.
Proof.
  intros RO Hr.
  destruct (prepare_root_spec hash o (root_bound root) (root_L root) root RO (root_below root) (le_n _))
    as (r0 & Ep & _). rewrite Ep. f_equal.
  unfold prepare_root in *. set (s0 := set_original _ _) in *.
  apply bind_ok in Hr as (a & A1 & A2). apply bind_ok in Ep as (b & B1 & B2).
  assert (a = b); [|subst; congruence].
  pose proof (to_lo_mono _ _ _ _ (Nat.max lf (root_bound root)) _ _ (Nat.le_max_l _ _) A1).
  pose proof (to_lo_mono _ _ _ _ (Nat.max lf (root_bound root)) _ _ (Nat.le_max_r _ _) B1). congruence.
Qed.

Section LostRoot.
  Variable hash : text -> digest.
  Variable insert_fails : digest -> bool.
  Variable o : opts.
  Variable root : cset.
  Variable db : table.
  Hypothesis RO : root_ok root.
  Hypothesis Hg : o_gdb o = true.

  Lemma not_stored_unsolved k h : ~ In h (dkeys db) -> is_set_solved o (loaded_solved o db k) h db = false.
  Proof.
    intros Hn. unfold is_set_solved, loaded_solved. rewrite Hg. destruct (o_no_mem o); simpl.
    - unfold gs_is_hash_solved. rewrite (proj2 (dget_None _ tspec _ _)) by auto. auto.
    - apply (dmem_false _ tspec). unfold gs_load_solved_sets, dkeys. rewrite map_map. simpl.
      intros Hi. apply in_map_iff in Hi as ([a rw] & <- & Hf). apply filter_In in Hf as [Hf _].
      apply Hn. apply (in_map fst) in Hf. exact Hf.
  Qed.
  Lemma not_stored_unseen k h : ~ In h (dkeys db) -> is_set_in_gdb o (loaded_seen o db k) h db = false.
  Proof.
    intros Hn. unfold is_set_in_gdb, loaded_seen. rewrite Hg. destruct (o_no_mem o); simpl.
    - apply (dmem_false _ tspec); auto.
    - destruct (existsb _ _) eqn:E; auto. apply existsb_exists in E as (h' & Hi & Eh). apply text_eqb_eq in Eh as <-.
      exfalso. apply Hn. unfold gs_load_unsolved_sets, gs_load_solved_sets in Hi. rewrite map_map in Hi. simpl in Hi.
      apply in_app_iff in Hi as [Hi|Hi]; apply in_map_iff in Hi as ([a rw] & <- & Hf); apply filter_In in Hf as [Hf _];
        apply (in_map fst) in Hf; exact Hf.
  Qed.

  Lemma lost_root lf r : prepare_root hash lf o root = Ok r -> ~ In (sid r) (dkeys db) -> insert_fails (sid r) = true ->
    exists out k1 k2, ends_with hash insert_fails o root db out /\
      expands hash o (root_bound root) (input_mode o) r k1 k2 /\ node (raws root) r /\
      out_sat out = match true_leaf k1 ++ true_leaf k2 with [] => false | _ => true end /\
      out_solution out = option_map sort_items (hd_error (true_leaf k1 ++ true_leaf k2)) /\
      closed_graph (out_children out) /\ hd_error (dkeys (out_children out)) = Some (sid r) /\
      (forall h, In h (dkeys (out_children out)) <-> h = sid r \/ In h (kid_ids k1 ++ kid_ids k2)) /\
      succs (out_children out) (sid r) = kid_ids k1 ++ kid_ids k2 /\
      (forall h, h <> sid r -> succs (out_children out) h = []) /\
      dkeys (out_db out) = dkeys db.
  Proof.
    intros Hr Hn Hfail. apply (prepare_root_same hash o root lf r RO) in Hr. clear lf. set (lf := root_bound root) in *.
    destruct (prepare_root_spec hash o lf (root_L root) root RO (root_below root) (le_n _))
      as (r0 & Ep & N & Hs & Hc & W & Hev & Heq). rewrite Hr in Ep. injection Ep as <-.
    assert (Erh : set_hash r (Some (sid r)) = r) by (rewrite <- Hc; destruct r; auto).
    destruct (start_inv hash o (raws root) (root_n root) (root_L root) (root_K root) lf (input_mode o) db r
                N Hs (or_intror Hc) W) as (p0 & Es & I). rewrite Erh in I.
    destruct (expand_total hash o (raws root) (root_n root) (root_L root) (root_K root) lf (input_mode o) r N W (le_n _))
      as (k1 & k2 & EX & K1 & K2).
    set (seen := loaded_seen o db (Z.of_nat (List.length (clauses r)))).
    assert (Edb : p_db p0 = db).
    { rewrite (i_db _ _ _ _ _ _ _ _ _ _ _ _ _ I), Hg. apply app_nil_r. }
    assert (Ech : p_children p0 = [(sid r, [])]).
    { unfold start in Es. rewrite (get_hash_some hash r _ Hc) in Es. cbn [bind] in Es.
      apply bind_ok in Es as (q & _ & Es). injection Es as <-. reflexivity. }
    assert (Hin : In (sid r) (dkeys (p_children p0))) by (rewrite Ech; simpl; auto).
    destruct (step_lost hash insert_fails o seen (raws root) (root_n root) (root_L root) (root_K root) lf (input_mode o)
               p0 _ r [] k1 k2 N Hs Hc EX K1 K2 (i_queue _ _ _ _ _ _ _ _ _ _ _ _ _ I) Hin Hg) as (q & Est & Q).
    { rewrite Edb. apply not_stored_unseen; auto. }
    { rewrite Hfail; auto. }
    set (p := after_lost o r k1 k2 p0 q) in *.
    assert (Hfield : forall A (f : pstate -> A), (forall p q, f (with_queue p q) = f p) -> (forall p i, f (add_leaf p i) = f p) ->
              f p = f (upd o (sid r) k2 (upd o (sid r) k1 p0))).
    { intros A f H1 H2. unfold p, after_lost. destruct (both_leaves k1 k2); rewrite ?H2, H1; auto. }
    assert (Hpc : p_children p = p_children (upd o (sid r) k2 (upd o (sid r) k1 p0))) by (apply Hfield; auto).
    set (pu := upd o (sid r) k1 p0) in *.
    assert (Hin2 : In (sid r) (dkeys (p_children pu))) by (unfold pu; rewrite upd_keys by auto; apply in_app_iff; auto).
    assert (Keys : dkeys (p_children p) = (sid r :: (if is_new k1 p0 then kid_ids k1 else [])) ++ (if is_new k2 pu then kid_ids k2 else [])).
    { rewrite Hpc, upd_keys by auto. unfold pu. rewrite upd_keys by auto. rewrite Ech. auto. }
    assert (Kin : forall h, In h (dkeys (p_children p)) <-> h = sid r \/ In h (kid_ids k1 ++ kid_ids k2)).
    { intros h. split.
      - rewrite Keys. intros Hh. apply in_app_iff in Hh as [[Hh|Hh]|Hh]; auto; right; apply in_app_iff.
        + destruct (is_new k1 p0); [auto|contradiction].
        + destruct (is_new k2 pu); [auto|contradiction].
      - intros [->|Hh]; [rewrite Keys; simpl; auto|].
        assert (Hk : forall k pp, In (sid r) (dkeys (p_children pp)) -> In h (kid_ids k) -> In h (dkeys (p_children (upd o (sid r) k pp)))).
        { intros k pp Hpp Hh'. rewrite upd_keys by auto. destruct k as [|c]; [contradiction|]. destruct Hh' as [<-|[]].
          unfold is_new. destruct (dmem text_eqb (sid c) (p_children pp)) eqn:E; simpl.
          - apply (dmem_In _ tspec) in E. rewrite app_nil_r; auto.
          - apply in_app_iff; simpl; auto. }
        rewrite Hpc. apply in_app_iff in Hh as [Hh|Hh]; [|apply Hk; auto].
        rewrite upd_keys by auto. apply in_app_iff. left. unfold pu. apply Hk; auto. }
    assert (Hsr : dget text_eqb (sid r) (p_children p) = Some (kid_ids k1 ++ kid_ids k2)).
    { rewrite Hpc, upd_get by auto. rewrite text_eqb_refl. f_equal. unfold kids_at.
      unfold pu. rewrite upd_get by auto. rewrite text_eqb_refl. unfold kids_at. rewrite Ech. simpl. rewrite text_eqb_refl. auto. }
    assert (Hso : forall h, h <> sid r -> succs (p_children p) h = []).
    { intros h Hh. unfold succs. rewrite Hpc, upd_get by auto. destruct (text_eqb_spec h (sid r)); [contradiction|].
      destruct (is_new k2 pu && _); auto. unfold pu. rewrite upd_get by auto.
      destruct (text_eqb_spec h (sid r)); [contradiction|].
      destruct (is_new k1 p0 && _); auto. rewrite Ech. simpl. destruct (text_eqb_spec h (sid r)); [contradiction|auto]. }
    assert (Hnd : NoDup (dkeys (p_children p))).
    { rewrite Keys. cbn [app]. constructor.
      - intros Hi. apply in_app_iff in Hi as [Hi|Hi].
        + destruct (is_new k1 p0) eqn:E; [|contradiction]. destruct k1 as [|c]; [contradiction|]. destruct Hi as [Hi|[]].
          unfold is_new in E. apply negb_true_iff in E. apply (dmem_false _ tspec) in E. apply E. rewrite Hi; auto.
        + destruct (is_new k2 pu) eqn:E; [|contradiction]. destruct k2 as [|c]; [contradiction|]. destruct Hi as [Hi|[]].
          unfold is_new in E. apply negb_true_iff in E. apply (dmem_false _ tspec) in E. apply E. rewrite Hi; auto.
      - destruct (is_new k1 p0) eqn:E1, (is_new k2 pu) eqn:E2; simpl; rewrite ?app_nil_r;
          destruct k1 as [|c1], k2 as [|c2]; try discriminate; simpl;
          try solve [repeat constructor; simpl; tauto].
        constructor; [|repeat constructor; simpl; tauto].
        intros [Hi|[]]. unfold is_new in E2. apply negb_true_iff in E2. apply (dmem_false _ tspec) in E2. apply E2.
          rewrite Hi. unfold pu. rewrite upd_keys by auto. rewrite E1. apply in_app_iff; simpl; auto. }
    assert (Hcl : closed_graph (p_children p)).
    { split; auto. intros h Hh x Hx. destruct (text_eqb_spec h (sid r)) as [->|Hne].
      - unfold succs in Hx. rewrite Hsr in Hx. apply Kin; auto.
      - rewrite Hso in Hx by auto. destruct Hx. }
    assert (Hroot : In (sid r) (dkeys (p_children p))) by (apply Kin; auto).
    assert (Hdb : p_db p = db).
    { rewrite (Hfield _ p_db) by auto. unfold pu. rewrite !upd_db. auto. }
    set (sf := Datatypes.S (List.length (dkeys (p_children p)))).
    destruct (construct_stats_spec (p_children p) Hcl sf (sid r)) as (stats & rr & Estats & Hrow); [unfold sf; lia|auto|].
    destruct (Hrow _ Hroot) as ([[u rn] rh] & Hget & _).
    set (out := if o_no_stats o
      then mkOut (p_sat p) (p_solution p) (p_children p) (p_uniques p) 0 (p_hits p) (p_found p) (p_db p) (p_dot p)
      else mkOut (p_sat p) (p_solution p) (p_children p) u rn rh (p_found p) (save_in_global_db stats rr (p_db p)) (p_dot p)).
    assert (Erun : run hash insert_fails o seen 1 lf (input_mode o) p0 = Ok p).
    { cbn [run]. assert (El : loop_done o p0 = false).
      { unfold loop_done. rewrite (inv_empty _ _ _ _ _ _ _ _ _ _ _ _ _ I), (i_sol _ _ _ _ _ _ _ _ _ _ _ _ _ I). auto. }
      rewrite El, Est. cbn [bind run].
      assert (El' : loop_done o p = true).
      { unfold loop_done. replace (p_queue p) with q.
        - rewrite (qrep_empty _ _ _ _ Q). auto.
        - unfold p, after_lost. destruct (both_leaves k1 k2); reflexivity. }
      rewrite El'. auto. }
    exists out, k1, k2. split.
    { set (f0 := Nat.max 1 sf). exists (Nat.max f0 lf). intros fuel lf' H1 H2.
      apply (solve_set_mono hash insert_fails o root db f0 fuel lf lf'); try lia.
      unfold solve_set.
      destruct (to_pretty_total root) as [t Et]; [right; apply RO|]. rewrite Et; cbn [bind].
      rewrite Hr; cbn [bind]. rewrite not_stored_unsolved by auto. fold seen.
      unfold process_nodes_queue. rewrite Es; cbn [bind].
      rewrite (run_mono hash insert_fails o seen lf lf (le_n _) (input_mode o) 1 f0 p0 (Nat.le_max_l _ _) p Erun).
      cbn [bind]. unfold out. destruct (o_no_stats o); auto.
      unfold construct_graph_stats in *.
      rewrite (graph_stats_mono _ _ sf f0 (Nat.le_max_r _ _) _ _ _ _ Estats). cbn [bind].
      change digest with text in *. rewrite Hget, Hg. reflexivity. }
    assert (Oc : out_children out = p_children p) by (unfold out; destruct (o_no_stats o); auto).
    assert (Os : out_sat out = p_sat p) by (unfold out; destruct (o_no_stats o); auto).
    assert (Ol : out_solution out = p_solution p) by (unfold out; destruct (o_no_stats o); auto).
    rewrite Oc, Os, Ol. split; auto. split; auto.
    split; [|split; [|split; [auto|split; [rewrite Keys; auto|split; [auto|split; [unfold succs; rewrite Hsr; auto|split; [auto|]]]]]]].
    - rewrite (Hfield _ p_sat) by auto. unfold pu. rewrite !upd_sat, (i_sat _ _ _ _ _ _ _ _ _ _ _ _ _ I). simpl.
      destruct (true_leaf k1), (true_leaf k2); auto.
    - rewrite (Hfield _ p_solution) by auto. unfold pu. rewrite !upd_sol, (i_sol _ _ _ _ _ _ _ _ _ _ _ _ _ I). simpl.
      destruct (true_leaf k1), (true_leaf k2); auto.
    - unfold out. destruct (o_no_stats o); simpl; rewrite ?save_keys, Hdb; auto.
  Qed.
End LostRoot.

Lemma expands_true hash o lf m F x k1 k2 : node F x -> expands hash o lf m x k1 k2 ->
  (true_leaf k1 <> [] <-> restrict (leading (hd [] (raws x))) true (raws x) = []) /\
  (true_leaf k2 <> [] <-> restrict (leading (hd [] (raws x))) false (raws x) = []).
Proof.
  intros N (l & r & E & P1 & P2).
  destruct (node_evaluate F (view (o_rdb o) x) (node_view F _ _ N)) as (l' & r' & po & E' & _ & _ & _ & _ & _ & C1 & C2).
  rewrite E in E'; inv E'.
  assert (G : forall b c k, child_of (view (o_rdb o) x) (pivot_of (view (o_rdb o) x)) po b c ->
            prepared hash o lf m c k -> (true_leaf k <> [] <-> restrict (leading (hd [] (raws x))) b (raws x) = [])).
  { intros b c k C P. pose proof (ch_value _ _ _ _ _ C) as Hv.
    unfold pivot_of in *. rewrite view_raws in *.
    set (R := restrict (leading (hd [] (raws x))) b (raws x)) in *.
    inv P.
    - rewrite H in Hv. destruct (existsb (fun d => negb (nonempty d)) R) eqn:Ex.
      + injection Hv as ->. simpl. split; [tauto|]. intros ER; rewrite ER in Ex; discriminate.
      + destruct R; [|discriminate]. injection Hv as ->. simpl. split; [auto|discriminate].
    - simpl. split; [tauto|]. intros ER. rewrite H, ER in Hv. simpl in Hv. discriminate. }
  split; [eapply (G true)|eapply (G false)]; eauto.
Qed.
