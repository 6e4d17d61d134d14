(* PSession.v -- what the runs of the program do to the global tables. *)
From Coq Require Import String Ascii ZArith List Bool Lia Permutation.
From Verif Require Import Spec PyBase MSet MText MQueue MDb MSolver MMain MProc MShare MCli MSession SpecInput SpecRun SpecProc
  SpecShare SpecCli SpecSession PLib PText PQueue PNode PStep PRun PStats PSolver PDb PSolve PMain PP1 PP2 PP7 PCli.
Import ListNotations.
Open Scope Z_scope.

(* ---- tables only grow ---- *)
Definition grows (t t' : table) : Prop := exists ops, Forall statement ops /\ t' = tab_run ops t.
Lemma grows_refl t : grows t t.
Proof. exists []. split; auto. Qed.
Lemma grows_trans a b c : grows a b -> grows b c -> grows a c.
Proof.
  intros (x & Hx & ->) (y & Hy & ->). exists (x ++ y). split; [apply Forall_app; auto|].
  unfold tab_run. rewrite fold_left_app. auto.
Qed.
Lemma grows_one op t : statement op -> grows t (tab_step t op).
Proof. intros H. exists [op]. split; auto. Qed.

(* the tables of a database: hashes unique, counts not negative *)
Definition tidy (t : table) : Prop := NoDup (dkeys t) /\ forall h w, In (h, w) t -> 0 <= r_unique w.
Lemma tidy_nil : tidy []. Proof. split; [constructor|intros h w []]. Qed.
Lemma tab_step_tidy op t : statement op -> tidy t -> tidy (tab_step t op).
Proof.
  intros Ho [ND P]. pose proof (tab_step_nodup t op ND) as ND'. split; auto.
  intros h w Hi. apply (dget_In_NoDup _ tspec _ _ _ ND') in Hi. rewrite tab_step_get in Hi.
  assert (G : forall w0, dget text_eqb h t = Some w0 -> 0 <= r_unique w0).
  { intros w0 E. apply (dget_In _ tspec) in E. eapply P; eauto. }
  destruct op as [fails k body c1 c2 nc nv|u rn rh k|n k]; cbn [statement] in Ho.
  - destruct (dget text_eqb h t) as [w0|] eqn:E; [injection Hi as <-; auto|].
    destruct (_ && _); [injection Hi as <-; cbn; lia|discriminate].
  - destruct (text_dec k h); [|auto]. destruct (dget text_eqb h t) as [w0|]; [|discriminate]. injection Hi as <-. cbn. lia.
  - destruct (text_dec k h); [|auto]. destruct (dget text_eqb h t) as [w0|] eqn:E; [|discriminate]. injection Hi as <-. cbn. auto.
Qed.
Lemma grows_tidy t t' : grows t t' -> tidy t -> tidy t'.
Proof.
  intros (ops & H & ->). revert t. induction ops as [|op ops IH]; intros t T; auto. inv H.
  cbn [tab_run fold_left]. apply IH; auto. apply tab_step_tidy; auto.
Qed.
Lemma grows_row t t' h w : grows t t' -> dget text_eqb h t = Some w ->
  exists w', dget text_eqb h t' = Some w' /\ row_content w' = row_content w /\ (0 < r_unique w -> 0 < r_unique w').
Proof.
  intros (ops & H & ->). revert t w. induction ops as [|op ops IH]; intros t w E; [exists w; auto|]. inv H.
  assert (S1 : exists w1, dget text_eqb h (tab_step t op) = Some w1 /\ row_content w1 = row_content w /\ (0 < r_unique w -> 0 < r_unique w1)).
  { rewrite tab_step_get. change digest with text in *. rewrite E.
    destruct op as [fails k body c1 c2 nc nv|u rn rh k|n k]; cbn [statement option_map] in *; [eauto|destruct (text_dec k h)|destruct (text_dec k h)];
      eexists; (split; [reflexivity|]); (split; [reflexivity|]); cbn; auto. }
  destruct S1 as (w1 & E1 & C1 & U1). destruct (IH H3 _ _ E1) as (w' & A & B & C). exists w'. split; auto. split; [congruence|auto].
Qed.

(* ---- the runs send only such statements ---- *)
Section Grow.
  Variable hash : text -> digest.
  Variable ifl : digest -> bool.
  Variable o : opts.
  Variable seen : list digest.
  Lemma step_grows lf m p p' : step hash ifl o seen lf m p = Ok p' -> grows (p_db p) (p_db p').
  Proof.
    unfold step. intros H. ok H. destruct x as [cnf q]. ok H. destruct x as [ph cnf']. ok H. destruct x as [[[s1 s2] pulled] p1].
    assert (D1 : p_db p1 = p_db p).
    { match type of E1 with context [match ?X with _ => _ end] => match type of X with option (cset * cset) => destruct X as [[a b]|] end end.
      - injection E1 as _ _ _ <-. auto.
      - ok E1. destruct x as [[a b]|]; [|discriminate]. injection E1 as _ _ _ <-. auto. }
    ok H. destruct x as [[c1 st1] p2]. ok H. destruct x as [[c2 st2] p3]. apply child_db in E2, E3.
    ok H. destruct x as [h1 ?]. ok H. destruct x as [h2 ?]. ok H. destruct x as [gs p4].
    assert (D4 : grows (p_db p3) (p_db p4)).
    { unfold save_parent_children in E6. ok E6. destruct x as [h ?]. ok E6. destruct (o_gdb o && negb (is_set_in_gdb o seen h (p_db p3))).
      - ok E6. destruct (gs_insert_row _ _ _ _ _ _ _ _) as [st t] eqn:Ei. injection E6 as _ <-. cbn [p_db with_db].
        match type of Ei with gs_insert_row ?a ?b ?c0 ?d ?e ?f ?g ?i = _ =>
          pose proof (grows_one (TInsert a c0 d e f g i) b I) as G; cbn [tab_step] in G; rewrite Ei in G; exact G end.
      - injection E6 as _ <-. apply grows_refl. }
    ok H. assert (D5 : p_db x = p_db p4).
    { destruct gs; [|injection E7 as <-; auto|injection E7 as <-; auto]. ok E7. apply enqueue_db in E7, E8. congruence. }
    assert (D6 : p_db p' = p_db x) by (destruct (svalue c1), (svalue c2); injection H as <-; auto).
    rewrite D6, D5. rewrite <- D1, <- E2, <- E3. exact D4.
  Qed.
  Lemma work_grows lf m k c : grows (cr_table c) (cr_table (work hash ifl o seen lf m k c)).
  Proof.
    unfold work. destruct (nth_error _ _) as [[p|]|]; try apply grows_refl.
    destruct (loop_done o p); [apply grows_refl|].
    destruct (step _ _ _ _ _ _ _) as [p'| |] eqn:E; try apply grows_refl. apply step_grows in E. exact E.
  Qed.
  Variable max : nat.
  Variable wf : nat -> bool.
  Variable sched : nat -> action.
  Variable lg : nat.
  Lemma lingering_grows lf m : forall n t c, grows (cr_table c) (cr_table (lingering hash ifl o seen sched n lf m t c)).
  Proof.
    induction n as [|n IH]; intros t c; cbn [lingering]; [apply grows_refl|]. eapply grows_trans; [|apply IH].
    destruct (sched t); [apply work_grows|apply grows_refl].
  Qed.
  Lemma share_loop_grows lf m : forall fuel t c c', share_loop hash ifl o seen sched lg fuel lf m t c = Ok c' ->
    grows (cr_table c) (cr_table c').
  Proof.
    induction fuel as [|f IH]; intros t c c'; cbn [share_loop]; destruct (pl_workers (cr_poll c));
      intros H; try (injection H as <-; apply grows_refl); try discriminate.
    destruct (sched t).
    - apply IH in H. eapply grows_trans; [apply work_grows|exact H].
    - ok H. destruct x as [pl stop]. destruct stop.
      + injection H as <-. apply (lingering_grows lf m lg (S t) (mkCrew (cr_table c) (cr_procs c) pl)).
      + apply IH in H. exact H.
  Qed.
  Lemma run_sh_grows lf m : forall fuel g p p', run_sh hash ifl o seen max wf sched lg fuel lf m g p = Ok p' ->
    grows (p_db p) (p_db p').
  Proof.
    induction fuel as [|f IH]; intros g p p'; cbn [run_sh]; destruct (loop_done o p); intros H;
      try (injection H as <-; apply grows_refl); try discriminate.
    ok H. apply step_grows in E. destruct (_ && _).
    - ok H. apply IH in H. unfold split_sh in E0. ok E0. destruct x1 as [nodes q]. ok E0. injection E0 as <-.
      apply share_loop_grows in E2. cbn [cr_table p_db with_db] in *. eapply grows_trans; [exact E|]. eapply grows_trans; [exact E2|exact H].
    - apply IH in H. eapply grows_trans; eauto.
  Qed.
End Grow.

(* ---- the counts ---- *)
Definition positive_stats (s : list (digest * (Z * Z * Z))) : Prop := forall k u rn rh, dget text_eqb k s = Some (u, rn, rh) -> 0 < u.
Lemma node_stats_more g : forall fuel n st st', node_stats fuel g n st = Ok st' -> incl (d_desc st) (d_desc st') /\ In n (d_desc st').
Proof.
  induction fuel as [|f IH]; intros n st st' H; cbn [node_stats] in H; [discriminate|].
  destruct (existsb _ _) eqn:Em.
  - injection H as <-. cbn. split; [apply incl_refl|]. apply existsb_exists in Em as (x & Hx & E). destruct (text_eqb_spec n x); [subst; auto|discriminate].
  - destruct (dget text_eqb n g) as [cs|]; [|discriminate].
    assert (G : forall cs st st', (fix go (cs : list digest) (st : dfs) : result dfs :=
               match cs with
               | [] => Ok st
               | c :: t => st' <- node_stats f g c st ;; go t st'
               end) cs st = Ok st' -> incl (d_desc st) (d_desc st')).
    { clear -IH. induction cs as [|c cs IHc]; intros st st' H; [injection H as <-; apply incl_refl|].
      ok H. apply IH in E as [E _]. apply IHc in H. eapply incl_tran; eauto. }
    apply G in H. cbn [d_desc] in H. split; [intros x Hx; apply H, in_app_iff; auto|apply H, in_app_iff; right; left; auto].
Qed.
Lemma graph_stats_positive g fuel root : forall ks acc rr acc' rr', graph_stats fuel g root ks acc rr = Ok (acc', rr') ->
  positive_stats acc -> positive_stats acc' /\ (forall k, In k ks \/ In k (dkeys acc) -> In k (dkeys acc')).
Proof.
  induction ks as [|k ks IH]; intros acc rr acc' rr' H P; cbn [graph_stats] in H.
  - injection H as <- <-. split; auto. intros k [[]|Hk]; auto.
  - ok H. apply node_stats_more in E as [_ E]. apply IH in H as [A B].
    + split; auto. intros k' [[->|Hk]|Hk]; apply B; auto; right; apply (dset_keys_incl _ tspec); auto.
    + intros k' u rn rh. destruct (text_dec k k') as [<-|Hn]; [rewrite (dget_dset_same _ tspec)|rewrite (dget_dset_other _ tspec) by auto; apply P].
      intros Hs. unfold stats_of in Hs. injection Hs as <- _ _. destruct (d_desc x); [destruct E|]. cbn [List.length]. lia.
Qed.
Lemma save_grows stats rr t : NoDup (dkeys stats) -> positive_stats stats -> grows t (save_in_global_db stats rr t).
Proof.
  intros ND P. unfold save_in_global_db.
  assert (P' : forall k v, In (k, v) stats -> let '(u, _, _) := v in 0 < u).
  { intros k [[u rn] rh] Hi. apply (dget_In_NoDup _ tspec _ _ _ ND) in Hi. eapply P; eauto. }
  clear P ND. apply grows_trans with (fold_left (fun t kv => let '(u, rn, rh) := snd kv in gs_update_count t u rn rh (fst kv)) stats t).
  - revert t. induction stats as [|[k [[u rn] rh]] stats IH]; intros t; cbn [fold_left]; [apply grows_refl|].
    eapply grows_trans; [|apply IH; intros; apply (P' k0); right; auto]. cbn [fst snd].
    apply (grows_one (TCount u rn rh k)). apply (P' k (u, rn, rh)). left; auto.
  - generalize (fold_left (fun t kv => let '(u, rn, rh) := snd kv in gs_update_count t u rn rh (fst kv)) stats t).
    induction rr as [|[k n] rr IH]; intros t'; cbn [fold_left]; [apply grows_refl|].
    eapply grows_trans; [|apply IH]. apply (grows_one (TTimes n k)). exact I.
Qed.
Lemma graph_stats_nodup g fuel root : forall ks acc rr acc' rr', graph_stats fuel g root ks acc rr = Ok (acc', rr') ->
  NoDup (dkeys acc) -> NoDup (dkeys acc').
Proof.
  induction ks as [|k ks IH]; intros acc rr acc' rr' H ND; cbn [graph_stats] in H; [injection H as <- <-; auto|].
  ok H. apply IH in H; auto. apply (dset_NoDup _ tspec). auto.
Qed.
Lemma construct_spec fuel root g stats rr : construct_graph_stats fuel root g = Ok (stats, rr) ->
  NoDup (dkeys stats) /\ positive_stats stats /\ forall k, In k (dkeys g) -> In k (dkeys stats).
Proof.
  intros H. split; [eapply graph_stats_nodup; [exact H|constructor]|].
  apply graph_stats_positive in H as [A B]; [|intros k u rn rh K; discriminate]. auto.
Qed.

(* ---- recorded nodes stay recorded ---- *)
Definition more_keys (g g' : list (digest * list digest)) : Prop := incl (dkeys g) (dkeys g').
Lemma dset_more k v (g : list (digest * list digest)) : more_keys g (dset text_eqb k v g).
Proof. intros x Hx. apply (dset_keys_incl _ tspec). auto. Qed.
Lemma append_more pid x g g' : append_child pid x g = Ok g' -> more_keys g g'.
Proof.
  unfold append_child. destruct (dget _ _ _); [|discriminate]. intros H. injection H as <-. apply dset_more.
Qed.
Lemma merge_more g' : forall g, more_keys g (merge_children g g').
Proof.
  unfold merge_children. induction g' as [|kv g' IH]; intros g; cbn [fold_left]; [apply incl_refl|].
  eapply incl_tran; [|apply IH]. destruct (dget _ _ _) as [[|a l]|]; try apply dset_more.
  destruct (_ <=? _)%nat; [apply incl_refl|apply dset_more].
Qed.
Section Keys.
  Variable hash : text -> digest.
  Variable ifl : digest -> bool.
  Variable o : opts.
  Variable seen : list digest.
  Lemma child_more lf m pulled pid child p c st p' : process_child hash o lf m pulled pid child p = Ok (c, st, p') ->
    more_keys (p_children p) (p_children p').
  Proof.
    unfold process_child. intros H. ok H. ok H. destruct x0 as [[c1 st1] p1].
    assert (D : p_children p1 = p_children p).
    { destruct (svalue child) as [v|].
      - injection E0 as _ _ <-. destruct v, (p_solution p); auto.
      - ok E0. ok E0. destruct x1. injection E0 as _ _ <-. auto. }
    ok H. ok H. destruct x1 as [h c2]. rewrite <- D. destruct st1.
    - ok H. injection H as _ _ <-. apply append_more in E3. cbn [p_children add_dot with_children].
      eapply incl_tran; [apply dset_more|exact E3].
    - ok H. injection H as _ _ <-. apply append_more in E3. exact E3.
    - injection H as _ _ <-. destruct (svalue c2) as [[]|]; apply incl_refl.
  Qed.
  Lemma enqueue_children st c p p' : enqueue_if_unique st c p = Ok p' -> p_children p' = p_children p.
  Proof. destruct st; cbn; intros H; try (injection H as <-; auto; fail). ok H. injection H as <-. auto. Qed.
  Lemma step_more lf m p p' : step hash ifl o seen lf m p = Ok p' -> more_keys (p_children p) (p_children p').
  Proof.
    unfold step. intros H. ok H. destruct x as [cnf q]. ok H. destruct x as [ph cnf']. ok H. destruct x as [[[s1 s2] pulled] p1].
    assert (D1 : p_children p1 = p_children p).
    { match type of E1 with context [match ?X with _ => _ end] => match type of X with option (cset * cset) => destruct X as [[a b]|] end end.
      - injection E1 as _ _ _ <-. auto.
      - ok E1. destruct x as [[a b]|]; [|discriminate]. injection E1 as _ _ _ <-. auto. }
    ok H. destruct x as [[c1 st1] p2]. ok H. destruct x as [[c2 st2] p3]. apply child_more in E2, E3.
    ok H. destruct x as [h1 ?]. ok H. destruct x as [h2 ?]. ok H. destruct x as [gs p4].
    assert (D4 : p_children p4 = p_children p3).
    { unfold save_parent_children in E6. ok E6. destruct x as [h ?]. ok E6. destruct (o_gdb o && negb (is_set_in_gdb o seen h (p_db p3))).
      - ok E6. destruct (gs_insert_row _ _ _ _ _ _ _ _) as [st t] eqn:Ei. injection E6 as _ <-. auto.
      - injection E6 as _ <-. auto. }
    ok H. assert (D5 : p_children x = p_children p4).
    { destruct gs; [|injection E7 as <-; auto|injection E7 as <-; auto]. ok E7. apply enqueue_children in E7, E8. congruence. }
    assert (D6 : p_children p' = p_children x) by (destruct (svalue c1), (svalue c2); injection H as <-; auto).
    rewrite D6, D5, D4, <- D1. eapply incl_tran; eauto.
  Qed.
  Lemma poll_step_more exit arr st st' b : poll_step exit arr st = Ok (st', b) ->
    more_keys (p_children (pl_state st)) (p_children (pl_state st')).
  Proof.
    unfold poll_step. destruct (nth_error _ _) as [w|]; [|discriminate]. destruct (w_reply w) as [rep|].
    - destruct (arr (w_no w)); [|intros H; injection H as <- <-; apply incl_refl]. destruct rep as [|sat ch sol].
      + intros H. ok H. injection H as <- <-. apply incl_refl.
      + assert (D : p_children (absorb (pl_state st) sat ch sol) = merge_children (p_children (pl_state st)) ch) by (unfold absorb; destruct (solution_truthy sol); auto).
        destruct (_ && exit); intros H; injection H as <- <-; cbn [pl_state]; rewrite D; apply merge_more.
    - intros H; injection H as <- <-; apply incl_refl.
  Qed.
  Lemma work_state lf m k c : pl_state (cr_poll (work hash ifl o seen lf m k c)) = pl_state (cr_poll c).
  Proof.
    unfold work. destruct (nth_error _ _) as [[p|]|]; auto. destruct (loop_done o p); auto. destruct (step _ _ _ _ _ _ _); auto.
  Qed.
  Variable max : nat.
  Variable wf : nat -> bool.
  Variable sched : nat -> action.
  Variable lg : nat.
  Lemma lingering_state lf m : forall n t c, pl_state (cr_poll (lingering hash ifl o seen sched n lf m t c)) = pl_state (cr_poll c).
  Proof.
    induction n as [|n IH]; intros t c; cbn [lingering]; auto. rewrite IH. destruct (sched t); auto. apply work_state.
  Qed.
  Lemma share_loop_more lf m : forall fuel t c c', share_loop hash ifl o seen sched lg fuel lf m t c = Ok c' ->
    more_keys (p_children (pl_state (cr_poll c))) (p_children (pl_state (cr_poll c'))).
  Proof.
    induction fuel as [|f IH]; intros t c c'; cbn [share_loop]; destruct (pl_workers (cr_poll c));
      intros H; try (injection H as <-; apply incl_refl); try discriminate.
    destruct (sched t).
    - apply IH in H. rewrite work_state in H. exact H.
    - ok H. destruct x as [pl stop]. apply poll_step_more in E. destruct stop.
      + injection H as <-. rewrite lingering_state. exact E.
      + apply IH in H. eapply incl_tran; eauto.
  Qed.
  Lemma run_sh_more lf m : forall fuel g p p', run_sh hash ifl o seen max wf sched lg fuel lf m g p = Ok p' ->
    more_keys (p_children p) (p_children p').
  Proof.
    induction fuel as [|f IH]; intros g p p'; cbn [run_sh]; destruct (loop_done o p); intros H;
      try (injection H as <-; apply incl_refl); try discriminate.
    ok H. apply step_more in E. destruct (_ && _).
    - ok H. apply IH in H. unfold split_sh in E0. ok E0. destruct x1 as [nodes q]. ok E0. injection E0 as <-.
      apply share_loop_more in E2. cbn [cr_poll pl_state p_children with_db with_queue] in *. eapply incl_tran; [exact E|]. eapply incl_tran; [exact E2|exact H].
    - apply IH in H. eapply incl_tran; eauto.
  Qed.
End Keys.

(* ---- the row of the root ---- *)
Lemma get_hash_id hash force s h s' : get_hash hash force s = Ok (h, s') -> sid s' = sid s /\ computed_hash s' = Some h /\ clauses s' = clauses s.
Proof.
  unfold get_hash. destruct (computed_hash s) as [h0|] eqn:E, force; intros H; try (ok H; injection H as <- <-; auto; fail).
  injection H as <- <-. auto.
Qed.
Section Root.
  Variable hash : text -> digest.
  Variable ifl : digest -> bool.
  Variable o : opts.
  Variable root : cset.

  (* what the main process finds first in its queue *)
  Lemma start_pop lf r db p0 : prepare_root hash lf o root = Ok r -> (o_rdb o = true -> root_ok root) -> start hash o r db = Ok p0 ->
    p_db p0 = db /\ loop_done o p0 = false /\ In (sid r) (dkeys (p_children p0)) /\
    exists x q x', queue_pop (p_queue p0) = Ok (x, q) /\ get_hash hash false x = Ok (sid r, x') /\
      List.length (clauses x') = List.length (clauses r) /\ computed_hash x' = Some (sid r).
  Proof.
    intros Hr RO Hs.
    assert (HC : computed_hash r = Some (sid r)).
    { unfold prepare_root in Hr. ok Hr. ok Hr. destruct x0 as [h r2]. injection Hr as <-. apply get_hash_id in E0 as (_ & E0 & _). exact E0. }
    assert (E : get_hash hash false r = Ok (sid r, r)) by (unfold get_hash; rewrite HC; auto).
    unfold start in Hs. rewrite E in Hs. cbn [bind] in Hs. destruct (o_rdb o) eqn:Er.
    - assert (Hr' := Hr). apply (prepare_root_same hash o root lf r (RO eq_refl)) in Hr'.
      destruct (prepare_root_spec hash o (root_bound root) (root_L root) root (RO eq_refl) (root_below root) (le_n _))
        as (r0 & Ep & N & Hsid & _ & W & _). rewrite Hr' in Ep. injection Ep as <-.
      destruct (qrep_insert _ _ _ _ r (qrep_init true)) as (q & Eq & Q).
      { intros _. split; [eapply node_storable; eauto | intros []]. }
      rewrite Eq in Hs. cbn [bind] in Hs. injection Hs as <-. cbn [p_db p_children p_queue].
      split; auto. split; [unfold loop_done; cbn [p_queue p_solution solution_truthy]; rewrite (qrep_empty _ _ _ _ Q); auto|]. split; [left; auto|].
      destruct (qrep_pop _ _ _ _ _ Q) as (q' & Eq' & _). exists (view true r), q'.
      assert (HN : computed_hash (view true r) = None) by reflexivity.
      exists (set_hash (view true r) (Some (sid r))). split; auto. split.
      + rewrite (get_hash_none hash _ _ HN (node_text _ _ (node_view _ true _ N))). fold (fhash hash (raws (view true r))).
        rewrite view_raws, <- Hsid. auto.
      + split; [|reflexivity]. apply (view_clen true).
    - cbn in Hs. injection Hs as <-. cbn [p_db p_children p_queue]. split; auto. split; [reflexivity|]. split; [left; auto|].
      exists r, (mkQ false [] [] (mkRT [] false)), r. auto.
  Qed.

  (* after the first iteration the root has a row *)
  Lemma first_row lf m n r db p0 p1 : prepare_root hash lf o root = Ok r -> (o_rdb o = true -> root_ok root) -> start hash o r db = Ok p0 ->
    o_gdb o = true -> ifl (sid r) = false -> step hash ifl o (loaded_seen o db n) lf m p0 = Ok p1 ->
    exists w, dget text_eqb (sid r) (p_db p1) = Some w /\
      (dget text_eqb (sid r) db = None -> r_num_clauses w = Z.of_nat (List.length (clauses r))).
  Proof.
    intros Hr RO Hs Hg Hi H. destruct (start_pop lf r db p0 Hr RO Hs) as (D0 & _ & _ & x & q & x' & Hq & Hh & Hl & Hc).
    pose proof H as HG. apply step_grows in HG. rewrite D0 in HG.
    destruct (dget text_eqb (sid r) db) as [w|] eqn:Eg.
    { destruct (grows_row _ _ _ _ HG Eg) as (w' & A & _). exists w'. split; auto. discriminate. }
    assert (Hk : ~ In (sid r) (dkeys db)) by (apply (dget_None _ tspec); auto).
    pose proof (not_stored_unseen o db Hg n (sid r) Hk) as Hu.
    unfold step in H. rewrite Hq in H. cbn [bind] in H. rewrite Hg, Hh in H. cbn [bind andb] in H.
    ok H. destruct x0 as [[[s1 s2] pulled] p2].
    assert (D1 : p_db p2 = db).
    { match type of E with context [match ?X with _ => _ end] => match type of X with option (cset * cset) => destruct X as [[a b]|] end end.
      - injection E as _ _ _ <-. auto.
      - ok E. destruct x0 as [[a b]|]; [|discriminate]. injection E as _ _ _ <-. auto. }
    ok H. destruct x0 as [[c1 st1] p3]. ok H. destruct x0 as [[c2 st2] p4]. apply child_db in E0, E1.
    ok H. destruct x0 as [h1 ?]. ok H. destruct x0 as [h2 ?]. ok H. destruct x0 as [gs p5].
    assert (D4 : exists w, dget text_eqb (sid r) (p_db p5) = Some w /\ r_num_clauses w = Z.of_nat (List.length (clauses r))).
    { unfold save_parent_children in E4. unfold get_hash in E4. rewrite Hc in E4. cbn [bind] in E4. ok E4.
      assert (Dp : p_db p4 = db) by congruence. rewrite Hg, Dp, Hu in E4. cbn [andb negb] in E4. ok E4.
      unfold gs_insert_row in E4. rewrite Hi in E4. cbn [orb] in E4.
      assert (Hm : dmem text_eqb (sid r) db = false) by (apply (dmem_false _ tspec); auto).
      change digest with text in *. rewrite Hm in E4. injection E4 as _ <-. cbn [p_db with_db]. rewrite dget_app_new, Eg, text_eqb_refl.
      eexists. split; [reflexivity|]. cbn [r_num_clauses]. rewrite Hl. auto. }
    ok H. assert (D5 : p_db x0 = p_db p5).
    { destruct gs; [|injection E5 as <-; auto|injection E5 as <-; auto]. ok E5. apply enqueue_db in E5, E6. congruence. }
    assert (D6 : p_db p1 = p_db x0) by (destruct (svalue c1), (svalue c2); injection H as <-; auto).
    destruct D4 as (w & A & B). exists w. rewrite D6, D5. auto.
  Qed.
End Root.

(* ---- a run with -gdb marks its root solved, and the next one stops at that ---- *)
Lemma solved_row o db n h : tidy db -> o_gdb o = true -> is_set_solved o (loaded_solved o db n) h db = true ->
  exists w, dget text_eqb h db = Some w /\ 0 < r_unique w /\ (o_no_mem o = false -> r_num_clauses w <= n).
Proof.
  intros [ND P] Hg H. unfold is_set_solved, loaded_solved in H. rewrite Hg in H. destruct (o_no_mem o); cbn [andb negb] in H.
  - unfold gs_is_hash_solved in H. change digest with text in *. destruct (dget text_eqb h db) as [w|] eqn:E; [|discriminate].
    exists w. split; auto. apply negb_true_iff, Z.eqb_neq in H. apply (dget_In _ tspec) in E. specialize (P _ _ E). split; [lia|discriminate].
  - apply (dmem_In _ tspec) in H. unfold gs_load_solved_sets, dkeys in H. rewrite map_map in H. cbn [fst] in H.
    apply in_map_iff in H as ([k w] & <- & H). apply filter_In in H as [H H1]. cbn [fst snd] in *.
    apply andb_true_iff in H1 as [H1 H2]. apply Z.leb_le in H1. apply Z.ltb_lt in H2.
    exists w. split; [apply (dget_In_NoDup _ tspec); auto|]. auto.
Qed.
Lemma row_solved o db n h w : NoDup (dkeys db) -> o_gdb o = true -> dget text_eqb h db = Some w -> 0 < r_unique w ->
  (o_no_mem o = false -> r_num_clauses w <= n) -> is_set_solved o (loaded_solved o db n) h db = true.
Proof.
  intros ND Hg E U Hn. unfold is_set_solved, loaded_solved. rewrite Hg. destruct (o_no_mem o); cbn [andb negb].
  - unfold gs_is_hash_solved. change digest with text in *. rewrite E. apply negb_true_iff, Z.eqb_neq. lia.
  - apply (dmem_In _ tspec). unfold gs_load_solved_sets, dkeys. rewrite map_map. apply in_map_iff. exists (h, w). split; auto.
    apply filter_In. split; [apply (dget_In _ tspec); auto|]. cbn [snd]. apply andb_true_iff. split; [apply Z.leb_le; auto|apply Z.ltb_lt; auto].
Qed.

Lemma sh_grows hash ifl max wf sched lg fuel lf o root db out :
  solve_set_sh hash ifl max wf sched lg fuel lf o root db = Ok out -> grows db (out_db out).
Proof.
  unfold solve_set_sh. intros H. ok H. ok H. destruct (is_set_solved _ _ _ _).
  - destruct (gs_get_set_data _ _); [|discriminate]. injection H as <-. apply grows_refl.
  - ok H. ok H. apply run_sh_grows in E2.
    assert (D : p_db x1 = db). { unfold start in E1. ok E1. destruct x3. ok E1. injection E1 as <-. auto. }
    rewrite D in E2. destruct (o_no_stats o); [injection H as <-; exact E2|].
    ok H. destruct x3 as [stats rr]. destruct (match dget text_eqb (sid x0) stats with Some x => x | None => zero_stats end) as [[u rn] rh].
    injection H as <-. cbn [out_db]. destruct (o_gdb o); auto. apply construct_spec in E3 as (A & B & _).
    eapply grows_trans; [exact E2|]. apply save_grows; auto.
Qed.

Lemma sh_solves hash ifl max wf sched lg fuel lf o root db out :
  solve_set_sh hash ifl max wf sched lg fuel lf o root db = Ok out -> o_gdb o = true -> o_no_stats o = false ->
  (o_rdb o = true -> root_ok root) -> tidy db ->
  exists t r, to_pretty root = Ok t /\ prepare_root hash lf o root = Ok r /\
    (ifl (sid r) = false -> exists w, dget text_eqb (sid r) (out_db out) = Some w /\ 0 < r_unique w /\
       (dget text_eqb (sid r) db = None -> r_num_clauses w = Z.of_nat (List.length (clauses r)))).
Proof.
  unfold solve_set_sh. intros H Hg Hn RO T. ok H. ok H. rename x0 into r. exists x, r. split; auto. split; auto. intros Hi.
  destruct (is_set_solved o (loaded_solved o db (Z.of_nat (List.length (clauses r)))) (sid r) db) eqn:Es.
  - apply solved_row in Es as (w & A & B & C); auto. unfold gs_get_set_data in H. change digest with text in *. rewrite A in H. injection H as <-.
    exists w. split; auto. split; auto. congruence.
  - ok H. rename x0 into p0. ok H. rename x0 into p. rewrite Hn in H.
    destruct (start_pop hash o root lf r db p0 E0 RO E1) as (D0 & L0 & K0 & _).
    assert (R : exists w, dget text_eqb (sid r) (p_db p) = Some w /\ (dget text_eqb (sid r) db = None -> r_num_clauses w = Z.of_nat (List.length (clauses r)))).
    { assert (G : forall a b, grows a b -> (exists w, dget text_eqb (sid r) a = Some w /\ (dget text_eqb (sid r) db = None -> r_num_clauses w = Z.of_nat (List.length (clauses r)))) ->
        exists w, dget text_eqb (sid r) b = Some w /\ (dget text_eqb (sid r) db = None -> r_num_clauses w = Z.of_nat (List.length (clauses r)))).
      { intros a b Gab (w & A & B). destruct (grows_row _ _ _ _ Gab A) as (w' & A' & C & _). exists w'. split; auto.
        intros Hd. rewrite <- (B Hd). unfold row_content in C. congruence. }
      destruct fuel as [|f]; cbn [run_sh] in E2; rewrite L0 in E2; [discriminate|].
      ok E2. pose proof (first_row hash ifl o root _ _ _ _ _ _ _ E0 RO E1 Hg Hi E3) as FR.
      match type of E2 with (if ?b then _ else _) = _ => destruct b end.
      - ok E2. apply run_sh_grows in E2. unfold split_sh in E4. ok E4. destruct x2 as [nodes q]. ok E4. injection E4 as <-.
        apply share_loop_grows in E6. cbn [cr_table p_db with_db] in *. eapply G; [exact E2|]. eapply G; [exact E6|]. exact FR.
      - apply run_sh_grows in E2. eapply G; [exact E2|exact FR]. }
    apply run_sh_more in E2. apply E2 in K0.
    ok H. destruct x0 as [stats rr]. destruct (match dget text_eqb (sid r) stats with Some x => x | None => zero_stats end) as [[u rn] rh].
    injection H as <-. cbn [out_db]. rewrite Hg. pose proof (construct_spec _ _ _ _ _ E3) as (A & B & C).
    specialize (C _ K0). destruct R as (w & R1 & R2).
    unfold save_in_global_db. set (t1 := fold_left _ stats (p_db p)).
    assert (H1 : exists w1, dget text_eqb (sid r) t1 = Some w1 /\ 0 < r_unique w1 /\ row_content w1 = row_content w).
    { unfold t1. change (fold_left _ stats ?x) with (fold_counts stats x). rewrite fold_counts_get by auto.
      destruct (dget text_eqb (sid r) stats) as [[[u' rn'] rh']|] eqn:Ed; [|apply (dget_None _ tspec) in Ed; contradiction].
      change digest with text in *. rewrite R1. cbn [option_map]. eexists. split; [reflexivity|]. split; [|reflexivity]. cbn. eapply B; eauto. }
    destruct H1 as (w1 & X1 & X2 & X3).
    assert (G : grows t1 (fold_left (fun t kv => gs_update_redundant_times t (snd kv) (fst kv)) rr t1)).
    { generalize t1. clear. induction rr as [|[k n] rr' IH]; intros t'; cbn [fold_left]; [apply grows_refl|].
      eapply grows_trans; [|apply IH]. apply (grows_one (TTimes n k)). exact I. }
    destruct (grows_row _ _ _ _ G X1) as (w2 & Y1 & Y2 & Y3). exists w2. split; auto. split; auto.
    intros Hd. rewrite <- (R2 Hd). unfold row_content in *. congruence.
Qed.

Lemma sh_again hash ifl max wf sched lg fuel lf o root db t r w :
  to_pretty root = Ok t -> prepare_root hash lf o root = Ok r -> o_gdb o = true ->
  NoDup (dkeys db) -> dget text_eqb (sid r) db = Some w -> 0 < r_unique w ->
  (o_no_mem o = false -> r_num_clauses w <= Z.of_nat (List.length (clauses r))) ->
  solve_set_sh hash ifl max wf sched lg fuel lf o root db = Ok (mkOut false None [] (r_unique w) (r_redundant w) (r_hits w) 1 db []).
Proof.
  intros Et Ep Hg ND E U Hn. unfold solve_set_sh. rewrite Et. cbn [bind]. rewrite Ep. cbn [bind].
  rewrite (row_solved o db _ _ w ND Hg E U Hn). unfold gs_get_set_data. change digest with text in *. rewrite E. auto.
Qed.
Lemma prepare_same hash lf o1 o2 root : o_mode o1 = o_mode o2 -> o_sort_by_size o1 = o_sort_by_size o2 -> o_thief o1 = o_thief o2 ->
  prepare_root hash lf o1 root = prepare_root hash lf o2 root.
Proof. intros A B C. unfold prepare_root. rewrite A, B, C. auto. Qed.

(* ---- from the command line to the solver ---- *)
Lemma main_problem hash solve a i db out lines f v : main_with hash solve a i db = Ok (Report out lines f v) ->
  exists cnf fi mi, run_with hash solve a cnf fi mi db = Ok (Report out lines f v) /\
    (a_factorize a = false -> a_multiply a = None -> get_cnf_set i = Ok cnf) /\
    forall solve' a' db', a_factorize a' = a_factorize a -> a_multiply a' = a_multiply a ->
      main_with hash solve' a' i db' = catch (run_with hash solve' a' cnf fi mi db').
Proof.
  unfold main_with. destruct (get_cnf_set i) as [root| |]; cbn [bind catch]; try discriminate.
  unfold preprocess_with. intros H.
  assert (C : forall x, catch x = Ok (Report out lines f v) -> x = Ok (Report out lines f v)).
  { intros [y| |]; cbn; try discriminate. auto. }
  apply C in H.
  destruct (if a_factorize a then match factorize root with Some (i0, c) => (Some i0, c) | None => (None, root) end else (None, root)) as [fi cnf1] eqn:E1.
  destruct (a_multiply a) as [[x y]|] eqn:Em.
  - destruct (multiply cnf1 x y) as [[[[rb l1] l2] cnf2]|] eqn:E2; [|discriminate].
    destruct (existsb _ _) eqn:E3; [discriminate|]. do 3 eexists. split; [exact H|]. split; [discriminate|].
    intros solve' a' db' -> ->. rewrite E1, E2. rewrite E3. auto.
  - do 3 eexists. split; [exact H|]. split; [intros A _; rewrite A in E1; injection E1 as _ <-; auto|].
    intros solve' a' db' -> ->. rewrite E1. auto.
Qed.
Lemma run_with_inv hash solve a cnf fi mi db out lines f v : run_with hash solve a cnf fi mi db = Ok (Report out lines f v) ->
  (match clauses cnf with [] => true | _ => false end) && (match svalue cnf with None => true | _ => false end) = false /\
  exists h cnf' l1 l2, get_hash hash false cnf = Ok (h, cnf') /\ solve cnf' db = Ok out /\
    fact_lines fi (out_solution out) = Ok l1 /\ mult_lines mi (out_solution out) = Ok l2 /\ lines = l1 ++ l2.
Proof.
  unfold run_with. destruct (_ && _); [discriminate|]. intros H. split; auto.
  ok H. destruct x as [h cnf']. ok H. ok H. ok H. injection H as <- <- _ _. exists h, cnf', x0, x1. auto.
Qed.
Lemma run_with_none hash solve a cnf fi mi db h cnf' out :
  (match clauses cnf with [] => true | _ => false end) && (match svalue cnf with None => true | _ => false end) = false ->
  get_hash hash false cnf = Ok (h, cnf') -> solve cnf' db = Ok out -> out_solution out = None ->
  exists l1 l2, fact_lines fi None = Ok l1 /\ mult_lines mi None = Ok l2 /\
  run_with hash solve a cnf fi mi db = Ok (Report out (l1 ++ l2) None None).
Proof.
  intros A B C D. unfold run_with. rewrite A, B. cbn [bind]. rewrite C. cbn [bind]. rewrite D.
  destruct fi as [fi|], mi as [[[rb x] y]|]; cbn [fact_lines mult_lines bind]; eexists _, _; split; try reflexivity; split; reflexivity.
Qed.
Lemma lines_denied fi mi sol l1 l2 : fact_lines fi sol = Ok l1 -> mult_lines mi sol = Ok l2 ->
  fact_lines fi None = Ok (map denied l1) /\ mult_lines mi None = Ok (map denied l2).
Proof.
  unfold fact_lines, mult_lines. intros A B. split.
  - destruct fi as [i|]; [|injection A as <-; auto]. destruct sol as [[|kv d]|]; try (injection A as <-; reflexivity).
    ok A. destruct x as [a b]. injection A as <-. destruct (_ =? _); reflexivity.
  - destruct mi as [[[rb x] y]|]; [|injection B as <-; auto]. destruct sol as [[|kv d]|]; try (injection B as <-; reflexivity).
    ok B. injection B as <-. destruct (_ =? _); reflexivity.
Qed.
