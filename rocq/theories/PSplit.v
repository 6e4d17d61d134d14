(* PSplit.v -- once the sets are handed out, the main process draws and counts nothing more. *)
From Coq Require Import String Ascii ZArith List Bool Lia.
From Verif Require Import Spec PyBase MSet MText MQueue MDb MSolver MProc MShare SpecRun SpecProc SpecShare PLib
  PClause PRename PLo PNorm PEval PText PQueue PNode PStep PRun PSolver PSolve PSearch PProc PProc2 PProc5 PShare5 PP2.
Import ListNotations.
Open Scope Z_scope.

(* what only the loop of the main process changes *)
Definition same (p q : pstate) : Prop :=
  p_dot p = p_dot q /\ p_uniques p = p_uniques q /\ p_hits p = p_hits q /\ p_found p = p_found q.
Lemma same_refl p : same p p. Proof. repeat split. Qed.
Lemma same_trans p q s : same p q -> same q s -> same p s.
Proof. intros (A & B & C & D) (A' & B' & C' & D'). unfold same. intuition congruence. Qed.
Lemma absorb_same p sat ch sol : same (absorb p sat ch sol) p /\ p_queue (absorb p sat ch sol) = p_queue p.
Proof. unfold absorb. destruct (solution_truthy sol); repeat split. Qed.

Definition no_failed (ws : list worker) : Prop := forall w, In w ws -> w_reply w <> Some Failed.
Lemma poll_step_same ex arr st st' stop : poll_step ex arr st = Ok (st', stop) -> no_failed (pl_workers st) ->
  same (pl_state st') (pl_state st) /\ p_queue (pl_state st') = p_queue (pl_state st) /\ no_failed (pl_workers st').
Proof.
  intros E NF. unfold poll_step in E. set (i := (pl_i st mod _)%nat) in E.
  destruct (nth_error (pl_workers st) i) as [w|] eqn:Ei; [|discriminate].
  pose proof (NF w (nth_error_In _ _ Ei)) as Nw.
  destruct (w_reply w) as [[|s ch sol]|] eqn:Er; [congruence| |].
  - destruct (arr (w_no w)).
    + destruct (absorb_same (pl_state st) s ch sol) as [A B].
      destruct (solution_truthy sol && ex); injection E as <- <-; cbn [pl_state pl_workers]; split; auto; split; auto.
      intros v Hv. apply NF. eapply pop_nth_In; eauto.
    + injection E as <- <-. cbn. split; [apply same_refl|]. split; auto.
  - injection E as <- <-. cbn. split; [apply same_refl|]. split; auto.
Qed.
Lemma poll_loop_same ex arr : forall fuel t st st', poll_loop fuel ex arr t st = Ok st' -> no_failed (pl_workers st) ->
  same (pl_state st') (pl_state st) /\ p_queue (pl_state st') = p_queue (pl_state st).
Proof.
  induction fuel as [|f IH]; intros t st st' E NF; cbn [poll_loop] in E; destruct (pl_workers st) as [|w0 ws] eqn:Ew;
    try discriminate; try (injection E as <-; split; [apply same_refl|auto]; fail).
  rewrite <- Ew in NF. clear Ew.
  apply bind_ok in E as ([st1 stop] & E1 & E). destruct (poll_step_same _ _ _ _ _ E1 NF) as (A & B & C).
  destruct stop; [injection E as <-; auto|]. destruct (IH _ _ _ E C) as [A' B']. split; [eapply same_trans; eauto|congruence].
Qed.

Section Shared.
  Variable hash : text -> digest.
  Variable insert_fails : digest -> bool.
  Variable o : opts.
  Variable seen : list digest.
  Variable sched : nat -> action.
  Variable linger : nat.
  Lemma work_same lf m k c : no_failed (pl_workers (cr_poll c)) ->
    pl_state (cr_poll (work hash insert_fails o seen lf m k c)) = pl_state (cr_poll c) /\
    no_failed (pl_workers (cr_poll (work hash insert_fails o seen lf m k c))).
  Proof.
    intros NF. unfold work. destruct (nth_error (cr_procs c) k) as [[p|]|]; auto.
    destruct (loop_done o p).
    - cbn [cr_poll deliver pl_state pl_workers]. split; auto. intros w Hw. apply in_map_iff in Hw as (v & <- & Hv).
      destruct (w_no v =? k)%nat; [cbn; discriminate|auto].
    - destruct (step _ _ _ _ _ _ _); cbn [cr_poll]; auto.
  Qed.
  Lemma lingering_same : forall n lf m t c, no_failed (pl_workers (cr_poll c)) ->
    pl_state (cr_poll (lingering hash insert_fails o seen sched n lf m t c)) = pl_state (cr_poll c).
  Proof.
    induction n; intros lf m t c NF; cbn [lingering]; auto. destruct (sched t) as [k|]; [|auto].
    destruct (work_same lf m k c NF) as [A B]. rewrite IHn; auto.
  Qed.
  Lemma share_loop_same : forall fuel lf m t c c', share_loop hash insert_fails o seen sched linger fuel lf m t c = Ok c' ->
    no_failed (pl_workers (cr_poll c)) ->
    same (pl_state (cr_poll c')) (pl_state (cr_poll c)) /\ p_queue (pl_state (cr_poll c')) = p_queue (pl_state (cr_poll c)).
  Proof.
    induction fuel as [|f IH]; intros lf m t c c' E NF; cbn [share_loop] in E; destruct (pl_workers (cr_poll c)) as [|w0 ws] eqn:Ew;
      try discriminate; try (injection E as <-; split; [apply same_refl|auto]; fail).
    rewrite <- Ew in NF. clear Ew. destruct (sched t) as [k|].
    - destruct (work_same lf m k c NF) as [A B]. destruct (IH _ _ _ _ _ E B) as [A' B']. rewrite A in A', B'. auto.
    - apply bind_ok in E as ([pl stop] & E1 & E). destruct (poll_step_same _ _ _ _ _ E1 NF) as (A & B & C). cbv zeta in E.
      destruct stop.
      + injection E as <-. rewrite lingering_same by exact C. cbn [cr_poll]. auto.
      + destruct (IH _ _ _ _ _ E C) as [A' B']. cbn [cr_poll] in A', B'. split; [eapply same_trans; eauto|congruence].
  Qed.
End Shared.

(* any process whose loop hands over when [max] sets are waiting *)
Section Handing.
  Variable hash : text -> digest.
  Variable insert_fails : digest -> bool.
  Variable o : opts.
  Variable seen : list digest.
  Variable max : nat.
  Variable m : mode.
  Variable split : nat -> nat -> pstate -> result pstate.
  Variable runs : nat -> nat -> pstate -> result pstate.
  Hypothesis runs_eq : forall fuel lf p, runs fuel lf p =
    if loop_done o p then Ok p else match fuel with O => OutOfFuel | S f =>
      p1 <- step hash insert_fails o seen lf m p ;;
      if (max =? queue_size (p_queue p1))%nat
      then p2 <- split f lf p1 ;; run hash insert_fails o seen f lf m p2 else runs f lf p1 end.
  Lemma handing lf p0 xs p : exec hash insert_fails o seen lf m p0 xs p ->
    xs <> [] -> queue_size (p_queue p) = max ->
    (forall ys zs q, xs = ys ++ zs -> ys <> [] -> zs <> [] ->
       exec hash insert_fails o seen lf m p0 ys q -> queue_size (p_queue q) <> max) ->
    forall fuel lf' p', runs fuel lf' p0 = Ok p' ->
      exists f p2, split f lf' p = Ok p2 /\ run hash insert_fails o seen f lf' m p2 = Ok p'.
  Proof.
    induction 1 as [|p0 x q p1 xs p D Q St Ex IH]; intros Hne Hs Hfirst fuel lf' p' E; [congruence|].
    rewrite runs_eq, D in E. destruct fuel as [|f]; [discriminate|].
    apply bind_ok in E as (p1' & St' & E).
    assert (p1' = p1) as ->.
    { pose proof (step_mono hash insert_fails o seen lf (Nat.max lf lf') (Nat.le_max_l _ _) m p0 _ St).
      pose proof (step_mono hash insert_fails o seen lf' (Nat.max lf lf') (Nat.le_max_r _ _) m p0 _ St'). congruence. }
    destruct (max =? queue_size (p_queue p1))%nat eqn:Es.
    - destruct xs as [|y xs].
      + inversion Ex; subst. apply bind_ok in E as (p2 & E1 & E). eauto.
      + exfalso. apply (Hfirst [x] (y :: xs) p1); try discriminate; auto.
        * eapply exec_cons; eauto. constructor.
        * apply Nat.eqb_eq in Es. auto.
    - destruct xs as [|y xs].
      + inversion Ex; subst. rewrite Nat.eqb_refl in Es. discriminate.
      + eapply IH; eauto; [discriminate|]. intros ys zs q' Exs Hy Hz He. apply (Hfirst (x :: ys) zs).
        * cbn. f_equal. auto.
        * discriminate.
        * auto.
        * econstructor; eauto.
  Qed.
End Handing.

Section Frozen.
  Variable hash : text -> digest.
  Variable insert_fails : digest -> bool.
  Variable o : opts.
  Variable root : cset.
  Variable db : table.
  Hypothesis RO : root_ok root.
  Hypothesis FD : fresh_db o insert_fails db.
  Variable max : nat.
  Hypothesis Hmax : (0 < max)%nat.
  Variable p : pstate.
  Variable waiting : list cset.
  Hypothesis HO : hands_out hash insert_fails max o root db p waiting.
  Variable wf : nat -> bool.
  Hypothesis Hwf : forall k, wf k = false.

  (* the moment of handing out *)
  Lemma handed : exists lf r done pend,
    Inv hash o (raws root) (root_n root) (root_L root) (root_K root) lf (input_mode o) db r p done pend /\
    List.length pend = max /\ waiting = map (view (o_rdb o)) pend.
  Proof.
    destruct HO as (lf0 & r & p0 & xs & E1 & E2 & Hne & Ex & Hs & Hd & Hf).
    set (lf := Nat.max lf0 (root_bound root)).
    assert (Hlf : (root_bound root <= lf)%nat) by (unfold lf; lia).
    assert (E1' : prepare_root hash lf o root = Ok r) by (eapply prepare_root_mono; [|exact E1]; unfold lf; lia).
    assert (Ex' : exec hash insert_fails o [] lf (input_mode o) p0 xs p) by (eapply exec_mono; [|exact Ex]; unfold lf; lia).
    destruct (prepare_root_spec hash o lf (root_L root) root RO (root_below root) Hlf)
      as (r0 & Ep & N & Hsd & Hc & W & Hev & Heq). rewrite E1' in Ep; injection Ep as <-.
    destruct (start_inv hash o (raws root) (root_n root) (root_L root) (root_K root) lf (input_mode o) db r
                N Hsd (or_intror Hc) W) as (p1 & Es & I0). rewrite E2 in Es; injection Es as <-.
    assert (Er : set_hash r (Some (sid r)) = r) by (rewrite <- Hc; destruct r; auto). rewrite Er in I0.
    destruct (exec_inv hash insert_fails o [] (fun Hg => conj eq_refl (proj2 (proj1 FD Hg))) _ _ _ _ lf _ Hlf db
               (fun Hg => proj1 (proj1 FD Hg)) r _ _ _ Ex' _ _ I0) as (done & pend & I & Exs).
    exists lf, r, done, pend. cbn [app] in I. split; auto. split.
    - rewrite <- Hs. symmetry. exact (qrep_size _ _ _ _ (i_queue _ _ _ _ _ _ _ _ _ _ _ _ _ I)).
    - exact (qrep_drains _ _ _ _ _ (i_queue _ _ _ _ _ _ _ _ _ _ _ _ _ I) Hd).
  Qed.
  Lemma pop_all : exists nodes q, pop_n max (p_queue p) = Ok (nodes, q) /\ queue_is_empty q = true /\ nodes = waiting /\
    forall x T, In x nodes -> exists px, start hash o x T = Ok px.
  Proof.
    destruct handed as (lf & r & done & pend & I & Hl & Hw).
    destruct (pop_n_spec _ _ _ _ (i_queue _ _ _ _ _ _ _ _ _ _ _ _ _ I)) as (q & E & Q). rewrite Hl in E.
    exists (map (view (o_rdb o)) pend), q. split; auto. split; [rewrite (qrep_empty _ _ _ _ Q); auto|]. split; auto.
    intros x T Hx. apply in_map_iff in Hx as (y & <- & Hy).
    destruct (i_nodes _ _ _ _ _ _ _ _ _ _ _ _ _ I y) as [(N & Hs & Hc & W) _]; [apply in_app_iff; auto|].
    assert (Hn : node (raws root) (view (o_rdb o) y)) by (apply node_view; auto).
    destruct (start_inv hash o (raws root) (root_n root) (root_L root) (root_K root) lf (input_mode o) T (view (o_rdb o) y) Hn) as (p0 & Es & _).
    - rewrite view_sid, view_raws. auto.
    - destruct (o_rdb o); [left; reflexivity|right]. cbn. auto.
    - destruct W as (W1 & W2 & W3). unfold within. rewrite view_raws, view_clen. auto.
    - eauto.
  Qed.

  Definition reports (out : outcome) : Prop :=
    out_dot out = p_dot p /\ (o_no_stats o = true -> out_uniques out = p_uniques p /\ out_hits out = p_hits p) /\ out_found out = 0.
  Lemma done_run fuel lf p2 p' : loop_done o p2 = true -> run hash insert_fails o [] fuel lf (input_mode o) p2 = Ok p' -> p' = p2.
  Proof. intros D. destruct fuel; cbn [run]; rewrite D; congruence. Qed.
  Lemma seen_nil n : loaded_seen o db n = [].
  Proof.
    unfold loaded_seen. destruct (o_gdb o) eqn:Eg; [|reflexivity]. destruct (proj1 FD Eg) as [-> _]. destruct (negb _); reflexivity.
  Qed.
  Lemma not_solved x n : is_set_solved o (loaded_solved o db n) x db = false.
  Proof.
    unfold is_set_solved. destruct (o_gdb o) eqn:Eg.
    - destruct (proj1 FD Eg) as [-> _]. unfold loaded_solved. rewrite Eg. destruct (o_no_mem o); reflexivity.
    - unfold loaded_solved. rewrite Eg. destruct (o_no_mem o) eqn:En; [|reflexivity]. rewrite (proj2 FD En) in Eg. discriminate.
  Qed.
  Lemma split_mp_same arr f lf p2 :
    split_work hash insert_fails o [] max wf arr f lf (input_mode o) p = Ok p2 -> same p2 p /\ queue_is_empty (p_queue p2) = true.
  Proof.
    intros E. unfold split_work in E. destruct pop_all as (nodes & q & Ep & Eq & _ & Hst). rewrite Ep in E. cbn [bind] in E.
    apply bind_ok in E as (st & E & Er). injection Er as <-. apply poll_loop_same in E as [A B].
    - cbn [pl_state] in A, B. split; [eapply same_trans; [exact A|]; repeat split|]. rewrite B. exact Eq.
    - cbn [pl_workers]. generalize 0%nat. clear -Hwf. induction nodes as [|x nodes IH]; intros k w Hw; [destruct Hw|].
      destruct Hw as [<-|Hw]; [|eapply IH; eauto]. cbn [w_reply]. unfold worker_reply. rewrite Hwf.
      destruct (process_nodes_queue _ _ _ _ _ _ _ _ _); discriminate.
  Qed.
  Lemma split_sh_same sched lg f lf p2 :
    split_sh hash insert_fails o [] max wf sched lg f lf (input_mode o) p = Ok p2 -> same p2 p /\ queue_is_empty (p_queue p2) = true.
  Proof.
    intros E. unfold split_sh in E. destruct pop_all as (nodes & q & Ep & Eq & _ & Hst). rewrite Ep in E. cbn [bind] in E. cbv zeta in E.
    apply bind_ok in E as (c & E & Er). injection Er as <-. apply share_loop_same in E as [A B].
    - cbn [cr_poll pl_state] in A, B. split; [eapply same_trans; [exact A|]; repeat split|].
      change (queue_is_empty (p_queue (pl_state (cr_poll c))) = true). rewrite B. exact Eq.
    - cbn [cr_poll pl_workers]. clear -Hwf Hst. generalize (p_db p) as T. intros T. generalize 0%nat.
      induction nodes as [|x nodes IH]; intros k w Hw; [destruct Hw|].
      cbn [enter_all threads] in Hw. destruct Hw as [<-|Hw]; [|eapply IH; eauto; intros; apply Hst; right; auto].
      cbn [w_reply]. unfold enter. rewrite Hwf. destruct (Hst x T (or_introl eq_refl)) as (px & ->). discriminate.
  Qed.
  Lemma tail_reports fuel r pf p2 out : same p2 p -> pf = p2 ->
    (if o_no_stats o then
      Ok (mkOut (p_sat pf) (p_solution pf) (p_children pf) (p_uniques pf) 0 (p_hits pf)
                (p_found pf) (p_db pf) (p_dot pf))
    else
      '(stats, rr) <- construct_graph_stats fuel (sid r) (p_children pf) ;;
      let '(u, rn, rh) := match dget text_eqb (sid r) stats with
                          | Some x => x | None => zero_stats end in
      Ok (mkOut (p_sat pf) (p_solution pf) (p_children pf) u rn rh (p_found pf)
                (if o_gdb o then save_in_global_db stats rr (p_db pf) else p_db pf) (p_dot pf))) = Ok out -> reports out.
  Proof.
    intros (A & B & C & D) -> E.
    assert (Ef : p_found p = 0) by (destruct handed as (lf & r' & done & pend & I & _); exact (i_found _ _ _ _ _ _ _ _ _ _ _ _ _ I)).
    unfold reports. destruct (o_no_stats o).
    - injection E as <-. cbn [out_dot out_uniques out_hits out_found]. repeat split; congruence.
    - apply bind_ok in E as ([stats rr] & _ & E). destruct (match dget text_eqb (sid r) stats with Some x => x | None => zero_stats end) as [[u rn] rh].
      injection E as <-. cbn [out_dot out_uniques out_hits out_found]. split; [congruence|]. split; [discriminate|congruence].
  Qed.

  Lemma frozen_mp arr fuel lf out :
    solve_set_mp hash insert_fails max wf arr fuel lf o root db = Ok out -> reports out.
  Proof.
    intros E. unfold solve_set_mp in E. apply bind_ok in E as (tp & _ & E). apply bind_ok in E as (r' & E1' & E).
    destruct HO as (lf0 & r & p0 & xs & E1 & E2 & Hne & Ex & Hs & _ & Hf).
    assert (r' = r) as ->.
    { pose proof (prepare_root_mono hash o root lf0 (Nat.max lf0 lf) r (Nat.le_max_l _ _) E1).
      pose proof (prepare_root_mono hash o root lf (Nat.max lf0 lf) r' (Nat.le_max_r _ _) E1'). congruence. }
    cbv zeta in E. rewrite not_solved, seen_nil in E. rewrite E2 in E. cbn [bind] in E. apply bind_ok in E as (pf & E & Et).
    rewrite (proj2 (Nat.ltb_lt 0 max)) in E by lia.
    apply (handing hash insert_fails o [] max (input_mode o)
             (fun f lf p => split_work hash insert_fails o [] max wf arr f lf (input_mode o) p)
             (fun f lf p => run_mp hash insert_fails o [] max wf arr f lf (input_mode o) true p)) with (lf := lf0) (xs := xs) (p := p) in E; auto.
    - destruct E as (f & p2 & S2 & R2). apply split_mp_same in S2 as [A B].
      eapply tail_reports; [exact A| |exact Et]. eapply done_run; [|exact R2]. unfold loop_done. rewrite B. reflexivity.
    - intros f lf' q. destruct f; cbn [run_mp]; destruct (loop_done o q); auto. destruct (step _ _ _ _ _ _ _); cbn [bind]; auto.
      rewrite (proj2 (Nat.ltb_lt 0 max)) by lia. cbn [andb]. destruct (max =? _)%nat; auto.
      destruct (split_work _ _ _ _ _ _ _ _ _ _ _); cbn [bind]; auto. apply run_mp_false.
  Qed.
  Lemma frozen_sh sched lg fuel lf out :
    solve_set_sh hash insert_fails max wf sched lg fuel lf o root db = Ok out -> reports out.
  Proof.
    intros E. unfold solve_set_sh in E. apply bind_ok in E as (tp & _ & E). apply bind_ok in E as (r' & E1' & E).
    destruct HO as (lf0 & r & p0 & xs & E1 & E2 & Hne & Ex & Hs & _ & Hf).
    assert (r' = r) as ->.
    { pose proof (prepare_root_mono hash o root lf0 (Nat.max lf0 lf) r (Nat.le_max_l _ _) E1).
      pose proof (prepare_root_mono hash o root lf (Nat.max lf0 lf) r' (Nat.le_max_r _ _) E1'). congruence. }
    cbv zeta in E. rewrite not_solved, seen_nil in E. rewrite E2 in E. cbn [bind] in E. apply bind_ok in E as (pf & E & Et).
    rewrite (proj2 (Nat.ltb_lt 0 max)) in E by lia.
    apply (handing hash insert_fails o [] max (input_mode o)
             (fun f lf p => split_sh hash insert_fails o [] max wf sched lg f lf (input_mode o) p)
             (fun f lf p => run_sh hash insert_fails o [] max wf sched lg f lf (input_mode o) true p)) with (lf := lf0) (xs := xs) (p := p) in E; auto.
    - destruct E as (f & p2 & S2 & R2). apply split_sh_same in S2 as [A B].
      eapply tail_reports; [exact A| |exact Et]. eapply done_run; [|exact R2]. unfold loop_done. rewrite B. reflexivity.
    - intros f lf' q. destruct f; cbn [run_sh]; destruct (loop_done o q); auto. destruct (step _ _ _ _ _ _ _); cbn [bind]; auto.
      rewrite (proj2 (Nat.ltb_lt 0 max)) by lia. cbn [andb]. destruct (max =? _)%nat; auto.
      destruct (split_sh _ _ _ _ _ _ _ _ _ _ _ _); cbn [bind]; auto. apply run_sh_false.
  Qed.

  (* what that is *)
  Lemma reports_facts out : reports out -> exists expanded,
    NoDup (expanded ++ map sid waiting) /\ expanded <> [] /\
    (o_graph o = true -> dot_nodes (out_dot out) = expanded ++ map sid waiting /\
       (forall a b, In (a, b) (dot_edges (out_dot out)) -> In a expanded) /\
       (forall a v, In (a, v) (dot_leaf_edges (out_dot out)) -> In a expanded)) /\
    (o_no_stats o = true -> out_uniques out = Z.of_nat (List.length expanded + max)).
  Proof.
    intros (A & B & _). destruct handed as (lf & r & done & pend & I & Hl & Hw).
    exists (map (fun e => sid (e_node e)) done).
    assert (Ew : map (fun e => sid (e_node e)) done ++ map sid waiting = map sid (ys done pend)).
    { unfold ys. rewrite map_app, map_map, Hw, map_map. f_equal. apply map_ext. intros; apply view_sid. }
    rewrite Ew, A. split; [apply I|]. split.
    { intros E. assert (Ed : done = []) by (destruct done; [auto|discriminate]). subst done.
      destruct HO as (lf0 & r1 & p0 & xs & E1 & E2 & Hne & Ex & Hs & Hd & _).
      destruct (exec_facts_any _ _ _ _ _ _ _ _ _ _ _ RO FD E1 E2 Ex Hd) as (_ & K & _).
      pose proof (i_keys _ _ _ _ _ _ _ _ _ _ _ _ _ I) as K'. rewrite K in K'. apply (f_equal (@List.length _)) in K'.
      rewrite !map_length, app_length in K'. rewrite Hw, map_length in K'. cbn [ys map app] in K'. destruct xs; [congruence|]. cbn in K'. unfold ys in K'. cbn in K'. lia. }
    split.
    - intros Hg. split; [apply (i_dot1 _ _ _ _ _ _ _ _ _ _ _ _ _ I Hg)|].
      rewrite (i_dot2 _ _ _ _ _ _ _ _ _ _ _ _ _ I Hg), (i_dot3 _ _ _ _ _ _ _ _ _ _ _ _ _ I Hg). split.
      + intros a b Hin. apply in_flat_map in Hin as (e & He & Hin). unfold e_edges in Hin. apply in_map_iff in Hin as (k & Ek & _).
        injection Ek as <- _. apply in_map_iff. exists e. auto.
      + intros a b Hin. apply in_flat_map in Hin as (e & He & Hin). unfold e_leaf_edges in Hin. apply in_map_iff in Hin as (k & Ek & _).
        injection Ek as <- _. apply in_map_iff. exists e. auto.
    - intros Hn. rewrite (proj1 (B Hn)), (i_uniq _ _ _ _ _ _ _ _ _ _ _ _ _ I). unfold ys. rewrite app_length, !map_length, Hl. reflexivity.
  Qed.
End Frozen.
