(* PShare5.v -- workers on a shared table: the whole program. *)
From Coq Require Import String Ascii ZArith List Bool Lia Permutation Sorted.
From Verif Require Import Spec PyBase MSet MText MQueue MDb MSolver MProc MShare SpecRun SpecProc SpecShare PLib PClause
  PRename PLo PNorm PEval PText PQueue PNode PStep PRun PStats PSolver PSolve PSearch PGraph PDb PProc PProc2 PProc3 PProc4 PProc5
  PShare1 PShare2 PShare3 PShare4.
Import ListNotations.
Open Scope Z_scope.

Lemma run_sh_false hash ifl o seen max wf sched lg lf m : forall fuel p,
  run_sh hash ifl o seen max wf sched lg fuel lf m false p = run hash ifl o seen fuel lf m p.
Proof.
  induction fuel as [|f IH]; intros p; cbn [run_sh run]; destruct (loop_done o p); auto.
  destruct (step hash ifl o seen lf m p); cbn [bind andb]; auto.
Qed.
Lemma run_sh_max0 hash ifl o seen wf sched lg lf m g : forall fuel p,
  run_sh hash ifl o seen 0 wf sched lg fuel lf m g p = run hash ifl o seen fuel lf m p.
Proof.
  induction fuel as [|f IH]; intros p; cbn [run_sh run]; destruct (loop_done o p); auto.
  destruct (step hash ifl o seen lf m p); cbn [bind]; auto. rewrite andb_false_r. cbn [andb]. auto.
Qed.
Lemma solve_set_sh_single hash ifl wf sched lg fuel lf o root db :
  solve_set_sh hash ifl 0 wf sched lg fuel lf o root db = solve_set hash ifl fuel lf o root db.
Proof.
  unfold solve_set_sh, solve_set. destruct (to_pretty root); cbn [bind]; auto.
  destruct (prepare_root hash lf o root) as [r| |]; cbn [bind]; auto.
  destruct (is_set_solved _ _ _ _); auto. unfold process_nodes_queue.
  destruct (start hash o r db) as [p0| |]; cbn [bind]; auto. rewrite run_sh_max0. reflexivity.
Qed.

(* the same extra arrivals for graphs that agree *)
Lemma extra_arrivals_ext g g' root k n n' : (forall h, succs g h = succs g' h) ->
  extra_arrivals g root k n -> extra_arrivals g' root k n' -> n = n'.
Proof.
  intros E (R & N1 & R1 & ->) (R' & N1' & R1' & ->).
  assert (P : Permutation R R').
  { apply NoDup_Permutation; auto. intros x. rewrite R1, R1'. split; apply reaches_ext; auto. }
  assert (EF : flat_map (succs g') R' = flat_map (succs g) R').
  { clear -E. induction R' as [|a l IH]; cbn [flat_map]; auto. rewrite IH, E. auto. }
  rewrite EF. assert (PF : Permutation (root :: flat_map (succs g) R) (root :: flat_map (succs g) R')).
  { apply perm_skip, Permutation_flat_map; auto. }
  rewrite (proj1 (Permutation_count_occ text_dec _ _) PF), (proj1 (Permutation_count_occ text_dec _ _) P). auto.
Qed.

Section Whole.
  Variable hash : text -> digest.
  Variable insert_fails : digest -> bool.
  Hypothesis Hif : forall h, insert_fails h = false.
  Variable o : opts.
  Hypothesis Hg : o_gdb o = true.
  Hypothesis Hnm : o_no_mem o = false.
  Variable root : cset.
  Hypothesis RO : root_ok root.
  Let F := raws root.
  Let n := root_n root.
  Let L := root_L root.
  Let K := root_K root.
  Let lf := root_bound root.
  Let m := input_mode o.
  Notation INV := (Inv hash o F n L K lf m []).
  Variable max : nat.
  Variable wf : nat -> bool.
  Hypothesis Hwf : forall k, wf k = false.
  Variable sched : nat -> action.
  Variable linger : nat.
  Hypothesis Hfair : fair_sched max sched.
  Notation RUNS := (run_sh hash insert_fails o [] max wf sched linger).
  Notation RUN := (run hash insert_fails o []).
  Notation RESULT := (sh_result hash o F n L K lf m).

  Lemma sh_gdb : o_gdb o = true -> @nil digest = [] /\ forall h, insert_fails h = false.
  Proof. auto. Qed.

  Lemma main_sh : forall w r p done pend, INV r p done pend -> (weight pend <= w)%nat ->
    (exists pf done' pend', (forall fuel lf', (w <= fuel)%nat -> (lf <= lf')%nat -> RUNS fuel lf' m true p = Ok pf) /\
       INV r pf done' pend' /\ loop_done o pf = true) \/
    (exists k p1 done1 pend1, INV r p1 done1 pend1 /\ List.length pend1 = max /\
       forall fuel lf', (lf <= lf')%nat ->
         RUNS (k + fuel)%nat lf' m true p =
         bind (split_sh hash insert_fails o [] max wf sched linger fuel lf' m p1) (fun p2 => RUN fuel lf' m p2)).
  Proof.
    induction w as [|w IH]; intros r p done pend I Hw.
    - left. destruct pend as [|x xs].
      2:{ simpl in Hw. pose proof (pow3_pos (nvars (raws x))). lia. }
      exists p, done, []. assert (El : loop_done o p = true).
      { unfold loop_done. rewrite (inv_empty _ _ _ _ _ _ _ _ _ _ _ _ _ I). auto. }
      split. { intros [|fuel] lf' _ _; cbn [run_sh]; rewrite El; auto. }
      split; auto.
    - destruct (loop_done o p) eqn:El.
      + left. exists p, done, pend. split. { intros [|fuel] lf' _ _; cbn [run_sh]; rewrite El; auto. } split; auto.
      + destruct pend as [|x xs].
        { unfold loop_done in El. rewrite (inv_empty _ _ _ _ _ _ _ _ _ _ _ _ _ I) in El. discriminate. }
        destruct (step_full hash insert_fails o [] sh_gdb F n L K lf m (le_n _) [] (fun _ => eq_refl) r p done x xs I)
          as (p1 & k1 & k2 & new & E & I1 & Hn).
        assert (Es : forall lf', (lf <= lf')%nat -> step hash insert_fails o [] lf' m p = Ok p1)
          by (intros lf' Hle; apply (step_mono hash insert_fails o [] lf lf' Hle m p p1 E)).
        assert (Hsz : queue_size (p_queue p1) = List.length (xs ++ new)) by (eapply qrep_size, I1).
        destruct ((0 <? max)%nat && (max =? queue_size (p_queue p1))%nat) eqn:Ehit.
        * right. apply andb_true_iff in Ehit as [E1 E2].
          exists 1%nat, p1, (done ++ [(x, k1, k2)]), (xs ++ new). split; auto. split; [apply Nat.eqb_eq in E2; lia|].
          intros fuel lf' Hle. cbn [Nat.add run_sh]. rewrite El, (Es lf' Hle). cbn [bind].
          rewrite E1, E2. cbn [andb].
          destruct (split_sh _ _ _ _ _ _ _ _ _ _ _ _); cbn [bind]; auto. rewrite run_sh_false. auto.
        * destruct (IH r p1 _ _ I1) as [(pf & d' & pe & A1 & A2 & A3)|(k & p2 & d' & pe & A1 & A2 & A3)].
          { rewrite weight_app. simpl in Hw. lia. }
          -- left. exists pf, d', pe. split; [|split; auto].
             intros [|fuel] lf' H1 H2; [lia|]. cbn [run_sh]. rewrite El, (Es lf' H2). cbn [bind andb].
             rewrite Ehit. apply A1; [lia|auto].
          -- right. exists (Datatypes.S k), p2, d', pe. split; auto. split; auto.
             intros fuel lf' Hle. cbn [Nat.add run_sh]. rewrite El, (Es lf' Hle). cbn [bind andb]. rewrite Ehit. apply A3; auto.
  Qed.

  Lemma inv_sh_result r pf done pend : INV r pf done pend -> loop_done o pf = true -> RESULT r pf.
  Proof.
    intros I Hl. destruct (inv_result hash insert_fails o root [] r pf done pend I Hl) as [R1 R2 R3].
    assert (Hpend : o_exit o = false -> pend = []).
    { intros Hx. unfold loop_done in Hl. rewrite Hx, andb_false_r, orb_false_r, (inv_empty _ _ _ _ _ _ _ _ _ _ _ _ _ I) in Hl.
        destruct pend; auto. discriminate. }
    constructor; auto. exists done.
    pose proof (i_nodup _ _ _ _ _ _ _ _ _ _ _ _ _ I) as ND. unfold ys in ND. rewrite map_app, map_map in ND. apply NoDup_app_left in ND.
    split; [rewrite (i_db _ _ _ _ _ _ _ _ _ _ _ _ _ I), Hg; auto|]. split; [exact ND|]. split.
    { intros x k1 k2 Hx. destruct (i_nodes _ _ _ _ _ _ _ _ _ _ _ _ _ I x) as [Nx Rx].
      { apply in_app_iff. left. apply in_map_iff. exists (x, k1, k2); auto. }
      split; auto. split; [apply (i_exp _ _ _ _ _ _ _ _ _ _ _ _ _ I x k1 k2 Hx)|]. exists x; auto. }
    split.
    { intros _ h Hh. rewrite (i_keys _ _ _ _ _ _ _ _ _ _ _ _ _ I). apply in_map_iff in Hh as (e & <- & He). apply in_map, in_app_iff.
      left. apply in_map; auto. }
    intros NC Hx Ht. rewrite (Hpend Hx) in I. exists done.
    split; [eapply inv_cover; eauto|]. destruct (inv_graph hash insert_fails o _ _ _ _ _ _ _ _ _ _ I) as [A B].
    split; auto. split; auto. split; apply incl_refl.
  Qed.

  Lemma sh_all : exists r p0 pf N, mp_start hash o root [] r p0 /\ RESULT r pf /\
      forall fuel lf', (N <= fuel)%nat -> (lf <= lf')%nat -> RUNS fuel lf' m (0 <? max)%nat p0 = Ok pf.
  Proof.
    destruct (mp_begins hash o root [] RO) as (r & p0 & MS). pose proof (ms_inv _ _ _ _ _ _ MS) as I0.
    destruct (Nat.eq_dec max 0) as [Em|Hm].
    { destruct (run_total hash insert_fails o [] sh_gdb F n L K lf m (le_n _) [] (fun _ => eq_refl)
                _ r p0 [] [r] I0 (le_n _)) as (p & done & pend & Erun & I & Hl).
      exists r, p0, p, (weight [r]). split; auto. split; [eapply inv_sh_result; eauto|].
      intros fuel lf' H1 H2. rewrite Em, run_sh_max0. apply (run_mono hash insert_fails o [] lf lf' H2 m _ _ _ H1 _ Erun). }
    rewrite (proj2 (Nat.ltb_lt 0 max)) by lia.
    destruct (main_sh (weight [r]) r p0 [] [r] I0 (le_n _)) as [(pf & d & pe & A1 & A2 & A3)|(k & p1 & d & pe & I1 & Hlen & A7)].
    { exists r, p0, pf, (weight [r]). split; auto. split; [eapply inv_sh_result; eauto|auto]. }
    destruct (split_spec hash insert_fails Hif o Hg Hnm F n L K lf m (le_n _) r p1 d pe I1 wf Hwf max sched linger Hfair Hlen)
      as (q & c & N & Hq & He & Esp).
    pose proof (ended_result hash o F n L K lf m (le_n _) r p1 d pe I1 max Hlen q c He) as HR.
    set (pf := with_db (pl_state (cr_poll c)) (cr_table c)) in *.
    assert (Hend : loop_done o pf = true).
    { destruct He as (W & Won & cs & _ & _ & _ & Est). unfold loop_done. replace (p_queue pf) with q; [rewrite Hq; auto|].
      unfold pf. cbn [p_queue with_db]. rewrite Est, (proj1 (absorbed_fields cs _)). reflexivity. }
    exists r, p0, pf, (k + N)%nat. split; auto. split; auto.
    intros fuel lf' H1 H2. replace fuel with (k + (fuel - k))%nat by lia. rewrite A7 by auto. rewrite Esp by (auto; lia). cbn [bind].
    destruct (fuel - k)%nat; cbn [run]; rewrite Hend; auto.
  Qed.

  Lemma sh_unfold fuel lf' r p0 : mp_start hash o root [] r p0 -> (lf <= lf')%nat ->
    solve_set_sh hash insert_fails max wf sched linger fuel lf' o root [] =
    bind (RUNS fuel lf' m (0 <? max)%nat p0) (tail o max fuel r).
  Proof.
    intros [A B _ _ _] Hle. unfold solve_set_sh. destruct (to_pretty_total root) as [t Et]; [right; apply RO|].
    rewrite Et; cbn [bind]. rewrite (A lf' Hle); cbn [bind].
    assert (FD : fresh_db o insert_fails []) by (split; auto; congruence).
    rewrite (fresh_unsolved insert_fails o [] FD).
    destruct (fresh_loaded insert_fails o [] FD (Z.of_nat (List.length (clauses r)))) as [_ ->].
    rewrite B. cbn [bind]. reflexivity.
  Qed.
  (* when the loop has ended, the statistics end too *)
  Lemma sh_ends : exists r p0 pf Won out, mp_start hash o root [] r p0 /\ RESULT r pf /\
      ends_with_sh hash insert_fails max wf sched linger o root [] out /\
      out_sat out = p_sat pf /\ out_solution out = p_solution pf /\ out_children out = p_children pf /\
      (o_no_stats o = false -> stat_row (p_children pf) (sid r) (out_uniques out, out_redundants out, out_hits out)) /\
      p_db pf = map (row_of_entry hash) Won /\ NoDup (ids Won) /\ dkeys (out_db out) = ids Won /\
      (forall e, In e Won -> exists nn s, dget text_eqb (sid (e_node e)) (out_db out) = Some (timed nn (counted s (snd (row_of_entry hash e)))) /\
        (o_no_stats o = true -> nn = 0 /\ s = (0, 0, 0)) /\
        (o_no_stats o = false -> In (sid (e_node e)) (dkeys (p_children pf)) -> stat_row (p_children pf) (sid (e_node e)) s /\
          extra_arrivals (p_children pf) (sid r) (sid (e_node e)) nn)).
  Proof.
    destruct sh_all as (r & p0 & pf & N & MS & HR & HN).
    destruct (sr_sound _ _ _ _ _ _ _ _ _ _ HR) as (_ & _ & (Hcl & _) & Hr).
    destruct (sr_table _ _ _ _ _ _ _ _ _ _ HR) as (Won & Edb & ND & _).
    set (sf := Datatypes.S (List.length (dkeys (p_children pf)))).
    destruct (construct_stats_spec (p_children pf) Hcl sf (sid r)) as (stats & rr & Est & Hst); [unfold sf; lia|auto|].
    destruct (Hst (sid r) Hr) as ([[u rn] rh] & Hget & Hrow).
    set (out := if o_no_stats o
      then mkOut (p_sat pf) (p_solution pf) (p_children pf) (p_uniques pf) 0 (p_hits pf) (p_found pf) (p_db pf) (p_dot pf)
      else mkOut (p_sat pf) (p_solution pf) (p_children pf) u rn rh (p_found pf)
                (if o_gdb o then save_in_global_db stats rr (p_db pf) else p_db pf) (p_dot pf)).
    assert (Ek : dkeys (p_db pf) = ids Won).
    { rewrite Edb. unfold dkeys, ids. rewrite map_map. apply map_ext. intros [[x k1] k2]; reflexivity. }
    exists r, p0, pf, Won, out. split; auto. split; auto. split.
    { exists (Nat.max (Nat.max N sf) lf). intros fuel lf' H1 H2.
      rewrite (sh_unfold fuel lf' r p0 MS) by lia. rewrite HN by lia. cbn [bind].
      unfold tail, out. destruct (o_no_stats o); auto. unfold construct_graph_stats in *.
      rewrite (graph_stats_mono _ _ sf fuel (ltac:(lia)) _ _ _ _ Est). cbn [bind].
      change digest with text in *. rewrite Hget. reflexivity. }
    split; [unfold out; destruct (o_no_stats o); auto|]. split; [unfold out; destruct (o_no_stats o); auto|].
    split; [unfold out; destruct (o_no_stats o); auto|].
    split; [unfold out; destruct (o_no_stats o); auto; discriminate|]. split; auto. split; auto.
    split; [unfold out; destruct (o_no_stats o); cbn [out_db]; auto; rewrite Hg, save_keys; auto|].
    intros e He.
    assert (E : dget text_eqb (sid (e_node e)) (p_db pf) = Some (snd (row_of_entry hash e))).
    { apply (dget_In_NoDup _ tspec); [change text with digest; rewrite Ek; exact ND|]. rewrite Edb.
      apply in_map_iff. exists e. split; auto. }
    unfold out. destruct (o_no_stats o) eqn:En; cbn [out_db].
    - exists 0, (0, 0, 0). rewrite E. split; [reflexivity|]. split; [auto|discriminate].
    - destruct (stats_all _ _ _ _ _ Hcl Hr Est) as (A & B & C & D).
      rewrite Hg, save_get, E; [|rewrite A; apply Hcl|exact B]. cbn [option_map].
      eexists _, _. split; [reflexivity|]. split; [discriminate|]. intros _ Hin. destruct (C _ Hin) as (s & Es & Hs).
      rewrite Es. split; auto.
  Qed.
End Whole.
