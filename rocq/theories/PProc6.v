(* PProc6.v -- the multi-process run when workers fail. *)
From Coq Require Import String Ascii ZArith List Bool Lia Permutation Sorted.
From Verif Require Import Spec PyBase MSet MText MQueue MDb MSolver MProc SpecRun SpecProc PLib PClause PRename PLo
  PNorm PEval PText PQueue PNode PStep PRun PStats PSolver PSolve PSearch PGraph PP2 PProc PProc2 PProc3 PProc4 PProc5.
Import ListNotations.
Open Scope Z_scope.

Lemma exec_split hash ifl o seen lf m xs : forall ys p q, exec hash ifl o seen lf m p (xs ++ ys) q ->
  exists p', exec hash ifl o seen lf m p xs p' /\ exec hash ifl o seen lf m p' ys q.
Proof.
  induction xs as [|x xs IH]; intros ys p q H.
  - exists p. split; [constructor|exact H].
  - cbn [app] in H. inversion H as [|? ? q1 p1 ? ? A B C D]; subst. destruct (IH _ _ _ D) as (p' & E1 & E2).
    exists p'. split; auto. econstructor; eauto.
Qed.
Lemma exec_comparable hash ifl o seen lf m p xs q : exec hash ifl o seen lf m p xs q -> forall ys q', exec hash ifl o seen lf m p ys q' ->
  (exists zs, xs = ys ++ zs /\ exec hash ifl o seen lf m q' zs q) \/ (exists zs, ys = xs ++ zs /\ exec hash ifl o seen lf m q zs q').
Proof.
  induction 1 as [p|p x q0 p1 xs p' Hl Hp Hs He IH]; intros ys q' E.
  - right. exists ys. auto.
  - inversion E as [|? y ? ? ? ? Hl' Hp' Hs' He']; subst.
    + left. exists (x :: xs). split; auto. econstructor; eauto.
    + rewrite Hp in Hp'. injection Hp' as <- <-. rewrite Hs in Hs'. injection Hs' as <-.
      destruct (IH _ _ He') as [(zs & -> & Z)|(zs & -> & Z)]; [left|right]; exists zs; auto.
Qed.
Lemma exec_done hash ifl o seen lf m p xs q : exec hash ifl o seen lf m p xs q -> loop_done o p = true -> xs = [].
Proof. intros H Hl. inversion H; subst; auto. congruence. Qed.

Section Fail.
  Variable hash : text -> digest.
  Variable insert_fails : digest -> bool.
  Variable o : opts.
  Variable root : cset.
  Variable db : table.
  Hypothesis RO : root_ok root.
  Hypothesis Hg : o_gdb o = false.
  Hypothesis Hnm : o_no_mem o = false.
  Let F := raws root.
  Let n := root_n root.
  Let L := root_L root.
  Let K := root_K root.
  Let lf := root_bound root.
  Let m := input_mode o.
  Notation INV := (Inv hash o F n L K lf m db).
  Notation MPS := (mp_start hash o root db).
  Variable max : nat.
  Hypothesis Hmax : (0 < max)%nat.
  Variable wf : nat -> bool.
  Variable arr : nat -> nat -> bool.
  Variable p : pstate.
  Variable waiting : list cset.
  Hypothesis HO : hands_out hash insert_fails max o root db p waiting.

  Lemma out_split r p0 : MPS r p0 -> exists (xs : list cset) d pe, INV r p d pe /\ List.length pe = max /\ waiting = map (view (o_rdb o)) pe /\
    forall fuel lf', (lf <= lf')%nat ->
      run_mp hash insert_fails o [] max wf arr (List.length xs + fuel) lf' m true p0 =
      bind (split_work hash insert_fails o [] max wf arr fuel lf' m p) (fun p2 => run hash insert_fails o [] fuel lf' m p2).
  Proof.
    intros MS. destruct HO as (lh & r' & p0' & xs' & Ep & Es & Hne & He & Hsz & Hdr & Hfirst).
    assert (r' = r) as ->.
    { pose proof (ms_prep _ _ _ _ _ _ MS (Nat.max lf lh) (Nat.le_max_l _ _)) as A.
      rewrite (prepare_root_mono hash o root lh (Nat.max lf lh) r' (Nat.le_max_r _ _) Ep) in A. congruence. }
    assert (p0' = p0) as -> by (pose proof (ms_start _ _ _ _ _ _ MS); congruence).
    set (lx := Nat.max lf lh).
    assert (He' : exec hash insert_fails o [] lx m p0 xs' p) by (eapply exec_mono; [|exact He]; unfold lx; lia).
    destruct (main_phase hash insert_fails o Hg F n L K lf m (le_n _) db max wf arr (weight [r]) r p0 [] [r]
                (ms_inv _ _ _ _ _ _ MS) (le_n _))
      as [(pf & d & pe & xs & A1 & A2 & A3 & A4 & A5)|(xs & p1 & d & pe & I1 & _ & Hlen & A4 & Hne' & A6 & A7)].
    - exfalso. assert (A4' : exec hash insert_fails o [] lx m p0 xs pf) by (eapply exec_mono; [|exact A4]; unfold lx; lia).
      assert (Hpre : exists zs, xs = xs' ++ zs).
      { destruct (exec_comparable _ _ _ _ _ _ _ _ _ A4' _ _ He') as [(zs & -> & Z)|(zs & E & Z)]; eauto.
        apply exec_done in Z; auto. subst zs. rewrite app_nil_r in E. exists []. rewrite app_nil_r. auto. }
      destruct Hpre as [zs ->]. destruct (exec_split _ _ _ _ _ _ _ _ _ _ A4) as (q & Q1 & Q2).
      assert (Q1' : exec hash insert_fails o [] lx m p0 xs' q) by (eapply exec_mono; [|exact Q1]; unfold lx; lia).
      pose proof (exec_det hash insert_fails o lx m _ _ _ He' _ Q1') as <-.
      exact (A5 Hmax xs' zs p eq_refl Hne Q1 Hsz).
    - assert (A4' : exec hash insert_fails o [] lx m p0 xs p1) by (eapply exec_mono; [|exact A4]; unfold lx; lia).
      assert (Hs1 : queue_size (p_queue p1) = max).
      { rewrite (qrep_size _ _ _ _ (i_queue _ _ _ _ _ _ _ _ _ _ _ _ _ I1)). auto. }
      assert (Eq : p1 = p).
      { destruct (exec_comparable _ _ _ _ _ _ _ _ _ A4' _ _ He') as [(zs & E & Z)|(zs & E & Z)].
        - destruct zs as [|z zs].
          { inversion Z; subst; reflexivity. }
          exfalso. subst xs. destruct (exec_split _ _ _ _ _ _ _ _ _ _ A4) as (q & Q1 & Q2).
          assert (Q1' : exec hash insert_fails o [] lx m p0 xs' q) by (eapply exec_mono; [|exact Q1]; unfold lx; lia).
          pose proof (exec_det hash insert_fails o lx m _ _ _ He' _ Q1') as <-.
          eapply (A6 xs' (z :: zs) p); eauto; discriminate.
        - destruct zs as [|z zs].
          { inversion Z; subst; reflexivity. }
          exfalso. subst xs'. destruct (exec_split _ _ _ _ _ _ _ _ _ _ He) as (q & Q1 & Q2).
          assert (Q1' : exec hash insert_fails o [] lx m p0 xs q) by (eapply exec_mono; [|exact Q1]; unfold lx; lia).
          pose proof (exec_det hash insert_fails o lx m _ _ _ A4' _ Q1') as <-.
          eapply (Hfirst xs (z :: zs) p1); eauto; discriminate. }
      subst p1. exists xs, d, pe. split; auto. split; auto. split; [|exact A7].
      eapply qrep_drains; [exact (i_queue _ _ _ _ _ _ _ _ _ _ _ _ _ I1)|exact Hdr].
  Qed.

  Lemma worker_truthy_sat r d pe x pk : INV r p d pe -> In x pe -> worked hash insert_fails o F n L K lf m db x pk ->
    solution_truthy (p_solution pk) = true -> satisfiable (raws x).
  Proof.
    intros I Hx (_ & dk & pek & Ik & _) Ht.
    destruct (sol_sat _ _ _ _ _ _ _ _ _ _ _ _ _ Ik) as [_ B].
    destruct (p_solution pk) as [sol|]; [|discriminate]. destruct (B sol eq_refl) as (B1 & B2 & _ & B4 & _).
    destruct (exists_model sol B2) as (a & Ha).
    destruct (i_nodes _ _ _ _ _ _ _ _ _ _ _ _ _ I x) as [Nx _]; [apply in_app_iff; auto|].
    pose proof (wroot_node hash o F n L K x Nx) as (Nw & _).
    rewrite <- (wroot_raws (o_rdb o) x). eexists. apply (proj1 (n_sem _ _ Nw a (fun v b Hi => Ha v b (B4 _ Hi)))). apply B1; auto.
  Qed.
  Lemma worker_sat_truthy r d pe x pk : INV r p d pe -> In x pe -> worked hash insert_fails o F n L K lf m db x pk ->
    no_collision hash o lf m r -> satisfiable (raws x) -> solution_truthy (p_solution pk) = true.
  Proof.
    intros I Hx (_ & dk & pek & Ik & Hl) NC Hs.
    destruct (i_nodes _ _ _ _ _ _ _ _ _ _ _ _ _ I x) as [Nx Rx]; [apply in_app_iff; auto|].
    rewrite <- (proj1 (sol_sat _ _ _ _ _ _ _ _ _ _ _ _ _ Ik)).
    apply (mr_verdict hash o root (wroot (o_rdb o) x) pk (inv_result hash insert_fails o root db _ _ _ _ Ik Hl)).
    - assert (Hv : view (o_rdb o) (wroot (o_rdb o) x) = view (o_rdb o) x) by (apply wroot_view; apply Nx).
      assert (G : forall z, reach hash o lf m (wroot (o_rdb o) x) z -> exists z', reach hash o lf m r z' /\ raws z' = raws z).
      { intros z Hz. assert (A : z = wroot (o_rdb o) x \/ reach hash o lf m r z).
        { induction Hz as [|u j1 j2 c Hu IHu Eu Hj]; auto. right. destruct IHu as [->|Ru].
          - eapply reach_step; [exact Rx| |exact Hj]. eapply expands_view; [exact Hv|exact Eu].
          - eapply reach_step; eauto. }
        destruct A as [->|A]; [exists x; rewrite wroot_raws; auto|eauto]. }
      intros y z Hy Hz. destruct (G y Hy) as (y' & Y1 & <-). destruct (G z Hz) as (z' & Z1 & <-). apply NC; auto.
    - rewrite wroot_raws. exact Hs.
  Qed.

  Lemma fails_forever k : (k < max)%nat -> wf k = true ->
    (o_exit o = false \/ forall j x, nth_error waiting j = Some x -> wf j = false -> ~ satisfiable (raws x)) ->
    runs_forever_mp hash insert_fails max wf arr o root db.
  Proof.
    intros Hk Hw Hx. destruct (mp_begins hash o root db RO) as (r & p0 & MS).
    destruct (out_split r p0 MS) as (xs & d & pe & I & Hlen & Ew & Hrun).
    assert (Hn : forall x, In x pe -> is_node hash F n L K x).
    { intros x Hin. apply (i_nodes _ _ _ _ _ _ _ _ _ _ _ _ _ I). apply in_app_iff; auto. }
    destruct (all_work hash insert_fails o Hg F n L K lf m (le_n _) db pe Hn) as [pks HW].
    destruct (split_is hash insert_fails o Hg F n L K lf m (le_n _) db max wf arr r p d pe pks I Hlen HW) as (q & f & Hq & Hsp).
    exists (List.length xs + f + lf)%nat. intros fuel lf' H1 H2.
    rewrite (mp_unfold hash insert_fails o root db RO Hg Hnm max wf arr fuel lf' r p0 MS) by (unfold lf in *; lia).
    rewrite (proj2 (Nat.ltb_lt 0 max)) by lia.
    replace fuel with (List.length xs + (fuel - List.length xs))%nat at 1 by lia.
    rewrite Hrun by lia. rewrite Hsp by lia. rewrite poll_stuck; auto.
    - eapply crew_return; eauto.
    - destruct (nth_error pe k) as [x|] eqn:Ex; [|apply nth_error_None in Ex; lia].
      destruct (crew_nth hash insert_fails o F n L K lf m db wf pe pks HW 0%nat k x Ex) as (pk & _ & _ & Hin).
      eexists. split; [exact Hin|]. right. cbn [w_reply Nat.add]. rewrite Hw. auto.
    - destruct Hx as [Hx|Hx]; auto. right. intros w Hin.
      assert (Hpos : forall ys ps k0, Forall2 (worked hash insert_fails o F n L K lf m db) ys ps -> forall w, In w (crew o wf k0 ys ps) ->
                exists j x pk, nth_error ys j = Some x /\ w_no w = (k0 + j)%nat /\ worked hash insert_fails o F n L K lf m db x pk /\
                  w_reply w = Some (if wf (w_no w) then Failed else answer_of pk)).
      { intros ys ps k0 H. revert k0. induction H as [|x pk ys ps Hxx H IH]; intros k0 v Hv; cbn [crew] in Hv; [destruct Hv|].
        destruct Hv as [<-|Hv].
        - exists 0%nat, x, pk. cbn. split; auto.
        - destruct (IH _ _ Hv) as (j & y & pk' & A & B & C & D). exists (Datatypes.S j), y, pk'. cbn. split; auto. split; [lia|auto]. }
      destruct (Hpos _ _ _ HW w Hin) as (j & x & pk & Hj & Hno & Hwk & Er). cbn [Nat.add] in Hno.
      unfold w_truthy. rewrite Er. destruct (wf (w_no w)) eqn:Ef; auto. cbn [answer_of].
      destruct (solution_truthy (p_solution pk)) eqn:Et; auto. exfalso.
      assert (Hxin : In x pe) by (eapply nth_error_In; eauto).
      apply (Hx j (view (o_rdb o) x)).
      + rewrite Ew. apply map_nth_error. auto.
      + rewrite <- Hno. auto.
      + rewrite view_raws. eapply worker_truthy_sat; eauto.
  Qed.
  Lemma poll_sound r d pe pks : INV r p d pe -> Forall2 (worked hash insert_fails o F n L K lf m db) pe pks ->
    forall w sat ch sol p', In w (crew o wf 0 pe pks) -> w_reply w = Some (Answer sat ch sol) ->
      sound_state F r p' -> sound_state F r (absorb p' sat ch sol).
  Proof.
    intros I HW w sat ch sol p' Hin Er Hs.
    destruct (crew_in _ _ _ _ _ _ _ _ _ (le_n _) _ _ _ _ HW _ _ Hin) as (x & pk & Hx & _ & Hk & _ & _ & E).
    rewrite Er in E. destruct (wf (w_no w)); [discriminate|]. injection E as -> -> ->.
    exact (absorb_sound hash insert_fails o F n L K lf m db r p d pe I x pk p' Hx Hk Hs).
  Qed.
  Lemma ends_by_solution k out : (k < max)%nat -> wf k = true ->
    ends_with_mp hash insert_fails max wf arr o root db out ->
    o_exit o = true /\ out_sat out = true /\ exists r p0 sol, MPS r p0 /\ out_solution out = Some sol /\ good_sol F r sol.
  Proof.
    intros Hk Hw (N & HN). destruct (mp_begins hash o root db RO) as (r & p0 & MS).
    destruct (out_split r p0 MS) as (xs & d & pe & I & Hlen & Ew & Hrun).
    assert (Hn : forall x, In x pe -> is_node hash F n L K x).
    { intros x Hin. apply (i_nodes _ _ _ _ _ _ _ _ _ _ _ _ _ I). apply in_app_iff; auto. }
    destruct (all_work hash insert_fails o Hg F n L K lf m (le_n _) db pe Hn) as [pks HW].
    destruct (split_is hash insert_fails o Hg F n L K lf m (le_n _) db max wf arr r p d pe pks I Hlen HW) as (q & f & Hq & Hsp).
    set (fuel := (List.length xs + (f + N))%nat). set (lf' := (lf + N)%nat).
    specialize (HN fuel lf' (ltac:(unfold fuel; lia)) (ltac:(unfold lf'; lia))).
    rewrite (mp_unfold hash insert_fails o root db RO Hg Hnm max wf arr fuel lf' r p0 MS) in HN by (unfold lf', lf; lia).
    rewrite (proj2 (Nat.ltb_lt 0 max)) in HN by lia. unfold fuel in HN at 1.
    rewrite Hrun in HN by (unfold lf'; lia). rewrite Hsp in HN by (unfold lf'; lia).
    apply bind_ok in HN as (pf & HN & Ht). apply bind_ok in HN as (p2 & HN & Hrun2). apply bind_ok in HN as (st & HN & Est).
    injection Est as <-.
    destruct (poll_inv (o_exit o) arr (sound_state F r) (fun p q => queue_sound F r p q) (f + N) 0 0 (with_queue p q)
                (crew o wf 0 pe pks) st (poll_sound r d pe pks I HW)) as [SS HE]; auto.
    { eapply crew_return; eauto. }
    { apply (inv_state _ _ _ _ _ _ _ _ _ _ _ _ _ I). }
    destruct HE as (Hx & p' & w & sat & ch & sol & Hin & Er & Htr & Est).
    { destruct (nth_error pe k) as [x|] eqn:Ex; [|apply nth_error_None in Ex; lia].
      destruct (crew_nth hash insert_fails o F n L K lf m db wf pe pks HW 0%nat k x Ex) as (pk & _ & _ & Hin).
      eexists. split; [exact Hin|]. right. cbn [w_reply Nat.add]. rewrite Hw. auto. }
    split; auto.
    assert (Esol : p_solution (pl_state st) = sol).
    { rewrite Est. unfold absorb. rewrite Htr. reflexivity. }
    assert (Hl : loop_done o (pl_state st) = true).
    { unfold loop_done. rewrite Esol, Htr, Hx, orb_true_r. auto. }
    assert (pf = pl_state st) as ->.
    { destruct (f + N)%nat; cbn [run] in Hrun2; rewrite Hl in Hrun2; congruence. }
    destruct SS as (S1 & S2 & _ & _).
    assert (Eo : out_sat out = p_sat (pl_state st) /\ out_solution out = p_solution (pl_state st)).
    { unfold tail in Ht. destruct (o_no_stats o); [injection Ht as <-; auto|].
      apply bind_ok in Ht as ([stats rr] & _ & Ht). destruct (match dget text_eqb (sid r) stats with Some x => x | None => zero_stats end) as [[u rn] rh].
      injection Ht as <-. auto. }
    destruct Eo as [-> ->]. split; [rewrite S1, Esol; auto|].
    destruct sol as [sol|]; [|discriminate]. exists r, p0, sol. auto.
  Qed.
  Lemma solution_ends j x : fair arr -> o_exit o = true -> collision_free hash o root ->
    nth_error waiting j = Some x -> wf j = false -> satisfiable (raws x) ->
    exists out, ends_with_mp hash insert_fails max wf arr o root db out.
  Proof.
    intros Hf Hx CF Hj Hwj Hs. destruct (mp_begins hash o root db RO) as (r & p0 & MS).
    destruct (out_split r p0 MS) as (xs & d & pe & I & Hlen & Ew & Hrun).
    assert (Hn : forall x, In x pe -> is_node hash F n L K x).
    { intros y Hin. apply (i_nodes _ _ _ _ _ _ _ _ _ _ _ _ _ I). apply in_app_iff; auto. }
    destruct (all_work hash insert_fails o Hg F n L K lf m (le_n _) db pe Hn) as [pks HW].
    destruct (split_is hash insert_fails o Hg F n L K lf m (le_n _) db max wf arr r p d pe pks I Hlen HW) as (q & f & Hq & Hsp).
    assert (NC : no_collision hash o lf m r).
    { apply (collision_free_no hash o root lf r RO (le_n _) (ms_prep _ _ _ _ _ _ MS _ (le_n _)) CF). }
    rewrite Ew, nth_error_map in Hj. destruct (nth_error pe j) as [y|] eqn:Ey; [|discriminate]. injection Hj as <-.
    rewrite view_raws in Hs.
    destruct (crew_nth hash insert_fails o F n L K lf m db wf pe pks HW 0%nat j y Ey) as (pk & Hk & _ & Hin).
    cbn [Nat.add] in Hin. rewrite Hwj in Hin.
    pose proof (worker_sat_truthy r d pe y pk I (nth_error_In _ _ Ey) Hk NC Hs) as Htr.
    destruct (poll_solves arr Hf _ (crew o wf 0 pe pks) 0 0 (with_queue p q) eq_refl) as (N & st & HN).
    { eapply crew_return; eauto. }
    { eexists. split; [exact Hin|]. unfold w_truthy. cbn [w_reply answer_of]. exact Htr. }
    destruct (poll_inv (o_exit o) arr (sound_state F r) (fun p q => queue_sound F r p q) N 0 0 (with_queue p q)
                (crew o wf 0 pe pks) st (poll_sound r d pe pks I HW)) as [SS _]; auto.
    { eapply crew_return; eauto. }
    { apply (inv_state _ _ _ _ _ _ _ _ _ _ _ _ _ I). }
    { rewrite Hx. apply HN. auto. }
    (* the loop is over *)
    assert (Htrue : solution_truthy (p_solution (pl_state st)) = true \/ queue_is_empty (p_queue (pl_state st)) = true).
    { assert (Hgen : forall fuel t i p' ws st', can_return ws -> poll_loop fuel true arr t (mkPoll ws i p') = Ok st' ->
         (exists w, In w ws /\ w_truthy w = true) -> solution_truthy (p_solution (pl_state st')) = true).
      { induction fuel as [|g IH]; intros t i p' ws st' Hc E (w & Hw & Htw).
        { cbn [poll_loop pl_workers] in E. destruct ws; [destruct Hw|discriminate]. }
        destruct (round_total true (arr t) ws i p') as (st1 & b & E1 & R); auto.
        { destruct ws; [destruct Hw|discriminate]. }
        pose proof (round_can_return _ _ _ _ _ _ _ R Hc) as Hc'.
        assert (Hgg : poll_loop (Datatypes.S g) true arr t (mkPoll ws i p') = if b then Ok st1 else poll_loop g true arr (Datatypes.S t) st1).
        { cbn [poll_loop pl_workers]. destruct ws; [destruct Hw|]. rewrite E1. reflexivity. }
        rewrite Hgg in E. clear Hgg E1.
        inversion R as [v F1 F2 X Y|v q0 F1 F2 F3 F4 X Y|v sat ch sol F1 F2 F3 F4 F5 X Y|v sat ch sol F1 F2 F3 F4 X Y];
          subst b; rewrite <- X in E, Hc'; cbn [pl_workers] in Hc'.
        - eapply IH; eauto.
        - eapply IH; eauto. exists w. split; auto.
          destruct (set_nth_other _ _ (mkWorker (w_no v) (w_node v) None) _ _ F1 Hw) as [->|Hi]; auto.
          unfold w_truthy in Htw. rewrite F2 in Htw. discriminate.
        - injection E as <-. cbn [pl_state]. unfold absorb. rewrite F4. cbn. exact F4.
        - eapply IH; eauto. exists w. split; auto. destruct (pop_nth_other _ _ _ _ F1 Hw) as [->|Hi]; auto.
          unfold w_truthy in Htw. rewrite F2 in Htw. rewrite Htw in F4. discriminate. }
      left. eapply (Hgen N 0%nat 0%nat (with_queue p q)); [eapply crew_return; eauto|apply HN; auto|].
      eexists. split; [exact Hin|]. unfold w_truthy. cbn [w_reply answer_of]. exact Htr. }
    assert (Hl : loop_done o (pl_state st) = true).
    { unfold loop_done. destruct Htrue as [->| ->]; rewrite ?Hx, ?orb_true_r; auto. }
    destruct (mp_ends hash insert_fails o root db RO Hg Hnm max wf arr r p0 (pl_state st) (List.length xs + Nat.max f N) MS SS)
      as (out & Eo & _); eauto.
    intros fuel lf' H1 H2. rewrite (proj2 (Nat.ltb_lt 0 max)) by lia.
    replace fuel with (List.length xs + (fuel - List.length xs))%nat by lia.
    fold m. rewrite Hrun by auto. rewrite Hsp by (auto; lia). rewrite Hx, HN by lia. cbn [bind].
    destruct (fuel - List.length xs)%nat; cbn [run]; rewrite Hl; auto.
  Qed.
End Fail.
