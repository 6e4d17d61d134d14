(* PSplit2.v -- every run, with or without worker processes, draws what the main process did until it ended or handed out. *)
From Coq Require Import String Ascii ZArith List Bool Lia.
From Verif Require Import Spec PyBase MSet MText MQueue MDb MSolver MProc MShare SpecRun SpecProc SpecShare PLib
  PClause PRename PLo PNorm PEval PText PQueue PNode PStep PRun PSolver PSolve PSearch PProc PProc2 PProc5 PShare5 PP2 PSplit.
Import ListNotations.
Open Scope Z_scope.

Section Until.
  Variable hash : text -> digest.
  Variable insert_fails : digest -> bool.
  Variable o : opts.
  Variable seen : list digest.
  Variable max : nat.
  Variable m : mode.
  Variable split : nat -> nat -> pstate -> result pstate.
  Variable runs : nat -> nat -> pstate -> result pstate.
  Hypothesis runs_eq : forall fuel lf p, runs fuel lf p =
    if loop_done o p then Ok p else match fuel with O => OutOfFuel | S f =>
      p1 <- step hash insert_fails o seen lf m p ;;
      if (max =? queue_size (p_queue p1))%nat
      then p2 <- split f lf p1 ;; run hash insert_fails o seen f lf m p2 else runs f lf p1 end.
  Lemma until : forall fuel lf p0 p', runs fuel lf p0 = Ok p' ->
    exists xs p, exec hash insert_fails o seen lf m p0 xs p /\
      (p' = p \/
       xs <> [] /\ queue_size (p_queue p) = max /\
       forall ys zs q, xs = ys ++ zs -> ys <> [] -> zs <> [] ->
         exec hash insert_fails o seen lf m p0 ys q -> queue_size (p_queue q) <> max).
  Proof.
    induction fuel as [|f IH]; intros lf p0 p' E; rewrite runs_eq in E; destruct (loop_done o p0) eqn:D.
    - injection E as <-. exists [], p0. split; [constructor|auto].
    - discriminate.
    - injection E as <-. exists [], p0. split; [constructor|auto].
    - apply bind_ok in E as (p1 & St & E).
      assert (Q : exists x q, queue_pop (p_queue p0) = Ok (x, q)).
      { unfold step in St. apply bind_ok in St as ([x q] & Q & _). eauto. }
      destruct Q as (x & q & Q). destruct (max =? queue_size (p_queue p1))%nat eqn:Es.
      + exists [x], p1. split; [econstructor; eauto; constructor|]. right. split; [discriminate|].
        split; [symmetry; apply Nat.eqb_eq; exact Es|].
        intros ys zs q' Ex Hy Hz. destruct ys as [|y [|y' ys]]; [congruence| |discriminate]. destruct zs; [congruence|discriminate].
      + destruct (IH lf p1 p' E) as (xs & p & Ex & H). exists (x :: xs), p. split; [econstructor; eauto|].
        destruct H as [H|(H1 & H2 & H3)]; [left; exact H|right]. split; [discriminate|]. split; [exact H2|].
        intros ys zs q' Exs Hy Hz He. destruct ys as [|y ys]; [congruence|]. injection Exs as <- Exs.
        inversion He as [|a b c p1' d e D' Q' St' He']; subst. rewrite St in St'. injection St' as <-.
        destruct ys as [|y ys].
        * inversion He'; subst. apply Nat.eqb_neq in Es. congruence.
        * eapply (H3 (y :: ys) zs); auto. discriminate.
  Qed.
End Until.

Section Main.
  Variable hash : text -> digest.
  Variable insert_fails : digest -> bool.
  Variable o : opts.
  Variable root : cset.
  Variable db : table.
  Hypothesis RO : root_ok root.
  Hypothesis FD : fresh_db o insert_fails db.

  Definition main_part (d : list dotcmd) : Prop := exists lf r p done pend,
    prepare_root hash lf o root = Ok r /\ (root_bound root <= lf)%nat /\ evaluated_vars r = evaluated_vars root /\
    Inv hash o (raws root) (root_n root) (root_L root) (root_K root) lf (input_mode o) db r p done pend /\ d = p_dot p.

  Lemma exec_main lf0 r p0 xs p : prepare_root hash lf0 o root = Ok r -> start hash o r db = Ok p0 ->
    exec hash insert_fails o [] lf0 (input_mode o) p0 xs p -> main_part (p_dot p).
  Proof.
    intros E1 E2 Ex. set (lf := Nat.max lf0 (root_bound root)).
    assert (Hlf : (root_bound root <= lf)%nat) by (unfold lf; lia).
    assert (E1' : prepare_root hash lf o root = Ok r) by (eapply prepare_root_mono; [|exact E1]; unfold lf; lia).
    assert (Ex' : exec hash insert_fails o [] lf (input_mode o) p0 xs p) by (eapply exec_mono; [|exact Ex]; unfold lf; lia).
    destruct (prepare_root_spec hash o lf (root_L root) root RO (root_below root) Hlf)
      as (r0 & Ep & N & Hsd & Hc & W & Hev & Heq). rewrite E1' in Ep; injection Ep as <-.
    destruct (start_inv hash o (raws root) (root_n root) (root_L root) (root_K root) lf (input_mode o) db r
                N Hsd (or_intror Hc) W) as (p1 & Es & I0). rewrite E2 in Es; injection Es as <-.
    assert (Er : set_hash r (Some (sid r)) = r) by (rewrite <- Hc; destruct r; auto). rewrite Er in I0.
    destruct (exec_inv hash insert_fails o [] (fun Hg => conj eq_refl (proj2 (proj1 FD Hg))) _ _ _ _ lf _ Hlf db
               (fun Hg => proj1 (proj1 FD Hg)) r _ _ _ Ex' _ _ I0) as (done & pend & I & Exs). cbn [app] in I.
    exists lf, r, p, done, pend. auto.
  Qed.
  Lemma exec_drains lf0 r p0 xs p : prepare_root hash lf0 o root = Ok r -> start hash o r db = Ok p0 ->
    exec hash insert_fails o [] lf0 (input_mode o) p0 xs p -> exists waiting, drains (p_queue p) waiting.
  Proof.
    intros E1 E2 Ex. set (lf := Nat.max lf0 (root_bound root)).
    assert (Hlf : (root_bound root <= lf)%nat) by (unfold lf; lia).
    assert (E1' : prepare_root hash lf o root = Ok r) by (eapply prepare_root_mono; [|exact E1]; unfold lf; lia).
    assert (Ex' : exec hash insert_fails o [] lf (input_mode o) p0 xs p) by (eapply exec_mono; [|exact Ex]; unfold lf; lia).
    destruct (prepare_root_spec hash o lf (root_L root) root RO (root_below root) Hlf)
      as (r0 & Ep & N & Hsd & Hc & W & Hev & Heq). rewrite E1' in Ep; injection Ep as <-.
    destruct (start_inv hash o (raws root) (root_n root) (root_L root) (root_K root) lf (input_mode o) db r
                N Hsd (or_intror Hc) W) as (p1 & Es & I0). rewrite E2 in Es; injection Es as <-.
    assert (Er : set_hash r (Some (sid r)) = r) by (rewrite <- Hc; destruct r; auto). rewrite Er in I0.
    destruct (exec_inv hash insert_fails o [] (fun Hg => conj eq_refl (proj2 (proj1 FD Hg))) _ _ _ _ lf _ Hlf db
               (fun Hg => proj1 (proj1 FD Hg)) r _ _ _ Ex' _ _ I0) as (done & pend & I & Exs). cbn [app] in I.
    eexists. exact (drains_total _ _ _ _ (i_queue _ _ _ _ _ _ _ _ _ _ _ _ _ I)).
  Qed.

  Lemma nothing_seen n : loaded_seen o db n = [].
  Proof.
    unfold loaded_seen. destruct (o_gdb o) eqn:Eg; [|reflexivity]. destruct (proj1 FD Eg) as [-> _]. destruct (negb _); reflexivity.
  Qed.
  Lemma nothing_solved x n : is_set_solved o (loaded_solved o db n) x db = false.
  Proof.
    unfold is_set_solved. destruct (o_gdb o) eqn:Eg.
    - destruct (proj1 FD Eg) as [-> _]. unfold loaded_solved. rewrite Eg. destruct (o_no_mem o); reflexivity.
    - unfold loaded_solved. rewrite Eg. destruct (o_no_mem o) eqn:En; [|reflexivity]. rewrite (proj2 FD En) in Eg. discriminate.
  Qed.
  Variable max : nat.
  Variable wf : nat -> bool.
  Hypothesis Hwf : forall k, wf k = false.

  Lemma tail_dot fuel r pf out :
    (if o_no_stats o then
      Ok (mkOut (p_sat pf) (p_solution pf) (p_children pf) (p_uniques pf) 0 (p_hits pf)
                (p_found pf) (p_db pf) (p_dot pf))
    else
      '(stats, rr) <- construct_graph_stats fuel (sid r) (p_children pf) ;;
      let '(u, rn, rh) := match dget text_eqb (sid r) stats with
                          | Some x => x | None => zero_stats end in
      Ok (mkOut (p_sat pf) (p_solution pf) (p_children pf) u rn rh (p_found pf)
                (if o_gdb o then save_in_global_db stats rr (p_db pf) else p_db pf) (p_dot pf))) = Ok out -> out_dot out = p_dot pf.
  Proof.
    intros E. destruct (o_no_stats o).
    - injection E as <-. reflexivity.
    - apply bind_ok in E as ([stats rr] & _ & E). destruct (match dget text_eqb (sid r) stats with Some x => x | None => zero_stats end) as [[u rn] rh].
      injection E as <-. reflexivity.
  Qed.
  Lemma solved_main fuel lf out : solve_set hash insert_fails fuel lf o root db = Ok out -> main_part (out_dot out).
  Proof.
    intros E.
    assert (S : ends_with hash insert_fails o root db out).
    { exists (Nat.max fuel lf). intros f l H1 H2. apply (solve_set_mono hash insert_fails o root db fuel f lf l); [lia|lia|exact E]. }
    destruct (ends_solved hash insert_fails o root db RO FD out S) as (r & p & done & pend & S').
    rewrite (sv_dot _ _ _ _ _ _ _ _ _ _ _ S').
    do 5 eexists. split; [exact (sv_prep _ _ _ _ _ _ _ _ _ _ _ S')|]. split; [exact (sv_bound _ _ _ _ _ _ _ _ _ _ _ S')|].
    split; [exact (sv_ev _ _ _ _ _ _ _ _ _ _ _ S')|]. split; [exact (sv_inv _ _ _ _ _ _ _ _ _ _ _ S')|reflexivity].
  Qed.

  Lemma mp_main arr fuel lf out :
    solve_set_mp hash insert_fails max wf arr fuel lf o root db = Ok out -> main_part (out_dot out).
  Proof.
    intros E. destruct max as [|k] eqn:Em. { rewrite solve_set_mp_single in E. eapply solved_main; eauto. } rewrite <- Em in *.
    assert (Hmax : (0 < max)%nat) by lia. clear Em k. pose proof E as E0.
    unfold solve_set_mp in E. apply bind_ok in E as (tp & _ & E). apply bind_ok in E as (r & E1 & E).
    cbv zeta in E. rewrite nothing_solved, nothing_seen in E. apply bind_ok in E as (p0 & E2 & E). apply bind_ok in E as (pf & E & Et).
    rewrite (proj2 (Nat.ltb_lt 0 max)) in E by lia.
    apply (until hash insert_fails o [] max (input_mode o)
             (fun f lf p => split_work hash insert_fails o [] max wf arr f lf (input_mode o) p)
             (fun f lf p => run_mp hash insert_fails o [] max wf arr f lf (input_mode o) true p)) in E.
    - destruct E as (xs & p & Ex & [->|(H1 & H2 & H3)]).
      + rewrite (tail_dot _ _ _ _ Et). eapply exec_main; eauto.
      + destruct (exec_drains _ _ _ _ _ E1 E2 Ex) as (waiting & Hd).
        assert (HO : hands_out hash insert_fails max o root db p waiting) by (exists lf, r, p0, xs; split; [exact E1|]; split; [exact E2|]; auto).
        rewrite (proj1 (frozen_mp hash insert_fails o root db RO FD max Hmax p waiting HO wf Hwf arr fuel lf out E0)).
        eapply exec_main; eauto.
    - intros f lf' q. destruct f; cbn [run_mp]; destruct (loop_done o q); auto. destruct (step _ _ _ _ _ _ _); cbn [bind]; auto.
      rewrite (proj2 (Nat.ltb_lt 0 max)) by lia. cbn [andb]. destruct (max =? _)%nat; auto.
      destruct (split_work _ _ _ _ _ _ _ _ _ _ _); cbn [bind]; auto. apply run_mp_false.
  Qed.
  Lemma sh_main sched lg fuel lf out :
    solve_set_sh hash insert_fails max wf sched lg fuel lf o root db = Ok out -> main_part (out_dot out).
  Proof.
    intros E. destruct max as [|k] eqn:Em. { rewrite solve_set_sh_single in E. eapply solved_main; eauto. } rewrite <- Em in *.
    assert (Hmax : (0 < max)%nat) by lia. clear Em k. pose proof E as E0.
    unfold solve_set_sh in E. apply bind_ok in E as (tp & _ & E). apply bind_ok in E as (r & E1 & E).
    cbv zeta in E. rewrite nothing_solved, nothing_seen in E. apply bind_ok in E as (p0 & E2 & E). apply bind_ok in E as (pf & E & Et).
    rewrite (proj2 (Nat.ltb_lt 0 max)) in E by lia.
    apply (until hash insert_fails o [] max (input_mode o)
             (fun f lf p => split_sh hash insert_fails o [] max wf sched lg f lf (input_mode o) p)
             (fun f lf p => run_sh hash insert_fails o [] max wf sched lg f lf (input_mode o) true p)) in E.
    - destruct E as (xs & p & Ex & [->|(H1 & H2 & H3)]).
      + rewrite (tail_dot _ _ _ _ Et). eapply exec_main; eauto.
      + destruct (exec_drains _ _ _ _ _ E1 E2 Ex) as (waiting & Hd).
        assert (HO : hands_out hash insert_fails max o root db p waiting) by (exists lf, r, p0, xs; split; [exact E1|]; split; [exact E2|]; auto).
        rewrite (proj1 (frozen_sh hash insert_fails o root db RO FD max Hmax p waiting HO wf Hwf sched lg fuel lf out E0)).
        eapply exec_main; eauto.
    - intros f lf' q. destruct f; cbn [run_sh]; destruct (loop_done o q); auto. destruct (step _ _ _ _ _ _ _); cbn [bind]; auto.
      rewrite (proj2 (Nat.ltb_lt 0 max)) by lia. cbn [andb]. destruct (max =? _)%nat; auto.
      destruct (split_sh _ _ _ _ _ _ _ _ _ _ _ _); cbn [bind]; auto. apply run_sh_false.
  Qed.
End Main.
