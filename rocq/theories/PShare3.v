(* PShare3.v -- workers on a shared table: schedules. *)
From Coq Require Import String Ascii ZArith List Bool Lia Permutation Sorted.
From Verif Require Import Spec PyBase MSet MText MQueue MDb MSolver MProc MShare SpecRun SpecProc SpecShare PLib PClause
  PRename PLo PNorm PEval PText PQueue PNode PStep PRun PStats PSolver PSolve PSearch PGraph PDb PProc PProc2 PProc3 PProc4
  PShare1 PShare2.
Import ListNotations.
Open Scope Z_scope.

Lemma set_nth_mid {A} (a b : list A) x y : set_nth (List.length a) x (a ++ y :: b) = a ++ x :: b.
Proof. induction a as [|z a IH]; simpl; auto. rewrite IH. auto. Qed.
Lemma nth_error_mid {A} (a b : list A) y : nth_error (a ++ y :: b) (List.length a) = Some y.
Proof. induction a; simpl; auto. Qed.
Lemma nth_error_other {A} (a b : list A) x y k : k <> List.length a -> nth_error (a ++ x :: b) k = nth_error (a ++ y :: b) k.
Proof. revert k; induction a as [|z a IH]; intros [|k] H; simpl in *; auto; try congruence. Qed.

Section Sched.
  Variable hash : text -> digest.
  Variable insert_fails : digest -> bool.
  Hypothesis Hif : forall h, insert_fails h = false.
  Variable o : opts.
  Hypothesis Hg : o_gdb o = true.
  Hypothesis Hnm : o_no_mem o = false.
  Variable F : list (list Z).
  Variables n L K lf : nat.
  Variable m : mode.
  Hypothesis Hlf : (lo_bound n L K <= lf)%nat.
  Variable r : cset.
  Variables (p1 : pstate) (done1 : list entry) (pend1 : list cset).
  Hypothesis I1 : Inv hash o F n L K lf m [] r p1 done1 pend1.
  Notation CORE := (core hash o F n L K lf m r done1 pend1).
  Notation WORK := (work hash insert_fails o []).

  Definition reply_of (w : wk) : option reply :=
    if wk_over w then Some (Answer (p_sat (wk_p w)) (p_children (wk_p w)) (p_solution (wk_p w))) else None.
  Definition load (W : list wk) : nat :=
    fold_right (fun w s => ((if wk_over w then 0 else 1 + weight (wk_pend w)) + s)%nat) 0%nat W.
  Lemma load_app A B : load (A ++ B) = (load A + load B)%nat.
  Proof. induction A as [|a A IH]; simpl; auto. fold (load A) (load (A ++ B)). rewrite IH. lia. Qed.

  (* the finished workers of W are finished, in the same state, in W' *)
  Definition keeps (W W' : list wk) : Prop :=
    List.length W' = List.length W /\ forall j w, nth_error W j = Some w -> wk_over w = true -> nth_error W' j = Some w.
  Lemma keeps_refl W : keeps W W. Proof. split; auto. Qed.
  Lemma keeps_trans A B C : keeps A B -> keeps B C -> keeps A C.
  Proof. intros [H1 H2] [H3 H4]. split; [congruence|]. auto. Qed.
  Lemma keeps_mid Wa w w' Wb : wk_over w = false -> keeps (Wa ++ w :: Wb) (Wa ++ w' :: Wb).
  Proof.
    intros Ho. split; [rewrite !app_length; reflexivity|]. intros j v Hj Hv.
    destruct (Nat.eq_dec j (List.length Wa)) as [->|Hne].
    - rewrite nth_error_mid in Hj. injection Hj as ->. congruence.
    - rewrite (nth_error_other Wa Wb w' w) by auto. auto.
  Qed.

  Definition busy (W : list wk) (k : nat) : Prop := exists w, nth_error W k = Some w /\ wk_over w = false.

  Lemma work_spec W Won c k : CORE Won (cr_table c) W -> cr_procs c = map proc W ->
    exists c' W' Won', (forall lf', (lf <= lf')%nat -> WORK lf' m k c = c') /\
      CORE Won' (cr_table c') W' /\ cr_procs c' = map proc W' /\ keeps W W' /\ (load W' <= load W)%nat /\
      (busy W k -> (load W' < load W)%nat) /\
      ((cr_poll c' = cr_poll c /\ (forall j, busy W j <-> busy W' j)) \/
       exists w, nth_error W' k = Some w /\ wk_over w = true /\ (forall j, busy W' j <-> busy W j /\ j <> k) /\
         exists rep, reply_of w = Some rep /\ cr_poll c' = deliver k rep (cr_poll c)).
  Proof.
    intros C Ep. destruct c as [T procs pl]. cbn [cr_table cr_procs cr_poll] in *. subst procs.
    assert (Idle : ~ busy W k -> exists c' W' Won', (forall lf', (lf <= lf')%nat -> WORK lf' m k (mkCrew T (map proc W) pl) = c') /\
      CORE Won' (cr_table c') W' /\ cr_procs c' = map proc W' /\ keeps W W' /\ (load W' <= load W)%nat /\
      (busy W k -> (load W' < load W)%nat) /\
      ((cr_poll c' = pl /\ (forall j, busy W j <-> busy W' j)) \/
       exists w, nth_error W' k = Some w /\ wk_over w = true /\ (forall j, busy W' j <-> busy W j /\ j <> k) /\
         exists rep, reply_of w = Some rep /\ cr_poll c' = deliver k rep pl)).
    { intros Hb. exists (mkCrew T (map proc W) pl), W, Won. cbn [cr_table cr_procs cr_poll]. split.
      - intros lf' _. unfold work. cbn [cr_procs]. rewrite nth_error_map. destruct (nth_error W k) as [w|] eqn:E; cbn [option_map]; auto.
        unfold proc. destruct (wk_over w) eqn:Eo; auto. exfalso. apply Hb. exists w; auto.
      - repeat (split; auto using keeps_refl); [tauto|]. left. split; auto. tauto. }
    destruct (nth_error W k) as [w|] eqn:E.
    2:{ apply Idle. intros (w & Hw & _). congruence. }
    destruct (wk_over w) eqn:Eo.
    { apply Idle. intros (w' & Hw & Ho). congruence. }
    clear Idle. destruct (nth_error_split W k E) as (Wa & Wb & -> & <-).
    assert (Hb : forall w' j, (wk_over w' = false -> busy (Wa ++ w :: Wb) j <-> busy (Wa ++ w' :: Wb) j) /\
      (wk_over w' = true -> busy (Wa ++ w' :: Wb) j <-> busy (Wa ++ w :: Wb) j /\ j <> List.length Wa)).
    { intros w' j. unfold busy. destruct (Nat.eq_dec j (List.length Wa)) as [->|Hne].
      - rewrite !nth_error_mid. split; intros Ho.
        + split; intros _; eexists; split; eauto.
        + split; [intros (v & Hv & Hv')|intros [_ []]; auto]. injection Hv as <-. congruence.
      - rewrite (nth_error_other Wa Wb w' w) by auto. split; tauto. }
    assert (Enth : nth_error (map proc (Wa ++ w :: Wb)) (List.length Wa) = Some (Some (wk_p w))).
    { rewrite nth_error_map, E. cbn [option_map]. unfold proc. rewrite Eo. auto. }
    assert (Eset : forall w', set_nth (List.length Wa) (proc w') (map proc (Wa ++ w :: Wb)) = map proc (Wa ++ w' :: Wb)).
    { intros w'. rewrite !map_app. cbn [map]. rewrite <- (map_length proc Wa). apply set_nth_mid. }
    destruct (loop_done o (wk_p w)) eqn:El.
    - set (w' := mkWk (wk_x w) (wk_p w) (wk_done w) (wk_pend w) true).
      exists (mkCrew T (map proc (Wa ++ w' :: Wb)) (deliver (List.length Wa) (Answer (p_sat (wk_p w)) (p_children (wk_p w)) (p_solution (wk_p w))) pl)),
        (Wa ++ w' :: Wb), Won. cbn [cr_table cr_procs cr_poll].
      split.
      { intros lf' _. unfold work. cbn [cr_procs cr_table cr_poll]. rewrite Enth, El. rewrite <- (Eset w'). reflexivity. }
      assert (Hld : (load (Wa ++ w' :: Wb) < load (Wa ++ w :: Wb))%nat).
      { rewrite !load_app. cbn [load fold_right wk_over w']. rewrite Eo. fold (load Wb). lia. }
      split; [apply core_finish; auto|]. split; auto. split; [apply keeps_mid; auto|]. split; [lia|]. split; [auto|].
      right. exists w'. rewrite nth_error_mid. split; auto. split; auto. split; [intros j; apply Hb; auto|].
      eexists. split; [|reflexivity]. reflexivity.
    - destruct (core_step hash insert_fails Hif o Hg Hnm F n L K lf m Hlf r p1 done1 pend1 I1 Won T Wa w Wb C Eo El)
        as (p' & done' & pend' & Won' & Es & C' & Hwt).
      set (w' := mkWk (wk_x w) p' done' pend' false) in *.
      exists (mkCrew (p_db p') (map proc (Wa ++ w' :: Wb)) pl), (Wa ++ w' :: Wb), Won'. cbn [cr_table cr_procs cr_poll].
      split.
      { intros lf' Hle. unfold work. cbn [cr_procs cr_table cr_poll]. rewrite Enth, El, (Es lf' Hle). rewrite <- (Eset w'). reflexivity. }
      assert (Hld : (load (Wa ++ w' :: Wb) < load (Wa ++ w :: Wb))%nat).
      { rewrite !load_app. cbn [load fold_right wk_over wk_pend w']. rewrite Eo. fold (load Wb). lia. }
      split; auto. split; auto. split; [apply keeps_mid; auto|]. split; [lia|]. split; [auto|].
      left. split; auto. intros j. apply Hb. reflexivity.
  Qed.

  Variable sched : nat -> action.
  Notation LINGER := (lingering hash insert_fails o [] sched).
  Lemma linger_spec : forall k t W Won c, CORE Won (cr_table c) W -> cr_procs c = map proc W ->
    exists c' W' Won', (forall lf', (lf <= lf')%nat -> LINGER k lf' m t c = c') /\
      CORE Won' (cr_table c') W' /\ keeps W W' /\ pl_state (cr_poll c') = pl_state (cr_poll c).
  Proof.
    induction k as [|k IH]; intros t W Won c C Ep; cbn [lingering].
    - exists c, W, Won. auto using keeps_refl.
    - destruct (sched t) as [j|].
      + destruct (work_spec W Won c j C Ep) as (c1 & W1 & Won1 & E1 & C1 & Ep1 & Kp & _ & _ & Hpl).
        destruct (IH (S t) W1 Won1 c1 C1 Ep1) as (c' & W' & Won' & E' & C' & Kp' & Hs).
        exists c', W', Won'. split; [intros lf' Hle; rewrite (E1 lf' Hle); auto|]. split; auto. split; [eapply keeps_trans; eauto|].
        rewrite Hs. destruct Hpl as [[-> _]|(w & _ & _ & _ & rep & _ & ->)]; reflexivity.
      + destruct (IH (S t) W Won c C Ep) as (c' & W' & Won' & E' & C' & Kp' & Hs). exists c', W', Won'. auto.
  Qed.

  (* the main process and its workers *)
  Variable base : pstate.
  Definition taken (W : list wk) (cs : list worker) : Prop := forall v, In v cs ->
    exists w, nth_error W (w_no v) = Some w /\ wk_over w = true /\ w_reply v = reply_of w.
  Lemma taken_keeps W W' cs : keeps W W' -> taken W cs -> taken W' cs.
  Proof. intros [_ H] Ht v Hv. destruct (Ht v Hv) as (w & A & B & E). exists w; auto. Qed.

  Record full (W : list wk) (Won : list entry) (cs : list worker) (c : MShare.crew) : Prop := mkFull {
    fu_core : CORE Won (cr_table c) W;
    fu_procs : cr_procs c = map proc W;
    fu_ws : forall v, In v (pl_workers (cr_poll c)) -> exists w, nth_error W (w_no v) = Some w /\ w_reply v = reply_of w;
    fu_cs : taken W cs;
    fu_perm : Permutation (map w_no (pl_workers (cr_poll c)) ++ map w_no cs) (seq 0 (List.length W));
    fu_state : pl_state (cr_poll c) = fold_left absorb_w cs base
  }.
  Definition toil (W : list wk) (c : MShare.crew) : nat := (load W + List.length (pl_workers (cr_poll c)))%nat.

  Lemma full_work W Won cs c k : full W Won cs c ->
    exists c' W' Won', (forall lf', (lf <= lf')%nat -> WORK lf' m k c = c') /\ full W' Won' cs c' /\ keeps W W' /\
      (toil W' c' <= toil W c)%nat /\ (busy W k -> (toil W' c' < toil W c)%nat) /\ (forall j, busy W j -> busy W' j \/ j = k).
  Proof.
    intros [A1 A2 A3 A4 A5 A6]. destruct (work_spec W Won c k A1 A2) as (c' & W' & Won' & E & C' & Ep' & Kp & L1 & L2 & Hpl).
    exists c', W', Won'. split; auto.
    destruct Hpl as [[Epl Hb]|(w & Hw & Ho & Hb & rep & Erep & Epl)].
    - assert (Hold : forall j w, nth_error W j = Some w -> exists w', nth_error W' j = Some w' /\ reply_of w' = reply_of w).
      { intros j w Hw. destruct (wk_over w) eqn:Eo.
        - exists w. split; auto. apply (proj2 Kp); auto.
        - assert (B : busy W j) by (exists w; auto). apply Hb in B as (w' & Hw' & Ho'). exists w'. split; auto.
          unfold reply_of. rewrite Eo, Ho'. auto. }
      split.
      { constructor; auto; rewrite ?Epl; auto.
        - intros v Hv. destruct (A3 v Hv) as (w & Hw & Er). destruct (Hold _ _ Hw) as (w' & Hw' & Er'). exists w'. split; auto. congruence.
        - eapply taken_keeps; eauto.
        - rewrite (proj1 Kp). auto. }
      split; auto. unfold toil. rewrite Epl. split; [lia|]. split; [intros B; specialize (L2 B); lia|].
      intros j B. left. apply Hb. auto.
    - assert (Hws : forall v, In v (pl_workers (cr_poll c')) -> exists w, nth_error W' (w_no v) = Some w /\ w_reply v = reply_of w).
      { rewrite Epl. cbn [deliver pl_workers]. intros v Hv. apply in_map_iff in Hv as (v0 & Ev & Hv0).
        destruct (Nat.eqb_spec (w_no v0) k) as [Ek|Ek]; subst v.
        - exists w. cbn [w_no w_reply]. rewrite Ek. split; auto.
        - destruct (A3 v0 Hv0) as (w0 & Hw0 & Er0). destruct (wk_over w0) eqn:Eo0.
          + exists w0. split; auto. apply (proj2 Kp); auto.
          + assert (B : busy W (w_no v0)) by (exists w0; auto).
            assert (B' : busy W' (w_no v0)) by (apply Hb; auto). destruct B' as (w' & Hw' & Ho'). exists w'. split; auto.
            rewrite Er0. unfold reply_of. rewrite Eo0, Ho'. auto. }
      assert (Hno : map w_no (pl_workers (cr_poll c')) = map w_no (pl_workers (cr_poll c))).
      { rewrite Epl. cbn [deliver pl_workers]. rewrite map_map. apply map_ext. intros v. destruct (w_no v =? k)%nat; auto. }
      split.
      { constructor; auto.
        - eapply taken_keeps; eauto.
        - rewrite Hno, (proj1 Kp). auto.
        - rewrite Epl. exact A6. }
      split; auto. unfold toil. replace (List.length (pl_workers (cr_poll c'))) with (List.length (pl_workers (cr_poll c))).
      2:{ rewrite <- (map_length w_no (pl_workers (cr_poll c'))), Hno, map_length. auto. }
      split; [lia|]. split; [intros B; specialize (L2 B); lia|].
      intros j B. destruct (Nat.eq_dec j k); auto. left. apply Hb. auto.
  Qed.

  Lemma full_poll W Won cs c : full W Won cs c -> pl_workers (cr_poll c) <> [] ->
    exists pl stop, poll_step (o_exit o) (fun _ => true) (cr_poll c) = Ok (pl, stop) /\
      ((stop = true /\ o_exit o = true /\ exists v, pl_state pl = fold_left absorb_w (cs ++ [v]) base /\ taken W (cs ++ [v]) /\ w_truthy v = true) \/
       (stop = false /\ exists cs', full W Won cs' (mkCrew (cr_table c) (cr_procs c) pl) /\
          (List.length (pl_workers pl) <= List.length (pl_workers (cr_poll c)))%nat /\
          ((forall k, ~ busy W k) -> (List.length (pl_workers pl) < List.length (pl_workers (cr_poll c)))%nat))).
  Proof.
    intros [A1 A2 A3 A4 A5 A6] Hne. destruct c as [T procs [ws i st]]. cbn [cr_table cr_procs cr_poll pl_workers pl_state] in *.
    unfold poll_step. cbn [pl_workers pl_i pl_state].
    set (j := (i mod List.length ws)%nat).
    assert (Hj : (j < List.length ws)%nat) by (apply Nat.mod_upper_bound; destruct ws; simpl; congruence).
    destruct (nth_error ws j) as [v|] eqn:Ev; [|apply nth_error_None in Ev; lia].
    destruct (A3 v (nth_error_In _ _ Ev)) as (w & Hw & Er). rewrite Er. unfold reply_of.
    destruct (wk_over w) eqn:Eo.
    - assert (Htk : taken W (cs ++ [v])).
      { intros u Hu. apply in_app_iff in Hu as [Hu|[<-|[]]]; auto. exists w; auto. }
      assert (Habs : absorb st (p_sat (wk_p w)) (p_children (wk_p w)) (p_solution (wk_p w)) = fold_left absorb_w (cs ++ [v]) base).
      { rewrite fold_left_app, <- A6. cbn [fold_left]. unfold absorb_w. rewrite Er. unfold reply_of. rewrite Eo. auto. }
      destruct (solution_truthy (p_solution (wk_p w)) && o_exit o) eqn:Et.
      + apply andb_true_iff in Et as [E1 E2]. eexists _, true. split; [reflexivity|]. left. split; auto. split; auto.
        exists v. cbn [pl_state]. split; auto. split; auto. unfold w_truthy. rewrite Er. unfold reply_of. rewrite Eo. auto.
      + eexists _, false. split; [reflexivity|]. right. split; auto. exists (cs ++ [v]).
        pose proof (pop_nth_Perm ws j v Ev) as HP. cbn [pl_workers].
        assert (Hlen : List.length ws = S (List.length (pop_nth j ws))) by apply (Permutation_length HP).
        split; [|split; lia].
        constructor; cbn [cr_table cr_procs cr_poll pl_workers pl_state]; auto.
        * intros u Hu. apply A3. eapply pop_nth_In; eauto.
        * rewrite <- A5. rewrite map_app. cbn [map]. apply (Permutation_map w_no) in HP. rewrite HP. cbn [map].
          rewrite app_assoc. rewrite <- Permutation_cons_append. cbn [app]. auto.
    - eexists _, false. split; [reflexivity|]. right. split; auto. exists cs. cbn [pl_workers].
      split; [constructor; auto|]. split; [lia|]. intros H. exfalso. apply (H (w_no v)). exists w; auto.
  Qed.

  Variable max : nat.
  Variable linger : nat.
  Hypothesis Hfair : fair_sched max sched.
  Notation LOOP := (share_loop hash insert_fails o [] sched linger).

  Definition settled (W : list wk) (cs : list worker) : Prop :=
    Permutation (map w_no cs) (seq 0 (List.length W)) \/ (o_exit o = true /\ exists v, In v cs /\ w_truthy v = true).
  Definition ended (c : MShare.crew) : Prop := exists W Won cs, CORE Won (cr_table c) W /\ taken W cs /\ settled W cs /\
    pl_state (cr_poll c) = fold_left absorb_w cs base.

  Lemma loop_mono : forall f f' lf' t c c', (f <= f')%nat -> LOOP f lf' m t c = Ok c' -> LOOP f' lf' m t c = Ok c'.
  Proof.
    induction f as [|f IH]; intros f' lf' t c c' Hle E.
    - cbn [share_loop] in E. destruct f'; cbn [share_loop]; destruct (pl_workers (cr_poll c)); auto; discriminate.
    - destruct f' as [|f']; [lia|]. cbn [share_loop] in *. destruct (pl_workers (cr_poll c)) as [|v ws]; auto.
      destruct (sched t) as [k|]; [apply (IH f'); [lia|auto]|].
      destruct (poll_step _ _ _) as [[pl stop]| |]; cbn [bind] in *; try discriminate. destruct stop; auto. apply (IH f'); [lia|auto].
  Qed.
  Definition loops (t : nat) (c : MShare.crew) : Prop :=
    exists c' N, ended c' /\ forall lf', (lf <= lf')%nat -> LOOP N lf' m t c = Ok c'.

  Lemma busy_dec W : (exists k, (k < List.length W)%nat /\ busy W k) \/ (forall k, ~ busy W k).
  Proof.
    induction W as [|w W [(k & Hk & Hb)|IH]].
    - right. intros [|k] (w & Hw & _); discriminate.
    - left. exists (S k). split; [simpl; lia|]. exact Hb.
    - destruct (wk_over w) eqn:Eo.
      + right. intros [|k] (v & Hv & Ho); cbn in Hv; [congruence|]. apply (IH k). exists v; auto.
      + left. exists 0%nat. split; [simpl; lia|]. exists w; auto.
  Qed.

  (* one move of the schedule *)
  Lemma move t W Won cs c : full W Won cs c -> pl_workers (cr_poll c) <> [] ->
    loops t c \/ exists c' W' Won' cs', full W' Won' cs' c' /\ List.length W' = List.length W /\ (toil W' c' <= toil W c)%nat /\
      (forall k, sched t = Work k -> (busy W k -> (toil W' c' < toil W c)%nat)) /\
      (sched t = Poll -> (forall k, ~ busy W k) -> (toil W' c' < toil W c)%nat) /\
      (forall j, busy W j -> busy W' j \/ (toil W' c' < toil W c)%nat) /\
      ((forall k, ~ busy W k) -> forall k, ~ busy W' k \/ (toil W' c' < toil W c)%nat) /\
      (loops (S t) c' -> loops t c).
  Proof.
    intros Fu Hne. destruct (sched t) as [k|] eqn:Es.
    - right. destruct (full_work W Won cs c k Fu) as (c' & W' & Won' & E & Fu' & Kp & L1 & L2 & Hb).
      exists c', W', Won', cs. split; auto. split; [apply Kp|]. split; auto.
      split; [intros k' Hk'; injection Hk' as <-; auto|]. split; [discriminate|]. split.
      + intros j B. destruct (Hb j B) as [B1| ->]; auto.
      + split.
        * intros Hn k'. left. intros (w & Hw & Ho).
          assert (Hlt : (k' < List.length W)%nat) by (rewrite <- (proj1 Kp); apply nth_error_Some; congruence).
          destruct (nth_error W k') as [w0|] eqn:E0; [|apply nth_error_None in E0; lia].
          destruct (wk_over w0) eqn:Eo0; [|apply (Hn k'); exists w0; auto].
          pose proof (proj2 Kp k' w0 E0 Eo0). congruence.
        * intros (cf & N & Hcf & EN). exists cf, (S N). split; auto. intros lf' Hle. cbn [share_loop].
          destruct (pl_workers (cr_poll c)) as [|v ws] eqn:Ews; [congruence|]. rewrite Es, (E lf' Hle). auto.
    - destruct (full_poll W Won cs c Fu Hne) as (pl & stop & Ep & [(-> & Hx & v & Hst & Htk & Htr)|(-> & cs' & Fu' & L1 & L2)]).
      + left. destruct (linger_spec linger (S t) W Won (mkCrew (cr_table c) (cr_procs c) pl)) as (cf & W' & Won' & E' & C' & Kp & Hs).
        { apply Fu. } { apply Fu. }
        exists cf, 1%nat. split.
        * exists W', Won', (cs ++ [v]). split; auto. split; [eapply taken_keeps; eauto|]. split.
          -- right. split; auto. exists v. split; auto. apply in_app_iff; simpl; auto.
          -- rewrite Hs. cbn [cr_poll]. auto.
        * intros lf' Hle. cbn [share_loop]. destruct (pl_workers (cr_poll c)) as [|u ws] eqn:Ews; [congruence|]. rewrite Es, Ep. cbn [bind].
          rewrite (E' lf' Hle). auto.
      + right. exists (mkCrew (cr_table c) (cr_procs c) pl), W, Won, cs'. split; auto. split; auto. unfold toil. cbn [cr_poll].
        split; [lia|]. split; [discriminate|]. split; [intros _ Hn; specialize (L2 Hn); lia|]. split; [auto|]. split; [auto|].
        intros (cf & N & Hcf & EN). exists cf, (S N). split; auto. intros lf' Hle. cbn [share_loop].
        destruct (pl_workers (cr_poll c)) as [|u ws] eqn:Ews; [congruence|]. rewrite Es, Ep. cbn [bind]. auto.
  Qed.

  Lemma loop_ends : forall w W Won cs c t, (List.length W <= max)%nat -> full W Won cs c -> (toil W c <= w)%nat -> loops t c.
  Proof.
    induction w as [|w IH]; intros W Won cs c t Hmax Fu Hw.
    - assert (Hnil : pl_workers (cr_poll c) = []) by (unfold toil in Hw; destruct (pl_workers (cr_poll c)); simpl in Hw; auto; lia).
      exists c, 0%nat. split.
      + exists W, Won, cs. split; [apply Fu|]. split; [apply Fu|]. split; [|apply Fu]. left. pose proof (fu_perm _ _ _ _ Fu) as HP. rewrite Hnil in HP. exact HP.
      + intros lf' _. cbn [share_loop]. rewrite Hnil. auto.
    - (* wait for the move that counts *)
      assert (Wait : forall d t W Won cs c, (List.length W <= max)%nat -> full W Won cs c -> (toil W c <= S w)%nat ->
        (exists k, busy W k /\ sched (t + d)%nat = Work k) \/ ((forall k, ~ busy W k) /\ sched (t + d)%nat = Poll) -> loops t c).
      { clear W Won cs c t Hmax Fu Hw. induction d as [|d IHd]; intros t W Won cs c Hmax Fu Hw Hd.
        - rewrite Nat.add_0_r in Hd. destruct (pl_workers (cr_poll c)) as [|v ws] eqn:Ews.
          { exists c, 0%nat. split.
            - exists W, Won, cs. split; [apply Fu|]. split; [apply Fu|]. split; [|apply Fu]. left. pose proof (fu_perm _ _ _ _ Fu) as HP. rewrite Ews in HP. exact HP.
            - intros lf' _. cbn [share_loop]. rewrite Ews. auto. }
          destruct (move t W Won cs c Fu) as [H|(c' & W' & Won' & cs' & Fu' & Hlen & L1 & L2 & L3 & L4 & L5 & H)]; [congruence|auto|].
          apply H. apply (IH W' Won' cs' c'); auto; [lia|].
          destruct Hd as [(k & Hb & Es)|(Hn & Es)]; [specialize (L2 k Es Hb)|specialize (L3 Es Hn)]; lia.
        - destruct (pl_workers (cr_poll c)) as [|v ws] eqn:Ews.
          { exists c, 0%nat. split.
            - exists W, Won, cs. split; [apply Fu|]. split; [apply Fu|]. split; [|apply Fu]. left. pose proof (fu_perm _ _ _ _ Fu) as HP. rewrite Ews in HP. exact HP.
            - intros lf' _. cbn [share_loop]. rewrite Ews. auto. }
          destruct (move t W Won cs c Fu) as [H|(c' & W' & Won' & cs' & Fu' & Hlen & L1 & L2 & L3 & L4 & L5 & H)]; [congruence|auto|].
          apply H. destruct (Nat.lt_ge_cases (toil W' c') (toil W c)) as [Hlt|Hge].
          { apply (IH W' Won' cs' c'); auto; lia. }
          apply (IHd (S t) W' Won' cs' c'); auto; [lia|lia|]. replace (S t + d)%nat with (t + S d)%nat by lia.
          destruct Hd as [(k & Hb & Es)|(Hn & Es)].
          + left. exists k. split; auto. destruct (L4 k Hb); auto. lia.
          + right. split; auto. intros k. destruct (L5 Hn k); auto. lia. }
      destruct (busy_dec W) as [(k & Hk & Hb)|Hn].
      + destruct (proj1 (Hfair t) k) as (t' & Ht' & Es); [lia|]. apply (Wait (t' - t)%nat t W Won cs c); auto.
        left. exists k. replace (t + (t' - t))%nat with t' by lia. auto.
      + destruct (proj2 (Hfair t)) as (t' & Ht' & Es). apply (Wait (t' - t)%nat t W Won cs c); auto.
        right. replace (t + (t' - t))%nat with t' by lia. auto.
  Qed.
End Sched.
