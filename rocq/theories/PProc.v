(* PProc.v -- the multi-process run: the collecting loop, the workers, the merged graph. *)
From Coq Require Import String Ascii ZArith List Bool Lia Permutation Sorted.
From Verif Require Import Spec PyBase MSet MText MQueue MDb MSolver MProc SpecRun SpecProc PLib PClause PRename PLo
  PNorm PEval PText PQueue PNode PStep PRun PStats PSolver PSolve PSearch PGraph.
Import ListNotations.
Open Scope Z_scope.

(* ---- lists ---- *)
Lemma pop_nth_Perm {A} : forall (l : list A) i x, nth_error l i = Some x -> Permutation l (x :: pop_nth i l).
Proof.
  induction l as [|a l IH]; intros [|i] x E; try discriminate; cbn in E |- *.
  - injection E as ->. auto.
  - eapply perm_trans; [apply perm_skip, (IH i x E)|apply perm_swap].
Qed.
Lemma set_nth_length {A} : forall (l : list A) i x, List.length (set_nth i x l) = List.length l.
Proof. induction l; intros [|i] x; simpl; auto. Qed.

(* ---- the collecting loop with workers that all answer ---- *)
Definition absorb_w (p : pstate) (w : worker) : pstate :=
  match w_reply w with Some (Answer sat ch sol) => absorb p sat ch sol | _ => p end.
Definition answers (w : worker) : Prop := exists sat ch sol, w_reply w = Some (Answer sat ch sol).
Definition w_truthy (w : worker) : bool :=
  match w_reply w with Some (Answer _ _ sol) => solution_truthy sol | _ => false end.

Lemma fair_all arrived (ws : list worker) : fair arrived ->
  exists T, forall t w, (T <= t)%nat -> In w ws -> arrived t (w_no w) = true.
Proof.
  intros Hf. induction ws as [|w ws (T & IH)].
  - exists 0%nat. intros t w _ [].
  - destruct (Hf (w_no w)) as [T' HT]. exists (Nat.max T T'). intros t w' Ht [<-|Hw].
    + apply HT. lia.
    + apply IH; auto. lia.
Qed.

Lemma poll_answers exit arrived : fair arrived -> forall n ws t i p, List.length ws = n ->
  Forall answers ws ->
  exists N st cs rest, (forall fuel, (N <= fuel)%nat -> poll_loop fuel exit arrived t (mkPoll ws i p) = Ok st) /\
    Permutation ws (cs ++ rest) /\ pl_state st = fold_left absorb_w cs p /\
    (rest = [] \/ (exit = true /\ exists w, In w cs /\ w_truthy w = true)).
Proof.
  intros Hf. induction n as [|n IH]; intros ws t i p Hn Hall.
  { destruct ws; [|discriminate]. exists 0%nat, (mkPoll [] i p), [], []. split; [|split; [auto|split; [reflexivity|auto]]].
    intros [|]; reflexivity. }
  destruct (fair_all arrived ws Hf) as [T HT].
  remember (T - t)%nat as d eqn:Ed. revert t i Ed.
  induction d as [|d IHd]; intros t i Ed.
  - (* everything has arrived *)
    assert (Hl : (i mod List.length ws < List.length ws)%nat) by (apply Nat.mod_upper_bound; lia).
    destruct (nth_error ws (i mod List.length ws)) as [w|] eqn:Ew.
    2:{ apply nth_error_None in Ew. lia. }
    pose proof (nth_error_In _ _ Ew) as Hin. pose proof (proj1 (Forall_forall _ _) Hall w Hin) as (sat & ch & sol & Er).
    assert (Ha : arrived t (w_no w) = true) by (apply HT; auto; lia).
    pose proof (pop_nth_Perm _ _ _ Ew) as HP.
    destruct (solution_truthy sol && exit) eqn:Ex.
    + exists 1%nat. eexists. exists [w], (pop_nth (i mod List.length ws) ws). split; [|split; [exact HP|split]].
      * intros [|fuel] Hfu; [lia|]. destruct ws as [|w0 ws0]; [discriminate|]. cbn [poll_loop pl_workers].
        unfold poll_step. cbn [pl_workers pl_i pl_state]. rewrite Ew, Er, Ha, Ex. cbn [bind]. reflexivity.
      * cbn [pl_state fold_left]. unfold absorb_w. rewrite Er. reflexivity.
      * right. apply andb_true_iff in Ex as [E1 E2]. split; auto. exists w. split; [left; auto|].
        unfold w_truthy. rewrite Er. auto.
    + destruct (IH (pop_nth (i mod List.length ws) ws) (S t) (i mod List.length ws)%nat (absorb p sat ch sol))
        as (N & st & cs & rest & A & B & C & D).
      { apply Permutation_length in HP. simpl in HP. lia. }
      { apply Forall_forall. intros w' Hw'. apply (proj1 (Forall_forall _ _) Hall).
        apply (Permutation_in _ (Permutation_sym HP)). right; auto. }
      exists (S N), st, (w :: cs), rest. split; [|split; [|split]].
      * intros [|fuel] Hfu; [lia|]. destruct ws as [|w0 ws0]; [discriminate|]. cbn [poll_loop pl_workers].
        unfold poll_step. cbn [pl_workers pl_i pl_state]. rewrite Ew, Er, Ha, Ex. cbn [bind]. apply A. lia.
      * eapply perm_trans; [exact HP|]. cbn [app]. apply perm_skip. exact B.
      * rewrite C. cbn [fold_left]. unfold absorb_w at 3. rewrite Er. reflexivity.
      * destruct D as [D|(D1 & w' & D2 & D3)]; [left; auto|right]. split; auto. exists w'. split; [right; auto|auto].
  - assert (Hl : (i mod List.length ws < List.length ws)%nat) by (apply Nat.mod_upper_bound; lia).
    destruct (nth_error ws (i mod List.length ws)) as [w|] eqn:Ew.
    2:{ apply nth_error_None in Ew. lia. }
    pose proof (nth_error_In _ _ Ew) as Hin. pose proof (proj1 (Forall_forall _ _) Hall w Hin) as (sat & ch & sol & Er).
    pose proof (pop_nth_Perm _ _ _ Ew) as HP.
    destruct (arrived t (w_no w)) eqn:Ha.
    + destruct (solution_truthy sol && exit) eqn:Ex.
      * exists 1%nat. eexists. exists [w], (pop_nth (i mod List.length ws) ws). split; [|split; [exact HP|split]].
        -- intros [|fuel] Hfu; [lia|]. destruct ws as [|w0 ws0]; [discriminate|]. cbn [poll_loop pl_workers].
           unfold poll_step. cbn [pl_workers pl_i pl_state]. rewrite Ew, Er, Ha, Ex. cbn [bind]. reflexivity.
        -- cbn [pl_state fold_left]. unfold absorb_w. rewrite Er. reflexivity.
        -- right. apply andb_true_iff in Ex as [E1 E2]. split; auto. exists w. split; [left; auto|].
           unfold w_truthy. rewrite Er. auto.
      * destruct (IH (pop_nth (i mod List.length ws) ws) (S t) (i mod List.length ws)%nat (absorb p sat ch sol))
          as (N & st & cs & rest & A & B & C & D).
        { apply Permutation_length in HP. simpl in HP. lia. }
        { apply Forall_forall. intros w' Hw'. apply (proj1 (Forall_forall _ _) Hall).
          apply (Permutation_in _ (Permutation_sym HP)). right; auto. }
        exists (S N), st, (w :: cs), rest. split; [|split; [|split]].
        -- intros [|fuel] Hfu; [lia|]. destruct ws as [|w0 ws0]; [discriminate|]. cbn [poll_loop pl_workers].
           unfold poll_step. cbn [pl_workers pl_i pl_state]. rewrite Ew, Er, Ha, Ex. cbn [bind]. apply A. lia.
        -- eapply perm_trans; [exact HP|]. cbn [app]. apply perm_skip. exact B.
        -- rewrite C. cbn [fold_left]. unfold absorb_w at 3. rewrite Er. reflexivity.
        -- destruct D as [D|(D1 & w' & D2 & D3)]; [left; auto|right]. split; auto. exists w'. split; [right; auto|auto].
    + destruct (IHd (S t) (S (i mod List.length ws))) as (N & st & cs & rest & A & B & C & D); [lia|].
      exists (S N), st, cs, rest. split; [|auto].
      intros [|fuel] Hfu; [lia|]. destruct ws as [|w0 ws0]; [discriminate|]. cbn [poll_loop pl_workers].
      unfold poll_step. cbn [pl_workers pl_i pl_state]. rewrite Ew, Er, Ha. cbn [bind]. apply A. lia.
Qed.

(* ---- in general: some workers may have failed or died ---- *)
Definition silent (w : worker) : Prop := w_reply w = None \/ w_reply w = Some Failed.
Lemma set_nth_In {A} : forall (l : list A) i x y, In y (set_nth i x l) -> y = x \/ In y l.
Proof.
  induction l as [|a l IH]; intros [|i] x y H; cbn in H |- *; auto.
  - destruct H; auto.
  - destruct H as [H|H]; auto. destruct (IH i x y H); auto.
Qed.
Lemma set_nth_at {A} : forall (l : list A) i x, (i < List.length l)%nat -> In x (set_nth i x l).
Proof. induction l as [|a l IH]; intros [|i] x H; simpl in H |- *; try lia; auto. right. apply IH. lia. Qed.
Lemma set_nth_other {A} : forall (l : list A) i x y z, nth_error l i = Some z -> In y l -> y = z \/ In y (set_nth i x l).
Proof.
  induction l as [|a l IH]; intros [|i] x y z E H; cbn in E, H |- *; try tauto.
  - injection E as ->. destruct H; auto.
  - destruct H as [H|H]; auto. destruct (IH i x y z E H); auto.
Qed.
Lemma pop_nth_In {A} (l : list A) i x : In x (pop_nth i l) -> In x l.
Proof.
  revert i. induction l as [|a l IH]; intros [|i] H; cbn in H |- *; auto. destruct H as [H|H]; eauto.
Qed.
Lemma pop_nth_other {A} : forall (l : list A) i y z, nth_error l i = Some z -> In y l -> y = z \/ In y (pop_nth i l).
Proof.
  intros l i y z E H. apply pop_nth_Perm in E. apply (Permutation_in _ E) in H as [H|H]; auto.
Qed.

(* what one round does *)
Inductive round (exit : bool) (arr : nat -> bool) (ws : list worker) (i : nat) (p : pstate) : poll -> bool -> Prop :=
| rd_wait w : nth_error ws (i mod List.length ws) = Some w ->
    w_reply w = None \/ arr (w_no w) = false ->
    round exit arr ws i p (mkPoll ws (S (i mod List.length ws)) p) false
| rd_failed w q : nth_error ws (i mod List.length ws) = Some w -> w_reply w = Some Failed ->
    arr (w_no w) = true -> queue_insert (p_queue p) (w_node w) = Ok q ->
    round exit arr ws i p (mkPoll (set_nth (i mod List.length ws) (mkWorker (w_no w) (w_node w) None) ws)
                                  (i mod List.length ws) (with_queue p q)) false
| rd_stop w sat ch sol : nth_error ws (i mod List.length ws) = Some w -> w_reply w = Some (Answer sat ch sol) ->
    arr (w_no w) = true -> solution_truthy sol = true -> exit = true ->
    round exit arr ws i p (mkPoll ws (i mod List.length ws) (absorb p sat ch sol)) true
| rd_taken w sat ch sol : nth_error ws (i mod List.length ws) = Some w -> w_reply w = Some (Answer sat ch sol) ->
    arr (w_no w) = true -> solution_truthy sol && exit = false ->
    round exit arr ws i p (mkPoll (pop_nth (i mod List.length ws) ws) (i mod List.length ws) (absorb p sat ch sol)) false.

Definition can_return (ws : list worker) : Prop :=
  forall w q, In w ws -> w_reply w = Some Failed -> exists q', queue_insert q (w_node w) = Ok q'.
Lemma round_total exit arr ws i p : ws <> [] -> can_return ws ->
  exists st b, poll_step exit arr (mkPoll ws i p) = Ok (st, b) /\ round exit arr ws i p st b.
Proof.
  intros Hne Hc. assert (Hl : (i mod List.length ws < List.length ws)%nat)
    by (apply Nat.mod_upper_bound; destruct ws; simpl; congruence).
  destruct (nth_error ws (i mod List.length ws)) as [w|] eqn:Ew.
  2:{ apply nth_error_None in Ew. lia. }
  unfold poll_step. cbn [pl_workers pl_i pl_state]. rewrite Ew.
  destruct (w_reply w) as [[|sat ch sol]|] eqn:Er.
  - destruct (arr (w_no w)) eqn:Ea.
    + destruct (Hc w (p_queue p) (nth_error_In _ _ Ew) Er) as [q Eq]. rewrite Eq. cbn [bind].
      eexists; eexists; split; [reflexivity|]. eapply rd_failed; eauto.
    + eexists; eexists; split; [reflexivity|]. eapply rd_wait; eauto.
  - destruct (arr (w_no w)) eqn:Ea.
    + destruct (solution_truthy sol && exit) eqn:Ex.
      * apply andb_true_iff in Ex as [E1 E2]. eexists; eexists; split; [reflexivity|]. eapply rd_stop; eauto.
      * eexists; eexists; split; [reflexivity|]. eapply rd_taken; eauto.
    + eexists; eexists; split; [reflexivity|]. eapply rd_wait; eauto.
  - eexists; eexists; split; [reflexivity|]. eapply rd_wait; eauto.
Qed.
Lemma round_can_return exit arr ws i p st b : round exit arr ws i p st b -> can_return ws -> can_return (pl_workers st).
Proof.
  intros H Hc. inversion H; subst; cbn [pl_workers]; auto; intros w' q' Hin Hr.
  - apply set_nth_In in Hin as [->|Hin]; [discriminate|eauto].
  - apply pop_nth_In in Hin. eauto.
Qed.

(* a worker that has nothing to say stays in the list *)
Lemma poll_stuck exit arrived : forall fuel t i p ws,
  can_return ws -> (exists w, In w ws /\ silent w) ->
  (exit = false \/ forall w, In w ws -> w_truthy w = false) ->
  poll_loop fuel exit arrived t (mkPoll ws i p) = OutOfFuel.
Proof.
  induction fuel as [|f IH]; intros t i p ws Hc (w & Hw & Hs) Hx.
  { cbn [poll_loop pl_workers]. destruct ws; [destruct Hw|reflexivity]. }
  destruct (round_total exit (arrived t) ws i p) as (st & b & E & R); auto.
  { destruct ws; [destruct Hw|discriminate]. }
  pose proof (round_can_return _ _ _ _ _ _ _ R Hc) as Hc'.
  assert (Hg : poll_loop (S f) exit arrived t (mkPoll ws i p) = if b then Ok st else poll_loop f exit arrived (S t) st).
  { cbn [poll_loop pl_workers]. destruct ws; [destruct Hw|]. rewrite E. reflexivity. }
  rewrite Hg. clear Hg E.
  inversion R as [w' E1 E2 X Y|w' q E1 E2 E3 E4 X Y|w' sat ch sol E1 E2 E3 E4 E5 X Y|w' sat ch sol E1 E2 E3 E4 X Y];
    subst; cbn [pl_workers] in Hc'.
  - apply IH; eauto.
  - apply IH; auto.
    + destruct (set_nth_other _ _ (mkWorker (w_no w') (w_node w') None) _ _ E1 Hw) as [->|Hin].
      * exists (mkWorker (w_no w') (w_node w') None). split; [|left; auto]. apply set_nth_at.
        apply nth_error_Some. congruence.
      * exists w; auto.
    + destruct Hx as [Hx|Hx]; [left; auto|right]. intros v Hv. apply set_nth_In in Hv as [->|Hv]; auto.
  - destruct Hx as [Hx|Hx]; [discriminate|]. exfalso.
    pose proof (Hx w' (nth_error_In _ _ E1)) as Hf. unfold w_truthy in Hf. rewrite E2 in Hf. congruence.
  - apply IH; auto.
    + exists w. split; auto. destruct (pop_nth_other _ _ _ _ E1 Hw) as [->|Hin]; auto.
      destruct Hs as [Hs|Hs]; congruence.
    + destruct Hx as [Hx|Hx]; [left; auto|right]. intros v Hv. apply Hx. eapply pop_nth_In; eauto.
Qed.

(* what every answer preserves holds in the end *)
Lemma poll_inv exit arrived (I : pstate -> Prop) :
  (forall p q, I p -> I (with_queue p q)) -> forall fuel t i p ws st,
  (forall w sat ch sol p, In w ws -> w_reply w = Some (Answer sat ch sol) -> I p -> I (absorb p sat ch sol)) ->
  can_return ws -> I p -> poll_loop fuel exit arrived t (mkPoll ws i p) = Ok st -> I (pl_state st) /\
  ((exists w, In w ws /\ silent w) -> exit = true /\ exists p' w sat ch sol, In w ws /\
     w_reply w = Some (Answer sat ch sol) /\ solution_truthy sol = true /\ pl_state st = absorb p' sat ch sol).
Proof.
  intros Hq. induction fuel as [|f IH]; intros t i p ws st Ha Hc Hp E.
  { cbn [poll_loop pl_workers] in E. destruct ws; [|discriminate]. injection E as <-. split; auto. intros (w & [] & _). }
  destruct ws as [|w0 ws0].
  { cbn [poll_loop pl_workers] in E. injection E as <-. split; auto. intros (w & [] & _). }
  set (ws := w0 :: ws0) in *.
  destruct (round_total exit (arrived t) ws i p) as (st1 & b & E1 & R); auto.
  { discriminate. }
  assert (Hg : poll_loop (S f) exit arrived t (mkPoll ws i p) = if b then Ok st1 else poll_loop f exit arrived (S t) st1).
  { cbn [poll_loop pl_workers]. unfold ws at 1. rewrite E1. reflexivity. }
  rewrite Hg in E. clear Hg E1. pose proof (round_can_return _ _ _ _ _ _ _ R Hc) as Hc'.
  inversion R as [w' F1 F2 X Y|w' q F1 F2 F3 F4 X Y|w' sat ch sol F1 F2 F3 F4 F5 X Y|w' sat ch sol F1 F2 F3 F4 X Y];
    subst b; rewrite <- X in E, Hc'; cbn [pl_workers] in Hc'.
  - eapply IH; eauto.
  - assert (Ha' : forall w sat ch sol p, In w (set_nth (i mod List.length ws) (mkWorker (w_no w') (w_node w') None) ws) ->
              w_reply w = Some (Answer sat ch sol) -> I p -> I (absorb p sat ch sol)).
    { intros w sat ch sol p1 Hw Hr. apply set_nth_In in Hw as [->|Hw]; [discriminate|]. eauto. }
    destruct (IH _ _ _ _ _ Ha' Hc' (Hq _ _ Hp) E) as [A B].
    split; auto. intros (w & Hw & Hs). destruct B as (B1 & p' & v & s & c & so & B2 & B3 & B4 & B5).
    + destruct (set_nth_other _ _ (mkWorker (w_no w') (w_node w') None) _ _ F1 Hw) as [->|Hin].
      * exists (mkWorker (w_no w') (w_node w') None). split; [|left; auto]. apply set_nth_at.
        apply nth_error_Some. congruence.
      * exists w; auto.
    + split; auto. exists p', v, s, c, so. split; auto. apply set_nth_In in B2 as [->|B2]; auto. discriminate.
  - injection E as <-. cbn [pl_state]. pose proof (nth_error_In _ _ F1) as Hin. split; [eauto|].
    intros _. split; auto. exists p, w', sat, ch, sol. auto.
  - destruct (IH _ _ _ _ _ (fun w sat ch sol p Hw Hr => Ha w sat ch sol p (pop_nth_In _ _ _ Hw) Hr) Hc'
                (Ha w' sat ch sol p (nth_error_In _ _ F1) F2 Hp) E) as [A B].
    split; auto. intros (w & Hw & Hs). destruct B as (B1 & p' & v & s & c & so & B2 & B3 & B4 & B5).
    + exists w. split; auto. destruct (pop_nth_other _ _ _ _ F1 Hw) as [->|Hin]; auto.
      destruct Hs as [Hs|Hs]; congruence.
    + split; auto. exists p', v, s, c, so. split; auto. eapply pop_nth_In; eauto.
Qed.

(* an answer with a solution ends the loop under -e, whatever the other workers do *)
Definition live (w : worker) : bool := match w_reply w with Some _ => true | None => false end.
Definition lives (ws : list worker) : nat := List.length (filter live ws).
Lemma filter_perm {A} (f : A -> bool) l l' : Permutation l l' -> Permutation (filter f l) (filter f l').
Proof.
  induction 1; cbn; auto.
  - destruct (f x); auto.
  - destruct (f x), (f y); auto using perm_swap.
  - eapply perm_trans; eauto.
Qed.
Lemma lives_pop ws i w : nth_error ws i = Some w -> live w = true -> lives ws = S (lives (pop_nth i ws)).
Proof.
  intros E Hl. apply pop_nth_Perm in E. apply (filter_perm live), Permutation_length in E.
  cbn [filter] in E. rewrite Hl in E. exact E.
Qed.
Lemma lives_set : forall ws i w w', nth_error ws i = Some w -> live w = true -> live w' = false ->
  lives ws = S (lives (set_nth i w' ws)).
Proof.
  unfold lives. induction ws as [|a ws IH]; intros [|i] w w' E Hl Hl'; try discriminate; cbn in E.
  - injection E as ->. cbn [filter set_nth]. rewrite Hl, Hl'. reflexivity.
  - pose proof (IH i w w' E Hl Hl') as H. cbn [filter set_nth]. destruct (live a); cbn [List.length]; rewrite H; auto.
Qed.
(* rounds until index j is looked at *)
Definition dist (len i j : nat) : nat :=
  let k := (i mod len)%nat in if (k <=? j)%nat then (j - k)%nat else (len - k + j)%nat.
Lemma dist_next len i j : (j < len)%nat -> (i mod len <> j)%nat ->
  dist len i j = S (dist len (S (i mod len)) j).
Proof.
  intros Hj Hne. unfold dist. set (k := (i mod len)%nat).
  assert (Hk : (k < len)%nat) by (apply Nat.mod_upper_bound; lia).
  destruct (Nat.eq_dec (S k) len) as [E|E].
  - rewrite E, Nat.mod_same by lia. cbn [Nat.leb].
    destruct (Nat.leb_spec k j); unfold k in *; lia.
  - rewrite (Nat.mod_small (S k) len) by lia.
    destruct (Nat.leb_spec k j), (Nat.leb_spec (S k) j); unfold k in *; lia.
Qed.
Lemma poll_solves arrived : fair arrived -> forall n ws t i p, lives ws = n -> can_return ws ->
  (exists w, In w ws /\ w_truthy w = true) ->
  exists N st, forall fuel, (N <= fuel)%nat -> poll_loop fuel true arrived t (mkPoll ws i p) = Ok st.
Proof.
  intros Hf. induction n as [|n IH]; intros ws t i p Hn Hc (w & Hw & Ht).
  { exfalso. assert (Hin : In w (filter live ws)).
    { apply filter_In. split; auto. unfold w_truthy in Ht. unfold live. destruct (w_reply w); auto. }
    unfold lives in Hn. destruct (filter live ws); [destruct Hin|discriminate]. }
  (* one round that consumes an answer *)
  assert (Hone : forall t i st b, round true (arrived t) ws i p st b -> poll_step true (arrived t) (mkPoll ws i p) = Ok (st, b) ->
            (exists w', nth_error ws (i mod List.length ws) = Some w' /\ live w' = true /\ arrived t (w_no w') = true) ->
            exists N st', forall fuel, (N <= fuel)%nat -> poll_loop fuel true arrived t (mkPoll ws i p) = Ok st').
  { clear t i. intros t i st b R E (w' & E1 & E2 & E3). pose proof (round_can_return _ _ _ _ _ _ _ R Hc) as Hc'.
    assert (Hg : forall f, poll_loop (S f) true arrived t (mkPoll ws i p) = if b then Ok st else poll_loop f true arrived (S t) st).
    { intros f. cbn [poll_loop pl_workers]. destruct ws; [destruct Hw|]. rewrite E. reflexivity. }
    inversion R as [v F1 F2 X Y|v q F1 F2 F3 F4 X Y|v sat ch sol F1 F2 F3 F4 F5 X Y|v sat ch sol F1 F2 F3 F4 X Y];
      subst b; rewrite <- X in Hg, Hc'; cbn [pl_workers] in Hc'; rewrite F1 in E1; injection E1 as <-.
    - destruct F2 as [F2|F2]; [unfold live in E2; rewrite F2 in E2; discriminate|congruence].
    - destruct (IH (set_nth (i mod List.length ws) (mkWorker (w_no v) (w_node v) None) ws) (S t) (i mod List.length ws)%nat (with_queue p q))
        as (N & st' & HN); auto.
      + pose proof (lives_set ws _ v (mkWorker (w_no v) (w_node v) None) F1 E2 eq_refl). lia.
      + exists w. split; auto. destruct (set_nth_other _ _ (mkWorker (w_no v) (w_node v) None) _ _ F1 Hw) as [->|Hin]; auto.
        unfold w_truthy in Ht. rewrite F2 in Ht. discriminate.
      + exists (S N), st'. intros [|fuel] Hfu; [lia|]. rewrite Hg. apply HN. lia.
    - exists 1%nat. eexists. intros [|fuel] Hfu; [lia|]. rewrite Hg. reflexivity.
    - destruct (IH (pop_nth (i mod List.length ws) ws) (S t) (i mod List.length ws)%nat (absorb p sat ch sol))
        as (N & st' & HN); auto.
      + pose proof (lives_pop ws _ v F1 E2). lia.
      + exists w. split; auto. destruct (pop_nth_other _ _ _ _ F1 Hw) as [->|Hin]; auto.
        unfold w_truthy in Ht. rewrite F2 in Ht. rewrite Ht in F4. discriminate.
      + exists (S N), st'. intros [|fuel] Hfu; [lia|]. rewrite Hg. apply HN. lia. }
  destruct (fair_all arrived ws Hf) as [T HT].
  destruct (In_nth_error _ _ Hw) as [j Hj].
  assert (Hjl : (j < List.length ws)%nat) by (apply nth_error_Some; congruence).
  assert (Hlw : live w = true) by (unfold w_truthy in Ht; unfold live; destruct (w_reply w); auto).
  (* either a round consumes, or the index moves on *)
  assert (Hmove : forall t i, 
    (forall i', (exists N st, forall fuel, (N <= fuel)%nat -> poll_loop fuel true arrived (S t) (mkPoll ws i' p) = Ok st) \/
                i' <> S (i mod List.length ws)) ->
    exists N st, forall fuel, (N <= fuel)%nat -> poll_loop fuel true arrived t (mkPoll ws i p) = Ok st).
  { clear t i. intros t i Hnext.
    destruct (round_total true (arrived t) ws i p) as (st & b & E & R); auto.
    { destruct ws; [destruct Hw|discriminate]. }
    assert (Hg : forall f, poll_loop (S f) true arrived t (mkPoll ws i p) = if b then Ok st else poll_loop f true arrived (S t) st).
    { intros f. cbn [poll_loop pl_workers]. destruct ws; [destruct Hw|]. rewrite E. reflexivity. }
    inversion R as [v F1 F2 X Y|v q F1 F2 F3 F4 X Y|v sat ch sol F1 F2 F3 F4 F5 X Y|v sat ch sol F1 F2 F3 F4 X Y]; subst b.
    - destruct (Hnext (S (i mod List.length ws))) as [(N & st' & HN)|Hbad]; [|congruence].
      exists (S N), st'. intros [|fuel] Hfu; [lia|]. rewrite Hg, <- X. apply HN. lia.
    - eapply Hone; eauto. exists v. unfold live. rewrite F2. auto.
    - eapply Hone; eauto. exists v. unfold live. rewrite F2. auto.
    - eapply Hone; eauto. exists v. unfold live. rewrite F2. auto. }
  (* once everything has arrived, index j is reached *)
  assert (Hlate : forall d t i, (T <= t)%nat -> dist (List.length ws) i j = d ->
     exists N st, forall fuel, (N <= fuel)%nat -> poll_loop fuel true arrived t (mkPoll ws i p) = Ok st).
  { clear t i. induction d as [|d IHd]; intros t i Htt Hd.
    - destruct (Nat.eq_dec (i mod List.length ws) j) as [Ej|Ej].
      2:{ rewrite (dist_next _ _ _ Hjl Ej) in Hd. discriminate. }
      destruct (round_total true (arrived t) ws i p) as (st & b & E & R); auto.
      { destruct ws; [destruct Hw|discriminate]. }
      eapply Hone; eauto. exists w. rewrite Ej. split; auto.
    - apply Hmove. intros i'. destruct (Nat.eq_dec i' (S (i mod List.length ws))) as [->|]; auto. left.
      apply IHd; [lia|]. destruct (Nat.eq_dec (i mod List.length ws) j) as [Ej|Ej].
      + unfold dist in Hd. rewrite Ej, Nat.leb_refl in Hd. lia.
      + rewrite (dist_next _ _ _ Hjl Ej) in Hd. lia. }
  remember (T - t)%nat as d eqn:Ed. revert t i Ed. induction d as [|d IHd]; intros t i Ed.
  - eapply Hlate; [lia|reflexivity].
  - apply Hmove. intros i'. destruct (Nat.eq_dec i' (S (i mod List.length ws))) as [->|]; auto. left. apply IHd. lia.
Qed.
