(* PProc2.v -- the multi-process run: the main process up to the split, the workers. *)
From Coq Require Import String Ascii ZArith List Bool Lia Permutation Sorted.
From Verif Require Import Spec PyBase MSet MText MQueue MDb MSolver MProc SpecRun SpecProc PLib PClause PRename PLo
  PNorm PEval PText PQueue PNode PStep PRun PStats PSolver PSolve PSearch PGraph PProc.
Import ListNotations.
Open Scope Z_scope.

Lemma run_mp_false hash ifl o seen max wf arr lf m : forall fuel p,
  run_mp hash ifl o seen max wf arr fuel lf m false p = run hash ifl o seen fuel lf m p.
Proof.
  induction fuel as [|f IH]; intros p; cbn [run_mp run]; destruct (loop_done o p); auto.
  destruct (step hash ifl o seen lf m p); cbn [bind andb]; auto.
Qed.
Lemma run_mp_max0 hash ifl o seen wf arr lf m g : forall fuel p,
  run_mp hash ifl o seen 0 wf arr fuel lf m g p = run hash ifl o seen fuel lf m p.
Proof.
  induction fuel as [|f IH]; intros p; cbn [run_mp run]; destruct (loop_done o p); auto.
  destruct (step hash ifl o seen lf m p); cbn [bind]; auto. rewrite andb_false_r. cbn [andb]. auto.
Qed.

Lemma pop_n_spec rdb : forall xs q ever, qrep rdb q ever xs ->
  exists q', pop_n (List.length xs) q = Ok (map (view rdb) xs, q') /\ qrep rdb q' ever [].
Proof.
  induction xs as [|x xs IH]; intros q ever Q; cbn [List.length pop_n map].
  - exists q; auto.
  - destruct (qrep_pop _ _ _ _ _ Q) as (q1 & E1 & Q1). rewrite E1. cbn [bind].
    destruct (IH q1 ever Q1) as (q2 & E2 & Q2). rewrite E2. cbn [bind]. eauto.
Qed.

(* a node as a worker gets it, with its hash computed *)
Definition wroot (rdb : bool) (x : cset) : cset := set_hash (view rdb x) (Some (sid x)).
Lemma reordered_idem d : reordered (reordered d) = reordered d.
Proof.
  unfold reordered. rewrite !filter_app.
  assert (A : forall (f g : Z * bool -> bool) l, (forall x, f x = true -> g x = false) -> filter g (filter f l) = []).
  { intros f g l H. induction l as [|a l IH]; auto. cbn [filter]. destruct (f a) eqn:E; auto. cbn [filter].
    rewrite (H a E); auto. }
  assert (B : forall (f : Z * bool -> bool) l, filter f (filter f l) = filter f l).
  { intros f l. induction l as [|a l IH]; auto. cbn [filter]. destruct (f a) eqn:E; auto. cbn [filter]. rewrite E, IH; auto. }
  rewrite !B, !A; cbn [app]; rewrite ?app_nil_r; auto.
  all: intros [k []]; cbn; auto; discriminate.
Qed.
Lemma raws_plain : forall F i, map raw (plain i F) = F.
Proof. induction F as [|c F IH]; intros i; cbn; auto. rewrite IH; auto. Qed.
Lemma wroot_raws rdb x : raws (wroot rdb x) = raws x.
Proof. unfold wroot. rewrite <- (view_raws rdb x). reflexivity. Qed.
Lemma wroot_sid rdb x : sid (wroot rdb x) = sid x.
Proof. unfold wroot. rewrite <- (view_sid rdb x). reflexivity. Qed.
Lemma wroot_view rdb x : computed_hash x = Some (sid x) -> view rdb (wroot rdb x) = view rdb x.
Proof.
  intros Hc. destruct rdb; unfold wroot; cbn [view].
  - unfold reloaded. cbn [clauses sid final_names_map evaluated_vars original_values set_hash]. rewrite reordered_idem. f_equal. f_equal. unfold raws. cbn [clauses set_hash]. apply raws_plain.
  - rewrite <- Hc. destruct x; auto.
Qed.

Section Split.
  Variable hash : text -> digest.
  Variable insert_fails : digest -> bool.
  Variable o : opts.
  Hypothesis Hg : o_gdb o = false.
  Variable F : list (list Z).
  Variables n L K lf : nat.
  Variable m : mode.
  Hypothesis Hlf : (lo_bound n L K <= lf)%nat.
  Variable db : table.
  Variable max : nat.
  Variable wf : nat -> bool.
  Variable arr : nat -> nat -> bool.
  Notation INV := (Inv hash o F n L K lf m db).
  Notation STEP := (step hash insert_fails o []).
  Notation RUN := (run hash insert_fails o []).
  Notation RUNM := (run_mp hash insert_fails o [] max wf arr).
  Notation EXEC := (exec hash insert_fails o [] lf m).

  Lemma sp_gdb : o_gdb o = true -> @nil digest = [] /\ forall h, insert_fails h = false.
  Proof. congruence. Qed.
  Lemma sp_db : o_gdb o = true -> db = [].
  Proof. congruence. Qed.

  (* before the split: the loop ends, or max sets are waiting *)
  Definition first_hit (p : pstate) (xs : list cset) : Prop :=
    forall ys zs q, xs = ys ++ zs -> ys <> [] -> zs <> [] -> EXEC p ys q -> queue_size (p_queue q) <> max.
  Lemma exec_det p ys q : EXEC p ys q -> forall q', EXEC p ys q' -> q = q'.
  Proof.
    induction 1 as [|p x q0 p1 xs p' Hl Hp Hs He IH]; intros q' E; inversion E; subst; auto.
    apply IH. replace p1 with p2 by congruence. auto.
  Qed.
  Lemma main_phase : forall w r p done pend, INV r p done pend -> (weight pend <= w)%nat ->
    (exists pf done' pend' xs, (forall fuel lf', (w <= fuel)%nat -> (lf <= lf')%nat -> RUNM fuel lf' m true p = Ok pf) /\
       INV r pf done' pend' /\ loop_done o pf = true /\ EXEC p xs pf /\
       ((0 < max)%nat -> forall ys zs q, xs = ys ++ zs -> ys <> [] -> EXEC p ys q -> queue_size (p_queue q) <> max)) \/
    (exists xs p1 done1 pend1, INV r p1 done1 pend1 /\ (0 < max)%nat /\ List.length pend1 = max /\
       EXEC p xs p1 /\ xs <> [] /\ first_hit p xs /\
       forall fuel lf', (lf <= lf')%nat ->
         RUNM (List.length xs + fuel) lf' m true p =
         bind (split_work hash insert_fails o [] max wf arr fuel lf' m p1) (fun p2 => RUN fuel lf' m p2)).
  Proof.
    induction w as [|w IH]; intros r p done pend I Hw.
    - left. destruct pend as [|x xs].
      2:{ simpl in Hw. pose proof (pow3_pos (nvars (raws x))). lia. }
      exists p, done, [], []. assert (El : loop_done o p = true).
      { unfold loop_done. rewrite (inv_empty _ _ _ _ _ _ _ _ _ _ _ _ _ I). auto. }
      split. { intros [|fuel] lf' _ _; cbn [run_mp]; rewrite El; auto. }
      split; auto. split; auto. split; [constructor|]. intros _ ys zs q E Hne. destruct ys; [congruence|discriminate].
    - destruct (loop_done o p) eqn:El.
      + left. exists p, done, pend, []. split. { intros [|fuel] lf' _ _; cbn [run_mp]; rewrite El; auto. }
        split; auto. split; auto. split; [constructor|]. intros _ ys zs q E Hne. destruct ys; [congruence|discriminate].
      + destruct pend as [|x xs].
        { unfold loop_done in El. rewrite (inv_empty _ _ _ _ _ _ _ _ _ _ _ _ _ I) in El. discriminate. }
        destruct (step_full hash insert_fails o [] sp_gdb F n L K lf m Hlf db sp_db r p done x xs I)
          as (p1 & k1 & k2 & new & E & I1 & Hn).
        assert (Es : forall lf', (lf <= lf')%nat -> STEP lf' m p = Ok p1) by (intros lf' Hle; apply (step_mono hash insert_fails o [] lf lf' Hle m p p1 E)).
        destruct (qrep_pop _ _ _ _ _ (i_queue _ _ _ _ _ _ _ _ _ _ _ _ _ I)) as (q1 & Eq1 & _).
        assert (Hsz : queue_size (p_queue p1) = List.length (xs ++ new)) by (eapply qrep_size, I1).
        destruct ((0 <? max)%nat && (max =? queue_size (p_queue p1))%nat) eqn:Ehit.
        * right. apply andb_true_iff in Ehit as [E1 E2]. apply Nat.ltb_lt in E1. apply Nat.eqb_eq in E2.
          exists [view (o_rdb o) x], p1, (done ++ [(x, k1, k2)]), (xs ++ new). split; auto. split; auto.
          split; [lia|]. split. { eapply exec_cons; [exact El|exact Eq1|exact E|constructor]. }
          split; [discriminate|]. split.
          { intros ys zs q Ey Hy Hz. destruct ys as [|y [|]]; try congruence; destruct zs; try discriminate; congruence. }
          intros fuel lf' Hle. cbn [List.length Nat.add run_mp]. rewrite El, (Es lf' Hle). cbn [bind].
          rewrite E2 in *. cbn [andb]. rewrite (proj2 (Nat.ltb_lt _ _) E1), Nat.eqb_refl. cbn [andb].
          destruct (split_work _ _ _ _ _ _ _ _ _ _ _); cbn [bind]; auto. rewrite run_mp_false. auto.
        * destruct (IH r p1 _ _ I1) as [(pf & d' & pe & zs & A1 & A2 & A3 & A4 & A5)|(zs & p2 & d' & pe & A1 & A2 & A3 & A4 & A5 & A6 & A7)].
          { rewrite weight_app. simpl in Hw. lia. }
          -- left. exists pf, d', pe, (view (o_rdb o) x :: zs). split; [|split; [auto|split; [auto|split]]].
             ++ intros [|fuel] lf' H1 H2; [lia|]. cbn [run_mp]. rewrite El, (Es lf' H2). cbn [bind andb].
                rewrite Ehit. apply A1; [lia|auto].
             ++ eapply exec_cons; [exact El|exact Eq1|exact E|exact A4].
             ++ intros Hm ys ws q Ey Hy He. destruct ys as [|y ys]; [congruence|]. injection Ey as <- Ey.
                inversion He as [|? ? ? ? ? ? Hl' Hp' Hs' He']; subst. rewrite E in Hs'. injection Hs' as <-.
                destruct ys as [|y' ys].
                { inversion He'; subst. apply andb_false_iff in Ehit as [Eh|Eh]; [apply Nat.ltb_ge in Eh; lia|].
                  apply Nat.eqb_neq in Eh. congruence. }
                eapply A5; eauto. discriminate.
          -- right. exists (view (o_rdb o) x :: zs), p2, d', pe. split; auto. split; auto. split; auto.
             split. { eapply exec_cons; [exact El|exact Eq1|exact E|exact A4]. }
             split; [discriminate|]. split.
             ++ intros ys ws q Ey Hy Hz He. destruct ys as [|y ys]; [congruence|]. injection Ey as <- Ey.
                inversion He as [|? ? ? ? ? ? Hl' Hp' Hs' He']; subst. rewrite E in Hs'. injection Hs' as <-.
                destruct ys as [|y' ys].
                { inversion He'; subst. apply andb_false_iff in Ehit as [Eh|Eh]; [apply Nat.ltb_ge in Eh; lia|].
                  apply Nat.eqb_neq in Eh. congruence. }
                eapply A6; eauto. discriminate.
             ++ intros fuel lf' Hle. cbn [List.length Nat.add run_mp]. rewrite El, (Es lf' Hle). cbn [bind andb].
                rewrite Ehit. apply A7; auto.
  Qed.

  (* a worker *)
  Definition worked (x : cset) (pk : pstate) : Prop :=
    (exists f, forall fuel lf', (f <= fuel)%nat -> (lf <= lf')%nat ->
       process_nodes_queue hash insert_fails o [] fuel lf' m (view (o_rdb o) x) db = Ok pk) /\
    exists donek pendk, INV (wroot (o_rdb o) x) pk donek pendk /\ loop_done o pk = true.
  Lemma wroot_node x : is_node hash F n L K x -> is_node hash F n L K (wroot (o_rdb o) x).
  Proof.
    intros (N & Hs & Hc & W). unfold is_node. rewrite wroot_raws, wroot_sid. split; [|split; [|split]]; auto.
    - apply node_set_hash, node_view; auto.
    - unfold within in *. rewrite wroot_raws. destruct W as (W1 & W2 & W3). split; auto. split; auto.
      change (clauses (wroot (o_rdb o) x)) with (clauses (view (o_rdb o) x)). rewrite view_clen. auto.
  Qed.
  Lemma worker_works x : is_node hash F n L K x -> exists pk, worked x pk.
  Proof.
    intros Nx. pose proof (wroot_node x Nx) as (Nw & Hsw & Hcw & Ww). destruct Nx as (N & Hs & Hc & W).
    assert (Hn : node F (view (o_rdb o) x)) by (apply node_view; auto).
    destruct (start_inv hash o F n L K lf m db (view (o_rdb o) x) Hn) as (p0 & Es & I0).
    - rewrite view_sid, view_raws. auto.
    - rewrite view_sid. destruct (o_rdb o); [left; reflexivity|right; exact Hc].
    - unfold within in *. rewrite view_raws, view_clen. auto.
    - rewrite view_sid in I0. fold (wroot (o_rdb o) x) in I0.
      destruct (run_total hash insert_fails o [] sp_gdb F n L K lf m Hlf db sp_db _ _ _ _ _ I0 (le_n _))
        as (pk & dk & pe & E & I & Hl).
      exists pk. split; [|eauto]. exists (weight [wroot (o_rdb o) x]). intros fuel lf' H1 H2.
      unfold process_nodes_queue. rewrite Es. cbn [bind].
      apply (run_mono hash insert_fails o [] lf lf' H2 m _ _ _ H1 _ E).
  Qed.

  Definition answer_of (pk : pstate) : reply := Answer (p_sat pk) (p_children pk) (p_solution pk).
  Fixpoint crew (k : nat) (nodes : list cset) (pks : list pstate) : list worker :=
    match nodes, pks with
    | x :: xs, pk :: t => mkWorker k (view (o_rdb o) x) (Some (if wf k then Failed else answer_of pk)) :: crew (S k) xs t
    | _, _ => []
    end.
  Lemma crew_start pend pks : Forall2 worked pend pks -> exists f, forall k fuel lf', (f <= fuel)%nat -> (lf <= lf')%nat ->
    start_workers hash insert_fails o [] wf fuel lf' m db k (map (view (o_rdb o)) pend) = crew k pend pks.
  Proof.
    induction 1 as [|x pk xs t ((f1 & Hx) & _) H IH]; [exists 0%nat; auto|].
    destruct IH as [f2 IH]. exists (Nat.max f1 f2). intros k fuel lf' H1 H2. cbn [map start_workers crew].
    rewrite IH by lia. f_equal. f_equal. unfold worker_reply. destruct (wf k); auto. rewrite Hx by lia. auto.
  Qed.
  Lemma crew_in pend pks : Forall2 worked pend pks -> forall k w, In w (crew k pend pks) ->
    exists x pk, In x pend /\ In pk pks /\ worked x pk /\ w_node w = view (o_rdb o) x /\
      (k <= w_no w < k + List.length pend)%nat /\
      w_reply w = Some (if wf (w_no w) then Failed else answer_of pk).
  Proof.
    induction 1 as [|x pk xs t Hx H IH]; intros k w Hw; cbn [crew] in Hw; [destruct Hw|].
    destruct Hw as [<-|Hw].
    - exists x, pk. simpl. repeat (split; auto). all: lia.
    - destruct (IH _ _ Hw) as (y & q & A1 & A2 & A3 & A4 & A5 & A6). exists y, q. simpl.
      repeat (split; auto). all: lia.
  Qed.
  Lemma crew_nth pend pks : Forall2 worked pend pks -> forall k j x, nth_error pend j = Some x ->
    exists pk, worked x pk /\ In pk pks /\
      In (mkWorker (k + j) (view (o_rdb o) x) (Some (if wf (k + j) then Failed else answer_of pk))) (crew k pend pks).
  Proof.
    induction 1 as [|x pk xs t Hx H IH]; intros k j y Ej; [destruct j; discriminate|]. destruct j as [|j]; cbn in Ej.
    - injection Ej as ->. exists pk. split; auto. split; [simpl; auto|]. cbn [crew]. left. rewrite Nat.add_0_r. auto.
    - destruct (IH (S k) j y Ej) as (q & A & B & C). exists q. split; auto. split; [simpl; auto|]. cbn [crew]. right.
      rewrite Nat.add_succ_r. exact C.
  Qed.
  Lemma crew_return pend pks k : Forall2 worked pend pks -> (forall x, In x pend -> is_node hash F n L K x) ->
    can_return (crew k pend pks).
  Proof.
    intros H Hn w q Hw _. destruct (crew_in _ _ H _ _ Hw) as (x & pk & Hx & _ & _ & Ew & _). rewrite Ew.
    unfold queue_insert. destruct (q_use_db q); [|eauto].
    destruct (Hn x Hx) as (N & _). rewrite (node_text _ _ (node_view _ (o_rdb o) _ N)). cbn [bind]. eauto.
  Qed.

  Lemma all_work pend : (forall x, In x pend -> is_node hash F n L K x) -> exists pks, Forall2 worked pend pks.
  Proof.
    induction pend as [|x xs IH]; intros H; [exists []; constructor|].
    destruct IH as [t Ht]; [intros; apply H; right; auto|].
    destruct (worker_works x) as [pk Hk]; [apply H; left; auto|]. exists (pk :: t). constructor; auto.
  Qed.

  (* the split itself *)
  Lemma split_is r p1 done1 pend1 pks : INV r p1 done1 pend1 -> List.length pend1 = max -> Forall2 worked pend1 pks ->
    exists q f, queue_is_empty q = true /\ forall fuel lf', (f <= fuel)%nat -> (lf <= lf')%nat ->
      split_work hash insert_fails o [] max wf arr fuel lf' m p1 =
      bind (poll_loop fuel (o_exit o) arr 0 (mkPoll (crew 0 pend1 pks) 0 (with_queue p1 q))) (fun st => Ok (pl_state st)).
  Proof.
    intros I Hm Hw. destruct (crew_start _ _ Hw) as [f Hf].
    destruct (pop_n_spec _ _ _ _ (i_queue _ _ _ _ _ _ _ _ _ _ _ _ _ I)) as (q & Eq & Q).
    exists q, f. split. { rewrite (qrep_empty _ _ _ _ Q). auto. }
    intros fuel lf' H1 H2. unfold split_work. rewrite <- Hm, Eq. cbn [bind].
    replace (p_db p1) with db.
    2:{ rewrite (i_db _ _ _ _ _ _ _ _ _ _ _ _ _ I), Hg, app_nil_r. auto. }
    rewrite Hf by auto. reflexivity.
  Qed.
End Split.
