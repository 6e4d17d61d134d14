(* PP10.v -- properties of worker processes on a shared global table (C48, C49): statements and proofs. *)
From Coq Require Import String Ascii ZArith List Bool Lia Permutation Sorted.
From Verif Require Import Spec PyBase MSet MText MQueue MDb MSolver MProc MShare SpecRun SpecProc SpecShare PLib PClause
  PRename PLo PNorm PEval PText PQueue PNode PStep PRun PStats PSolver PSolve PSearch PGraph PDb PP1 PP2
  PProc PProc2 PProc3 PProc4 PProc5 PP9 PShare1 PShare2 PShare3 PShare4 PShare5 PShare6 PShare7.
Import ListNotations.
Open Scope Z_scope.

Lemma ends_with_sh_unique hash ifl max wf sched lg o root db out1 out2 :
  ends_with_sh hash ifl max wf sched lg o root db out1 -> ends_with_sh hash ifl max wf sched lg o root db out2 -> out1 = out2.
Proof.
  intros [N1 H1] [N2 H2]. specialize (H1 (Nat.max N1 N2) (Nat.max N1 N2) (Nat.le_max_l _ _) (Nat.le_max_l _ _)).
  specialize (H2 (Nat.max N1 N2) (Nat.max N1 N2) (Nat.le_max_r _ _) (Nat.le_max_r _ _)). congruence.
Qed.
Lemma sh_facts hash ifl max wf sched lg o root out : (forall h, ifl h = false) -> root_ok root -> o_gdb o = true -> o_no_mem o = false ->
  (forall k, wf k = false) -> fair_sched max sched -> ends_with_sh hash ifl max wf sched lg o root [] out ->
  let lf := root_bound root in let m := branch_mode o in
  exists r p0 pf Won, mp_start hash o root [] r p0 /\
      sh_result hash o (raws root) (root_n root) (root_L root) (root_K root) lf m r pf /\
      out_sat out = p_sat pf /\ out_solution out = p_solution pf /\ out_children out = p_children pf /\
      (o_no_stats o = false -> stat_row (p_children pf) (sid r) (out_uniques out, out_redundants out, out_hits out)) /\
      p_db pf = map (row_of_entry hash) Won /\ NoDup (ids Won) /\ dkeys (out_db out) = ids Won /\
      (forall e, In e Won -> exists nn s, dget text_eqb (sid (e_node e)) (out_db out) = Some (timed nn (counted s (snd (row_of_entry hash e)))) /\
        (o_no_stats o = true -> nn = 0 /\ s = (0, 0, 0)) /\
        (o_no_stats o = false -> In (sid (e_node e)) (dkeys (p_children pf)) -> stat_row (p_children pf) (sid (e_node e)) s /\
          extra_arrivals (p_children pf) (sid r) (sid (e_node e)) nn)).
Proof.
  intros Hif RO Hg Hn Hw Hf E lf m.
  destruct (sh_ends hash ifl Hif o Hg Hn root RO max wf Hw sched lg Hf) as (r & p0 & pf & Won & out' & A & B & C & D).
  assert (out' = out) as -> by (eapply ends_with_sh_unique; eauto). exists r, p0, pf, Won. auto.
Qed.
Lemma map_rows_inj hash A B : NoDup (ids A) -> map (row_of_entry hash) A = map (row_of_entry hash) B -> ids A = ids B.
Proof.
  intros _ E. assert (G : forall l, ids l = map fst (map (row_of_entry hash) l)).
  { intros l. unfold ids. rewrite map_map. apply map_ext. intros [[x k1] k2]; reflexivity. }
  rewrite !G, E. auto.
Qed.
Lemma child_hash_fun hash m z b G h1 h2 : child_hash hash m z b G h1 -> child_hash hash m z b G h2 -> h1 = h2.
Proof.
  unfold child_hash, child_formula. set (R := restrict _ _ _).
  intros [[E1 ->]|[[E1 ->]|(H1 & (C1 & C1' & C1'') & ->)]] [[E2 ->]|[[E2 ->]|(H2 & (C2 & C2' & C2'') & ->)]]; auto; try congruence;
    try (rewrite E1 in E2; destruct E2; fail); try (rewrite E2 in E1; destruct E1; fail); try contradiction.
  do 2 f_equal. eapply normal_form_fun; [exact C1| |exact C1''|exact C2'']. intros e He ->. auto.
Qed.

Lemma round_robin_fair n : fair_sched n (round_robin n).
Proof.
  intros t. assert (G : forall j, (j <= n)%nat -> exists t', (t <= t')%nat /\ (t' mod Datatypes.S n = j)%nat).
  { intros j Hj. exists (t * Datatypes.S n + j)%nat. split; [nia|].
    rewrite Nat.add_comm, Nat.mod_add by discriminate. apply Nat.mod_small. lia. }
  split.
  - intros k Hk. destruct (G k ltac:(lia)) as (t' & A & B). exists t'. split; auto. unfold round_robin. rewrite B.
    destruct (k <? n)%nat eqn:E; auto. apply Nat.ltb_ge in E. lia.
  - destruct (G n ltac:(lia)) as (t' & A & B). exists t'. split; auto. unfold round_robin. rewrite B, Nat.ltb_irrefl. auto.
Qed.

(* C48: with -t 1 no worker processes are used: the program is the single-process one. *)
Lemma p_C48_one_process : forall hash insert_fails worker_fails sched linger fuel lf o root db cpus,
  solve_set_sh hash insert_fails (max_threads cpus 1) worker_fails sched linger fuel lf o root db =
  solve_set hash insert_fails fuel lf o root db.
Proof. intros. change (max_threads cpus 1) with 0%nat. apply solve_set_sh_single. Qed.

(* C48: whatever the number of workers and the order in which the processes move, the program ends. *)
Lemma p_C48_ends : forall hash insert_fails max worker_fails sched linger o root,
  (forall h, insert_fails h = false) -> root_ok root -> o_gdb o = true -> o_no_mem o = false ->
  (forall k, worker_fails k = false) -> fair_sched max sched ->
  exists out, ends_with_sh hash insert_fails max worker_fails sched linger o root [] out.
Proof.
  intros hash ifl max wf sched lg o root Hif RO Hg Hn Hw Hf.
  destruct (sh_ends hash ifl Hif o Hg Hn root RO max wf Hw sched lg Hf) as (r & p0 & pf & Won & out & A & B & C & D). eauto.
Qed.

(* C48: a reported solution is a solution of the input formula; 'not satisfiable' comes without one; the
   merged graph is closed. *)
Lemma p_C48_sound : forall hash insert_fails max worker_fails sched linger o root out,
  (forall h, insert_fails h = false) -> root_ok root -> o_gdb o = true -> o_no_mem o = false ->
  (forall k, worker_fails k = false) -> fair_sched max sched ->
  ends_with_sh hash insert_fails max worker_fails sched linger o root [] out ->
  (out_sat out = true ->
     satisfiable (raws root) /\
     exists sol, out_solution out = Some sol /\ sol <> [] /\ NoDup (dkeys sol) /\ StronglySorted Z.lt (dkeys sol) /\
       (forall a, extends a sol -> cnf_true a (raws root)) /\
       incl (evaluated_vars root) sol /\
       (forall v, In v (dkeys sol) -> In v (fvars (raws root)) \/ In v (dkeys (evaluated_vars root)))) /\
  (out_sat out = false -> out_solution out = None) /\
  closed_graph (out_children out) /\
  (forall h, In h (dkeys (out_children out)) -> (List.length (succs (out_children out) h) <= 2)%nat).
Proof.
  intros hash ifl max wf sched lg o root out Hif RO Hg Hn Hw Hf E.
  destruct (sh_facts _ _ _ _ _ _ _ _ _ Hif RO Hg Hn Hw Hf E) as (r & p0 & pf & Won & A & B & -> & -> & -> & _).
  destruct (sr_sound _ _ _ _ _ _ _ _ _ _ B) as (S1 & S2 & S3 & S4). split; [|split; [|exact S3]].
  - intros Hs. rewrite S1 in Hs. destruct (p_solution pf) as [sol|]; [|discriminate].
    destruct (S2 sol eq_refl) as (B1 & B2 & B3 & B4 & B5 & B6). rewrite (ms_ev _ _ _ _ _ _ A) in B4, B5.
    split. { destruct (exists_model sol B2) as (a & Ha). exists a. apply B1. exact Ha. }
    exists sol. split; auto. split; auto. split; auto. split; auto. split; auto. split; auto.
    intros v Hv. destruct (B5 v Hv); auto.
  - intros Hs. rewrite S1 in Hs. destruct (p_solution pf) as [[|]|]; auto; [|discriminate].
    destruct (S2 [] eq_refl) as (_ & _ & Q & _). congruence.
Qed.

(* C48: the table the workers leave behind has one row per set, never two, and each row is right: the text of
   a set met by the search under its hash, its clause count and the hashes of its two branches.  Also when
   exit-upon-solving ends the workers in the middle of their work. *)
Lemma p_C48_rows : forall hash insert_fails max worker_fails sched linger o root out,
  (forall h, insert_fails h = false) -> root_ok root -> o_gdb o = true -> o_no_mem o = false ->
  (forall k, worker_fails k = false) -> fair_sched max sched ->
  ends_with_sh hash insert_fails max worker_fails sched linger o root [] out ->
  let t := out_db out in
  NoDup (dkeys t) /\
  (o_exit o = false -> incl (dkeys t) (dkeys (out_children out))) /\
  (forall h r, In (h, r) t -> exists x left right, searched hash o root x /\
     h = hash (formula_text (raws x)) /\ r_body r = formula_text (raws x) /\
     r_num_clauses r = Z.of_nat (List.length (raws x)) /\
     evaluate (view (o_rdb o) x) = Ok (Some (left, right)) /\
     branch_hash hash o left (r_cid1 r) /\ branch_hash hash o right (r_cid2 r)).
Proof.
  intros hash ifl max wf sched lg o root out Hif RO Hg Hn Hw Hf E t. unfold t. clear t.
  destruct (sh_facts _ _ _ _ _ _ _ _ _ Hif RO Hg Hn Hw Hf E) as (r & p0 & pf & Won & A & B & _ & _ & Ec & _ & Edb & ND & Ek & Hrow).
  destruct (sr_table _ _ _ _ _ _ _ _ _ _ B) as (Won' & Edb' & _ & Hent & Hinc & _).
  assert (Eids : ids Won = ids Won') by (apply (map_rows_inj hash); auto; congruence).
  assert (Em : map (row_of_entry hash) Won' = map (row_of_entry hash) Won) by congruence.
  assert (Hsame0 : forall e, In e Won -> exists e', In e' Won' /\ row_of_entry hash e' = row_of_entry hash e).
  { intros e0 H0. apply (in_map (row_of_entry hash)) in H0. rewrite <- Em in H0. apply in_map_iff in H0 as (e' & A1 & A2). eauto. }
  assert (ND' : NoDup (dkeys (out_db out))) by (rewrite Ek; exact ND).
  split; auto. split; [rewrite Ek, Ec, Eids; auto|].
  intros h rw Hi.
  assert (Hh : In h (dkeys (out_db out))) by (apply (in_map fst) in Hi; exact Hi).
  rewrite Ek in Hh. apply in_map_iff in Hh as (e & <- & He).
  destruct (Hrow e He) as (nn & s & Eg & _).
  apply (dget_In_NoDup _ tspec _ _ _ ND') in Hi. assert (Q0 : rw = timed nn (counted s (snd (row_of_entry hash e)))) by (pose proof (eq_trans (eq_sym Eg) Hi) as Q0; congruence). subst rw.
  pose proof (Hsame0 e He) as He'.
  destruct He' as (e' & He' & Er).
  destruct e' as [[x k1] k2]. destruct (Hent x k1 k2 He') as (Nx & EX & (x0 & R0 & Ex0 & V0)).
  assert (EX0 : expands hash o (root_bound root) (branch_mode o) x0 k1 k2) by (eapply expands_view; [|exact EX]; auto).
  destruct EX0 as (lc & rc & Ev & P1 & P2).
  pose proof (inv_root_node hash o _ _ _ _ _ _ _ _ _ _ _ (ms_inv _ _ _ _ _ _ A)) as Nr.
  assert (Hs : searched hash o root x0).
  { eapply reach_searched; [exact Nr|apply le_n|apply (ms_prep _ _ _ _ _ _ A); apply le_n|exact R0]. }
  assert (Eh : sid (e_node e) = fst (row_of_entry hash (x, k1, k2))) by (rewrite Er; destruct e as [[y j1] j2]; reflexivity).
  exists x0, lc, rc.
  rewrite <- Er. destruct s as [[u rn] rh]. cbn [row_of_entry row_of fst snd timed counted r_body r_cid1 r_cid2 r_num_clauses].
  rewrite Ex0, Eh. cbn [row_of_entry row_of fst snd]. split; auto. split; [apply Nx|]. split; [reflexivity|]. split.
  { unfold raws. rewrite map_length. reflexivity. }
  split; [exact Ev|].
  assert (Q : forall c k, prepared hash o (root_bound root) (branch_mode o) c k -> branch_hash hash o c (kid_hash hash k)).
  { intros c k P. inv P; unfold branch_hash.
    - destruct v; simpl; auto.
    - right; right. split; auto. exists (root_bound root), c0. split; auto. }
  split; [exact (Q _ _ P1)|exact (Q _ _ P2)].
Qed.

(* C48: without hash collisions the verdict is exact, and the outcome is that of the single-process run of
   the same options on an empty table: same verdict; in full runs without thief ordering the same recorded
   graph, the same three reported counts and the same table: under every hash the same row, with the same
   stored counts. *)
Lemma p_C48_same_outcome : forall hash insert_fails max worker_fails sched linger o root out,
  (forall h, insert_fails h = false) -> root_ok root -> o_gdb o = true -> o_no_mem o = false ->
  (forall k, worker_fails k = false) -> fair_sched max sched -> collision_free hash o root ->
  ends_with_sh hash insert_fails max worker_fails sched linger o root [] out ->
  (out_sat out = true <-> satisfiable (raws root)) /\
  forall single, ends_with hash insert_fails o root [] single ->
    out_sat out = out_sat single /\
    (o_exit o = false -> o_thief o = false ->
       (forall h, dget text_eqb h (out_children out) = dget text_eqb h (out_children single)) /\
       (forall h, dget text_eqb h (out_db out) = dget text_eqb h (out_db single)) /\
       (o_no_stats o = false ->
          out_uniques out = out_uniques single /\ out_redundants out = out_redundants single /\
          out_hits out = out_hits single)).
Proof.
  intros hash ifl max wf sched lg o root out Hif RO Hg Hn Hw Hf CF E.
  destruct (p_C48_sound _ _ _ _ _ _ _ _ _ Hif RO Hg Hn Hw Hf E) as (Hsound & _).
  destruct (sh_facts _ _ _ _ _ _ _ _ _ Hif RO Hg Hn Hw Hf E) as (r & p0 & pf & Won & A & B & Es & Eo & Ec & Est & Edb & ND & Ek & Hrow).
  pose proof (ms_prep _ _ _ _ _ _ A _ (le_n _)) as Hp.
  pose proof (collision_free_no hash o root _ r RO (le_n _) Hp CF) as NC.
  assert (Hv : out_sat out = true <-> satisfiable (raws root)).
  { split; intros H; [apply Hsound; auto|]. rewrite Es. apply (sr_verdict _ _ _ _ _ _ _ _ _ _ B NC).
    apply (ms_eq _ _ _ _ _ _ A). exact H. }
  split; auto. intros single E1.
  assert (FD : fresh_db o ifl []) by (split; auto; congruence).
  split.
  { apply eq_iff_eq_true. rewrite Hv. symmetry. eapply p_C22_verdict_exact; eauto. }
  intros Hx Ht.
  destruct (ends_solved hash ifl o root [] RO FD single E1) as (r' & p & done & pend & S).
  pose proof (sv_inv _ _ _ _ _ _ _ _ _ _ _ S) as I.
  pose proof (sv_prep _ _ _ _ _ _ _ _ _ _ _ S) as Hp'. rewrite Hp in Hp'. injection Hp' as <-.
  assert (pend = []) as ->.
  { pose proof (sv_done _ _ _ _ _ _ _ _ _ _ _ S) as Hl. unfold loop_done in Hl.
    rewrite Hx, andb_false_r, orb_false_r, (inv_empty _ _ _ _ _ _ _ _ _ _ _ _ _ I) in Hl.
    destruct pend; [auto|discriminate]. }
  destruct (sr_table _ _ _ _ _ _ _ _ _ _ B) as (Won' & Edb' & ND' & Hent & Hinc & Hcov).
  destruct (Hcov NC Hx Ht) as (E2 & C2 & K2 & G2 & HW1 & HW2).
  assert (Eids : ids Won = ids Won') by (apply (map_rows_inj hash); auto; congruence).
  assert (Em : map (row_of_entry hash) Won' = map (row_of_entry hash) Won) by congruence.
  assert (Hsame0 : forall e, In e Won -> exists e', In e' Won' /\ row_of_entry hash e' = row_of_entry hash e).
  { intros e0 H0. apply (in_map (row_of_entry hash)) in H0. rewrite <- Em in H0. apply in_map_iff in H0 as (e' & A1 & A2). eauto. }
  pose proof (inv_cover hash o _ _ _ _ _ _ _ _ _ _ I) as C1.
  destruct (inv_graph hash ifl o _ _ _ _ _ _ _ _ _ _ I) as [K1 G1].
  destruct (cover_graph _ _ _ _ _ _ _ _ (le_n _) Ht _ _ _ C1 NC K1 G1) as [X1 Y1].
  destruct (cover_graph _ _ _ _ _ _ _ _ (le_n _) Ht _ _ _ C2 NC K2 G2) as [X2 Y2].
  assert (Hget : forall h, dget text_eqb h (out_children out) = dget text_eqb h (out_children single)).
  { intros h. rewrite Ec, (sv_children _ _ _ _ _ _ _ _ _ _ _ S).
    destruct (in_dec text_dec h (dkeys (p_children pf))) as [Hi|Hi].
    - apply X2 in Hi as (G & HG & ->). destruct (Y2 G HG) as (l2 & r2 & L2 & R2 & ->).
      destruct (Y1 G HG) as (l1 & r1 & L1 & R1 & ->). f_equal. f_equal; eapply child_ids_fun; eauto.
    - assert (Hi' : ~ In h (dkeys (p_children p))) by (rewrite X1; rewrite X2 in Hi; exact Hi).
      rewrite (proj2 (dget_None _ tspec _ _) Hi), (proj2 (dget_None _ tspec _ _) Hi'). reflexivity. }
  assert (Hsucc : forall h, succs (p_children pf) h = succs (p_children p) h).
  { intros h. unfold succs. rewrite <- Ec, <- (sv_children _ _ _ _ _ _ _ _ _ _ _ S), Hget. reflexivity. }
  split; auto. split.
  - pose proof (left_keys hash ifl o root Hg single _ r p done [] S) as Ek1.
    assert (Hsame : forall h, In h (ids Won) <-> In h (ids done)).
    { intros h. rewrite Eids. rewrite <- K1.
      assert (Hk : In h (dkeys (p_children pf)) <-> In h (dkeys (p_children p))) by (rewrite X1, X2; tauto).
      rewrite <- Hk, K2. split; [|apply HW2]. intros Hh. apply in_map_iff in Hh as (e & <- & He). apply in_map_iff. exists e. auto. }
    intros h. destruct (in_dec text_dec h (ids Won)) as [Hi|Hi].
    2:{ assert (Hi1 : ~ In h (dkeys (out_db out))) by (rewrite Ek; exact Hi).
        assert (Hi2 : ~ In h (dkeys (out_db single))).
        { rewrite Ek1, map_map. intros H. apply Hi, Hsame. exact H. }
        rewrite (proj2 (dget_None _ tspec _ _) Hi1), (proj2 (dget_None _ tspec _ _) Hi2). reflexivity. }
    pose proof (proj1 (Hsame h) Hi) as Hj. apply in_map_iff in Hi as (e & Ee & He). apply in_map_iff in Hj as (e1 & Ee1 & He1).
    destruct (Hrow e He) as (nn & s & Eg & Z0 & Z1). rewrite Ee in *.
    destruct (left_row hash ifl o root Hg single _ r p done [] e1 S He1) as (nn1 & s1 & Eg1 & Y0 & Y1'). rewrite Ee1 in *.
    refine (eq_trans Eg (eq_trans _ (eq_sym Eg1))).
    pose proof (Hsame0 e He) as He'.
    destruct He' as (e' & He' & Er).
    assert (Ebase : snd (row_of_entry hash e) = snd (row_of_entry hash e1)).
    { rewrite <- Er. destruct e' as [[x k1] k2], e1 as [[y j1] j2].
      destruct (Hent x k1 k2 He') as (Nx & EX & (x0 & R0 & Ex0 & _)).
      destruct (i_exp _ _ _ _ _ _ _ _ _ _ _ _ _ I y j1 j2 He1) as (EY & _).
      destruct (i_nodes _ _ _ _ _ _ _ _ _ _ _ _ _ I y) as [Ny Ry].
      { unfold ys. apply in_app_iff. left. apply in_map_iff. exists (y, j1, j2). auto. }
      assert (Hsid : sid x = sid y).
      { cbn [e_node fst] in Ee1. rewrite Ee1, <- Ee. change (sid x) with (fst (row_of_entry hash (x, k1, k2))). rewrite Er.
        destruct e as [[? ?] ?]; reflexivity. }
      pose proof (inv_root_node hash o _ _ _ _ _ _ _ _ _ _ _ I) as Nr.
      assert (Exy : raws x = raws y).
      { rewrite <- Ex0. pose proof (reach_node hash o _ _ _ _ _ _ r x0 Nr (le_n _) R0) as N0.
        eapply same_id_same; eauto. destruct N0 as (_ & -> & _). rewrite Ex0. destruct Nx as (_ & <- & _). exact Hsid. }
      destruct (expands_hashes hash o Ht _ _ _ x k1 k2 (proj1 Nx) EX) as [H1 H2].
      destruct (expands_hashes hash o Ht _ _ _ y j1 j2 (proj1 Ny) EY) as [H3 H4]. rewrite <- Exy in H3, H4.
      cbn [row_of_entry row_of fst snd]. rewrite (child_hash_fun _ _ _ _ _ _ _ H1 H3), (child_hash_fun _ _ _ _ _ _ _ H2 H4), Exy.
      f_equal. f_equal. rewrite <- (map_length raw (clauses x)), <- (map_length raw (clauses y)). fold (raws x) (raws y). rewrite Exy. auto. }
    rewrite Ebase. destruct (o_no_stats o) eqn:En.
    + destruct (Z0 eq_refl) as [-> ->]. destruct (Y0 eq_refl) as [-> ->]. auto.
    + assert (Hin : In h (dkeys (p_children pf))).
      { apply X2, X1, K1, Hsame. apply in_map_iff. exists e; auto. }
      destruct (Z1 eq_refl Hin) as [Q1 Q2]. destruct (Y1' eq_refl) as [Q3 Q4].
      rewrite (extra_arrivals_ext _ _ _ _ _ _ Hsucc Q2 Q4). destruct s as [[u rn] rh], s1 as [[u1 rn1] rh1].
      destruct (stat_row_ext _ _ _ _ _ _ _ _ _ Hsucc Q1 Q3) as (-> & -> & ->). auto.
  - intros Hst. pose proof (Est Hst) as S2.
    destruct (sv_stats _ _ _ _ _ _ _ _ _ _ _ S Hst) as (_ & _ & _ & _ & _ & S1 & _).
    eapply stat_row_ext; [exact Hsucc|exact S2|exact S1].
Qed.

(*EX
(* three workers moving in turn; the queue of the sample reaches three sets after two steps, which are handed out *)
Example C48_example : root_ok sample /\ fair_sched 3 (round_robin 3) /\ o_gdb gdb_opts = true /\ o_no_mem gdb_opts = false /\
  collision_free (fun t => t) gdb_opts sample /\
  exists p waiting, hands_out (fun t => t) no_fail 3 gdb_opts sample [] p waiting.
Proof.
  split; [exact sample_ok|]. split; [apply round_robin_fair|]. split; auto. split; auto. split; [apply never_collides|].
  do 2 eexists. exists 40%nat. do 3 eexists. split; [vm_compute; reflexivity|]. split; [vm_compute; reflexivity|].
  split; [|split; [|split; [|split]]].
  2:{ eapply exec_cons; [vm_compute; reflexivity|vm_compute; reflexivity|vm_compute; reflexivity|].
      eapply exec_cons; [vm_compute; reflexivity|vm_compute; reflexivity|vm_compute; reflexivity|].
      apply exec_nil. }
  - discriminate.
  - reflexivity.
  - repeat (eapply drains_cons; [vm_compute; reflexivity|]). apply drains_nil. reflexivity.
  - intros ys zs q E1 Hy Hz He. destruct ys as [|y1 [|y2 ys]]; [congruence| |].
    + injection E1 as E1 _. inversion He as [|? ? ? ? ? ? H1 H2 H3 H4]; subst.
      inversion H4; subst. vm_compute in H3. injection H3 as <-. discriminate.
    + injection E1 as _ _ E1. symmetry in E1. apply app_eq_nil in E1 as [_ E1]. congruence.
Qed.
EX*)

(* C49: once a worker process is gone without an answer (an exception outside the set-up ends it so), the main
   process polls for its answer for ever, whatever the other processes do, unless exit-upon-solving is on. *)
Lemma p_C49_dead_worker_blocks : forall hash insert_fails o seen sched linger lf m t c v,
  o_exit o = false ->
  In v (pl_workers (cr_poll c)) -> w_reply v = None -> nth_error (cr_procs c) (w_no v) = Some None ->
  (forall w, In w (pl_workers (cr_poll c)) -> w_reply w <> Some Failed) ->
  forall fuel, share_loop hash insert_fails o seen sched linger fuel lf m t c = OutOfFuel.
Proof.
  intros hash ifl o seen sched lg lf m t c v Hx Hv Hr Hd Hf fuel. apply dead_stuck; auto. split; auto.
  exists v. split; auto. split; auto. intros p H. congruence.
Qed.

(* C49: if a worker process reports that it could not set up its database access, its set goes back into the
   queue of the main process, which however keeps waiting for it: once the sets are handed out no run without
   exit-upon-solving ends, under any schedule of the processes, with and without -gnm. *)
Lemma p_C49_setup_failure_blocks : forall hash insert_fails max worker_fails sched linger o root p waiting k,
  o_exit o = false -> hands_out hash insert_fails max o root [] p waiting ->
  (k < max)%nat -> worker_fails k = true ->
  forall fuel lf out, solve_set_sh hash insert_fails max worker_fails sched linger fuel lf o root [] <> Ok out.
Proof. intros. eapply setup_failure_blocks; eauto. Qed.

(*EX
Example C49_setup_example : exists p waiting, hands_out (fun t => t) no_fail 3 gdb_opts sample [] p waiting /\
  o_exit gdb_opts = false.
Proof. destruct C48_example as (_ & _ & _ & _ & _ & p & w & H). exists p, w. auto. Qed.
EX*)

(* worker 0 moves twice, worker 1 four times, then the two workers and the main process in turn *)
Definition overtaking (t : nat) : action :=
  if (t <? 2)%nat then Work 0 else if (t <? 6)%nat then Work 1 else round_robin 2 t.
Definition no_mem_opts : opts := mkOpts MODE_FLO false false false false true true false false.
Definition racing : cset := set_of_text (txt "4|-6|2&3|2|4&6|1&6|-1|-3").

(* C49: with -gdb -gnm a worker can overtake another one in the table, read back children whose variable names
   the table does not keep, and die on them: the formula 4|-6|2&3|2|4&6|1&6|-1|-3, solved by one process,
   keeps two worker processes and the main process busy for ever under a fair schedule. *)
Lemma p_C49_no_mem_hangs :
  root_ok racing /\ fair_sched 2 overtaking /\
  (exists out, ends_with (fun t => t) no_fail no_mem_opts racing [] out /\ out_sat out = true) /\
  (forall linger, runs_forever_sh (fun t => t) no_fail 2 (fun _ => false) overtaking linger no_mem_opts racing []).
Proof.
  split; [|split; [|split]].
  - split; try reflexivity; try discriminate.
    + intros c H. vm_compute in H. repeat (destruct H as [<-|H]; [discriminate|]). destruct H.
    + intros c H. vm_compute in H. repeat (destruct H as [<-|H]; [repeat constructor; simpl; lia|]). destruct H.
    + intros c H. vm_compute in H. repeat (destruct H as [<-|H]; [reflexivity|]). destruct H.
    + constructor.
    + intros v [].
    + intros v [].
  - assert (G : forall t a, (exists t', (t <= t')%nat /\ (6 <= t')%nat /\ round_robin 2 t' = a) -> exists t', (t <= t')%nat /\ overtaking t' = a).
    { intros t a (t' & A & B & C). exists t'. split; auto. unfold overtaking.
      destruct (t' <? 2)%nat eqn:E1; [apply Nat.ltb_lt in E1; lia|]. destruct (t' <? 6)%nat eqn:E2; [apply Nat.ltb_lt in E2; lia|auto]. }
    intros t. destruct (round_robin_fair 2 (Nat.max t 6)) as [A B]. split.
    + intros k Hk. apply G. destruct (A k Hk) as (t' & C & D). exists t'. split; [lia|]. split; [lia|auto].
    + apply G. destruct B as (t' & C & D). exists t'. split; [lia|]. split; [lia|auto].
  - eexists. split; [|].
    + exists 40%nat. intros fuel lf H1 H2. apply (solve_set_mono _ _ _ _ _ 40 fuel 40 lf H1 H2). vm_compute. reflexivity.
    + reflexivity.
  - intros lg. eapply (hang_general (fun t => t) no_fail no_mem_opts 2 (fun _ => false) overtaking lg eq_refl racing [] 40
      [0; 0; 1; 1; 1]%nat 1).
    + vm_compute; reflexivity.
    + vm_compute; reflexivity.
    + vm_compute; reflexivity.
    + vm_compute; reflexivity.
    + vm_compute; reflexivity.
    + vm_compute; reflexivity.
    + lia.
    + vm_compute; reflexivity.
    + vm_compute; reflexivity.
    + vm_compute; reflexivity.
    + intros j k H. destruct j as [|[|[|[|[|j]]]]]; try (injection H as <-; reflexivity). destruct j; discriminate.
    + reflexivity.
    + vm_compute; reflexivity.
    + reflexivity.
    + intros lf. eexists. vm_compute. reflexivity.
    + right. left. reflexivity.
    + reflexivity.
    + reflexivity.
    + intros w H. vm_compute in H. repeat (destruct H as [<-|H]; [discriminate|]). destruct H.
Qed.
