(* PProc5.v -- the multi-process run: outcomes. *)
From Coq Require Import String Ascii ZArith List Bool Lia Permutation Sorted.
From Verif Require Import Spec PyBase MSet MText MQueue MDb MSolver MProc SpecRun SpecProc PLib PClause PRename PLo
  PNorm PEval PText PQueue PNode PStep PRun PStats PSolver PSolve PSearch PGraph PProc PProc2 PProc3 PProc4.
Import ListNotations.
Open Scope Z_scope.

Lemma solve_set_mp_single hash ifl wf arr fuel lf o root db :
  solve_set_mp hash ifl 0 wf arr fuel lf o root db = solve_set hash ifl fuel lf o root db.
Proof.
  unfold solve_set_mp, solve_set. destruct (to_pretty root); cbn [bind]; auto.
  destruct (prepare_root hash lf o root) as [r| |]; cbn [bind]; auto.
  destruct (is_set_solved _ _ _ _); auto. unfold process_nodes_queue.
  destruct (start hash o r db) as [p0| |]; cbn [bind]; auto. rewrite run_mp_max0. reflexivity.
Qed.

(* the same counts for graphs that agree *)
Lemma reaches_ext g g' a b : (forall h, succs g h = succs g' h) -> reaches (succs g) a b -> reaches (succs g') a b.
Proof. intros E H. induction H; econstructor; eauto. rewrite <- E. auto. Qed.
Lemma stat_row_ext g g' k u rn rh u' rn' rh' : (forall h, succs g h = succs g' h) ->
  stat_row g k (u, rn, rh) -> stat_row g' k (u', rn', rh') -> u = u' /\ rn = rn' /\ rh = rh'.
Proof.
  intros E S S'. apply stat_counts in S as (R & T & N1 & R1 & -> & -> & N2 & -> & T1).
  apply stat_counts in S' as (R' & T' & N1' & R1' & -> & -> & N2' & -> & T1').
  assert (P : Permutation R R').
  { apply NoDup_Permutation; auto. intros x. rewrite R1, R1'. split; apply reaches_ext; auto. }
  assert (EF : flat_map (succs g') R' = flat_map (succs g) R').
  { clear -E. induction R' as [|a l IH]; cbn [flat_map]; auto. rewrite IH, E. auto. }
  assert (PF : Permutation (flat_map (succs g) R) (flat_map (succs g') R')).
  { rewrite EF. apply Permutation_flat_map; auto. }
  assert (PT : Permutation T T').
  { apply NoDup_Permutation; auto. intros x. rewrite T1, T1'. rewrite (Permutation_in' (eq_refl x) P).
    rewrite (proj1 (Permutation_count_occ text_dec _ _) (perm_skip k PF)). tauto. }
  rewrite (Permutation_length P), (Permutation_length PF), (Permutation_length PT). auto.
Qed.

Section Mp.
  Variable hash : text -> digest.
  Variable insert_fails : digest -> bool.
  Variable o : opts.
  Variable root : cset.
  Variable db : table.
  Hypothesis RO : root_ok root.
  Hypothesis Hg : o_gdb o = false.
  Hypothesis Hnm : o_no_mem o = false.
  Let F := raws root.
  Let n := root_n root.
  Let L := root_L root.
  Let K := root_K root.
  Let lf := root_bound root.
  Let m := input_mode o.
  Notation INV := (Inv hash o F n L K lf m db).

  Record mp_start (r : cset) (p0 : pstate) : Prop := mkMpStart {
    ms_prep : forall lf', (lf <= lf')%nat -> prepare_root hash lf' o root = Ok r;
    ms_start : start hash o r db = Ok p0;
    ms_inv : INV r p0 [] [r];
    ms_ev : evaluated_vars r = evaluated_vars root;
    ms_eq : satisfiable F <-> satisfiable (raws r)
  }.
  Lemma mp_begins : exists r p0, mp_start r p0.
  Proof.
    destruct (prepare_root_spec hash o lf (root_L root) root RO (root_below root) (le_n _))
      as (r & Ep & N & Hs & Hc & W & Hev & Heq).
    destruct (start_inv hash o F n L K lf m db r N Hs (or_intror Hc) W) as (p0 & Es & I0).
    assert (Er : set_hash r (Some (sid r)) = r) by (rewrite <- Hc; destruct r; auto). rewrite Er in I0.
    exists r, p0. constructor; auto. intros lf' Hle.
    unfold prepare_root in *. apply bind_ok in Ep as (s & E1 & E2). rewrite (to_lo_mono _ _ _ lf lf' _ _ Hle E1). exact E2.
  Qed.
  Definition tail (max fuel : nat) (r : cset) (p : pstate) : result outcome :=
    if o_no_stats o then
      Ok (mkOut (p_sat p) (p_solution p) (p_children p) (p_uniques p) 0 (p_hits p)
                (p_found p) (p_db p) (p_dot p))
    else
      bind (construct_graph_stats fuel (sid r) (p_children p)) (fun '(stats, rr) =>
      let '(u, rn, rh) := match dget text_eqb (sid r) stats with
                          | Some x => x | None => zero_stats end in
      Ok (mkOut (p_sat p) (p_solution p) (p_children p) u rn rh (p_found p)
                (if o_gdb o then save_in_global_db stats rr (p_db p) else p_db p) (p_dot p))).
  Lemma mp_unfold max wf arr fuel lf' r p0 : mp_start r p0 -> (lf <= lf')%nat ->
    solve_set_mp hash insert_fails max wf arr fuel lf' o root db =
    bind (run_mp hash insert_fails o [] max wf arr fuel lf' m (0 <? max)%nat p0) (tail max fuel r).
  Proof.
    intros [A B _ _ _] Hle. unfold solve_set_mp. destruct (to_pretty_total root) as [t Et]; [right; apply RO|].
    rewrite Et; cbn [bind]. rewrite (A lf' Hle); cbn [bind].
    assert (FD : fresh_db o insert_fails db) by (split; congruence).
    rewrite (fresh_unsolved insert_fails o db FD).
    destruct (fresh_loaded insert_fails o db FD (Z.of_nat (List.length (clauses r)))) as [_ ->].
    rewrite B. cbn [bind]. reflexivity.
  Qed.
  (* when the loop has ended, the statistics end too *)
  Lemma mp_ends max wf arr r p0 pf N : mp_start r p0 -> sound_state F r pf ->
    (forall fuel lf', (N <= fuel)%nat -> (lf <= lf')%nat ->
       run_mp hash insert_fails o [] max wf arr fuel lf' m (0 <? max)%nat p0 = Ok pf) ->
    exists out, ends_with_mp hash insert_fails max wf arr o root db out /\
      out_sat out = p_sat pf /\ out_solution out = p_solution pf /\ out_children out = p_children pf /\
      (o_no_stats o = false -> stat_row (p_children pf) (sid r) (out_uniques out, out_redundants out, out_hits out)).
  Proof.
    intros MS (_ & _ & (Hcl & _) & Hr) HN.
    set (sf := S (List.length (dkeys (p_children pf)))).
    destruct (construct_stats_spec (p_children pf) Hcl sf (sid r)) as (stats & rr & Est & Hst); [unfold sf; lia|auto|].
    destruct (Hst (sid r) Hr) as ([[u rn] rh] & Hget & Hrow).
    set (out := if o_no_stats o
      then mkOut (p_sat pf) (p_solution pf) (p_children pf) (p_uniques pf) 0 (p_hits pf) (p_found pf) (p_db pf) (p_dot pf)
      else mkOut (p_sat pf) (p_solution pf) (p_children pf) u rn rh (p_found pf)
                (if o_gdb o then save_in_global_db stats rr (p_db pf) else p_db pf) (p_dot pf)).
    exists out. split.
    - exists (Nat.max (Nat.max N sf) lf). intros fuel lf' H1 H2.
      rewrite (mp_unfold max wf arr fuel lf' r p0 MS) by lia. rewrite HN by lia. cbn [bind].
      unfold tail, out. destruct (o_no_stats o); auto. unfold construct_graph_stats in *.
      rewrite (graph_stats_mono _ _ sf fuel (ltac:(lia)) _ _ _ _ Est). cbn [bind].
      change digest with text in *. rewrite Hget. reflexivity.
    - unfold out. destruct (o_no_stats o); cbn; auto. repeat (split; auto). discriminate.
  Qed.

  (* all workers answer *)
  Record mp_result (r : cset) (pf : pstate) : Prop := mkMpResult {
    mr_sound : sound_state F r pf;
    mr_verdict : no_collision hash o lf m r -> satisfiable (raws r) -> p_sat pf = true;
    mr_graph : no_collision hash o lf m r -> o_exit o = false -> o_thief o = false ->
      exists E, cover hash o F n L K lf m r E /\ (forall h, In h (dkeys (p_children pf)) <-> In h (ids E)) /\
        (forall e, In e E -> dget text_eqb (sid (e_node e)) (p_children pf) = Some (e_kids e))
  }.
  Lemma inv_result r pf done pend : INV r pf done pend -> loop_done o pf = true -> mp_result r pf.
  Proof.
    intros I Hl. constructor.
    - eapply inv_state; eauto.
    - intros NC Hs. unfold loop_done in Hl. rewrite (inv_empty _ _ _ _ _ _ _ _ _ _ _ _ _ I) in Hl.
      destruct pend as [|x xs].
      + rewrite (i_sat _ _ _ _ _ _ _ _ _ _ _ _ _ I).
        pose proof (inv_complete _ _ _ _ _ _ _ _ _ _ _ _ I NC Hs). destruct (true_leaves done); congruence.
      + apply andb_true_iff in Hl as [Hl _]. rewrite (proj1 (sol_sat _ _ _ _ _ _ _ _ _ _ _ _ _ I)). exact Hl.
    - intros NC Hx Ht. assert (pend = []) as ->.
      { unfold loop_done in Hl. rewrite Hx, andb_false_r, orb_false_r, (inv_empty _ _ _ _ _ _ _ _ _ _ _ _ _ I) in Hl.
        destruct pend; auto. discriminate. }
      exists done. split; [eapply inv_cover; eauto|]. eapply inv_graph; eauto.
  Qed.
  Lemma mp_all max wf arr : (forall k, wf k = false) -> fair arr ->
    exists r p0 pf N, mp_start r p0 /\ mp_result r pf /\
      forall fuel lf', (N <= fuel)%nat -> (lf <= lf')%nat ->
       run_mp hash insert_fails o [] max wf arr fuel lf' m (0 <? max)%nat p0 = Ok pf.
  Proof.
    intros Hwf Hf. destruct mp_begins as (r & p0 & MS). pose proof (ms_inv _ _ MS) as I0.
    destruct (Nat.eq_dec max 0) as [->|Hm].
    { destruct (run_total hash insert_fails o [] (sp_gdb insert_fails o Hg) F n L K lf m (le_n _) db (sp_db o Hg db)
                _ r p0 [] [r] I0 (le_n _)) as (p & done & pend & Erun & I & Hl).
      exists r, p0, p, (weight [r]). split; auto. split; [eapply inv_result; eauto|].
      intros fuel lf' H1 H2. rewrite run_mp_max0. apply (run_mono hash insert_fails o [] lf lf' H2 m _ _ _ H1 _ Erun). }
    rewrite (proj2 (Nat.ltb_lt 0 max)) by lia.
    destruct (main_phase hash insert_fails o Hg F n L K lf m (le_n _) db max wf arr (weight [r]) r p0 [] [r] I0 (le_n _))
      as [(pf & d & pe & xs & A1 & A2 & A3 & _)|(xs & p1 & d & pe & I1 & _ & Hlen & He & Hne & _ & A7)].
    { exists r, p0, pf, (weight [r]). split; auto. split; [eapply inv_result; eauto|auto]. }
    destruct (all_work hash insert_fails o Hg F n L K lf m (le_n _) db pe) as [pks HW].
    { intros x Hx. apply (i_nodes _ _ _ _ _ _ _ _ _ _ _ _ _ I1). apply in_app_iff; auto. }
    destruct (split_is hash insert_fails o Hg F n L K lf m (le_n _) db max wf arr r p1 d pe pks I1 Hlen HW) as (q & f & Hq & Hsp).
    destruct (poll_answers (o_exit o) arr Hf _ (crew o wf 0 pe pks) 0 0 (with_queue p1 q) eq_refl
                (crew_answers hash insert_fails o F n L K lf m (le_n _) db pe pks HW wf Hwf))
      as (N & st & cs & rest & B1 & B2 & B3 & B4).
    set (pf := pl_state st) in *.
    assert (Hinc : incl cs (crew o wf 0 pe pks)).
    { intros w Hw. apply (Permutation_in _ (Permutation_sym B2)). apply in_app_iff; auto. }
    assert (Hrest : rest = [] -> Permutation (crew o wf 0 pe pks) cs) by (intros ->; rewrite app_nil_r in B2; auto).
    exists r, p0, pf, (List.length xs + Nat.max f N)%nat. split; auto. split.
    - constructor; rewrite B3.
      + apply (fold_sound hash insert_fails o F n L K lf m (le_n _) db r p1 d pe I1 pks HW wf Hwf); auto.
        apply (inv_state _ _ _ _ _ _ _ _ _ _ _ _ _ I1).
      + intros NC Hs. destruct B4 as [Er|(_ & w & Hw & Htr)].
        * apply (all_verdict hash insert_fails o F n L K lf m (le_n _) db r p1 d pe I1 pks HW wf Hwf); auto.
        * eapply (truthy_sat hash insert_fails o F n L K lf m (le_n _) db r p1 d pe I1 pks HW wf Hwf); eauto.
      + intros NC Hx Ht. destruct B4 as [Er|(Hx' & _)]; [|congruence].
        apply (all_graph hash insert_fails o F n L K lf m (le_n _) db r p1 d pe I1 pks HW wf Hwf); auto.
    - intros fuel lf' H1 H2. replace fuel with (List.length xs + (fuel - List.length xs))%nat by lia.
      rewrite A7 by auto. rewrite Hsp by (auto; lia). rewrite B1 by lia. cbn [bind]. fold pf.
      assert (El : loop_done o pf = true).
      { unfold loop_done. rewrite B3, (proj1 (absorbed_fields cs (with_queue p1 q))). cbn [p_queue with_queue]. rewrite Hq. auto. }
      destruct (fuel - List.length xs)%nat; cbn [run]; rewrite El; auto.
  Qed.
End Mp.
