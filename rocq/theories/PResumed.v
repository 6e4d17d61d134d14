(* PResumed.v -- the run on a table left behind by an interrupted run, from start to outcome. *)
From Coq Require Import String Ascii ZArith List Bool Lia Permutation Sorted.
From Verif Require Import Spec PyBase MSet MText MQueue MDb MSolver SpecRun PLib PClause PRename PLo PNorm PEval PText PQueue PNode PStep PRun PStats PSolver PSolve PSearch PDb PResume PReplay.
Import ListNotations.
Open Scope Z_scope.

Lemma searched_same hash o1 o2 root x : same_search o1 o2 -> searched hash o1 root x -> searched hash o2 root x.
Proof.
  intros (E1 & E2 & E3 & E4) H. induction H as [lf r Hp|lf x l r c c1 c2 h Hx IH Ev Hc Hv Hlo Hh].
  - apply (searched_root hash o2 root lf). unfold prepare_root in *. rewrite <- E1, <- E2, <- E3. exact Hp.
  - apply (searched_child hash o2 root lf x l r c c1 c2 h); auto; [rewrite <- E4; auto|].
    unfold branch_mode, input_mode in *. rewrite <- E1, <- E2, <- E3. exact Hlo.
Qed.
Lemma same_search_sym o1 o2 : same_search o1 o2 -> same_search o2 o1.
Proof. intros (E1 & E2 & E3 & E4). repeat split; auto. Qed.
Lemma collision_free_same hash o1 o2 root : same_search o1 o2 -> collision_free hash o1 root -> collision_free hash o2 root.
Proof. intros S H x y tx ty Hx Hy. apply H; eapply searched_same; eauto using same_search_sym. Qed.
Lemma constants_distinct_same hash o1 o2 root : same_search o1 o2 -> constants_distinct hash o1 root -> constants_distinct hash o2 root.
Proof. intros S [H1 H2]. split; auto. intros x t Hx. apply H2. eapply searched_same; eauto using same_search_sym. Qed.

Definition no_exit (o : opts) : opts :=
  mkOpts (o_mode o) (o_sort_by_size o) (o_thief o) false (o_rdb o) (o_gdb o) (o_no_mem o) (o_no_stats o) (o_graph o).
Lemma same_no_exit o : same_search o (no_exit o). Proof. repeat split. Qed.
Lemma exec_no_exit hash ifl o seen lf m p xs p' : exec hash ifl o seen lf m p xs p' -> exec hash ifl (no_exit o) seen lf m p xs p'.
Proof.
  intros H. induction H; [constructor|]. econstructor; eauto.
  unfold loop_done in *. cbn [no_exit o_exit]. apply orb_false_iff in H as [-> _]. rewrite andb_false_r. auto.
Qed.

Section Resumed.
  Variable hash : text -> digest.
  Variables if1 if2 : digest -> bool.
  Variables o1 o2 : opts.
  Variable root : cset.
  Variable lf : nat.
  Variable r : cset.
  Variables p0 p : pstate.
  Variable expanded : list cset.
  Hypothesis RO : root_ok root.
  Hypothesis NF1 : forall h, if1 h = false.
  Hypothesis NF2 : forall h, if2 h = false.
  Hypothesis G1 : o_gdb o1 = true.
  Hypothesis G2 : o_gdb o2 = true.
  Hypothesis SS : same_search o1 o2.
  Hypothesis CD : constants_distinct hash o1 root.
  Hypothesis Hp : prepare_root hash lf o1 root = Ok r.
  Hypothesis Hs : start hash o1 r [] = Ok p0.
  Hypothesis He : exec hash if1 o1 [] lf (input_mode o1) p0 expanded p.

  Let oN := no_exit o1.
  Let F := raws root.
  Let n := root_n root.
  Let L := root_L root.
  Let K := List.length (clauses r).
  Let lfx := Nat.max lf (root_bound root).
  Let m := input_mode o1.
  Let T := p_db p.
  Let seen := loaded_seen o2 T (Z.of_nat (List.length (clauses r))).
  Let Hg1 : o_gdb oN = true -> @nil digest = [] /\ forall h, if1 h = false := fun _ => conj eq_refl NF1.
  Let Hd1 : o_gdb oN = true -> @nil (digest * row) = [] := fun _ => eq_refl.
  Notation INV := (Inv hash oN F n L K lfx m []).

  Lemma rs_mode : input_mode o2 = m.
  Proof. unfold m, input_mode. destruct SS as (-> & _). auto. Qed.
  Lemma rs_prep o lf' : same_search o1 o -> (root_bound root <= lf')%nat -> prepare_root hash lf' o root = Ok r.
  Proof.
    intros S Hl.
    assert (E : prepare_root hash lf' o1 root = Ok r).
    { destruct (prepare_root_spec hash o1 lf' (root_L root) root RO (root_below root) Hl) as (r' & Ep & _).
      pose proof (prepare_root_same hash o1 root lf' r' RO Ep) as A.
      pose proof (prepare_root_same hash o1 root lf r RO Hp) as B. congruence. }
    destruct S as (E1 & E2 & E3 & E4). unfold prepare_root in *. rewrite <- E1, <- E2, <- E3. exact E.
  Qed.
  Lemma rs_root : node F r /\ sid r = fhash hash (raws r) /\ computed_hash r = Some (sid r) /\ within n L K r /\
    evaluated_vars r = evaluated_vars root /\ (satisfiable F <-> satisfiable (raws r)) /\ (lo_bound n L K <= lfx)%nat.
  Proof.
    destruct (prepare_root_spec hash o1 lfx (root_L root) root RO (root_below root) (Nat.le_max_r _ _))
      as (r' & Ep & N & A1 & A2 & W & A3 & A4).
    rewrite (rs_prep o1 lfx (conj eq_refl (conj eq_refl (conj eq_refl eq_refl))) (Nat.le_max_r _ _)) in Ep. injection Ep as <-.
    split; auto. split; auto. split; auto. split.
    { destruct W as (W1 & W2 & W3). split; auto. }
    split; auto. split; auto. destruct W as (W1 & W2 & W3).
    etransitivity; [|apply (Nat.le_max_r lf)]. unfold root_bound. apply lo_bound_mono; auto.
  Qed.
  Lemma rs_first : exists doneT pendT,
    INV r p0 [] [r] /\ INV r p doneT pendT /\ exec hash if1 oN [] lfx m p0 expanded p /\
    List.length doneT = List.length expanded.
  Proof.
    destruct rs_root as (N & Hsd & Hc & W & _ & _ & Hb).
    destruct (start_inv hash oN F n L K lfx m [] r N Hsd (or_intror Hc) W) as (q & Es & I).
    assert (Er : set_hash r (Some (sid r)) = r) by (rewrite <- Hc; destruct r; auto). rewrite Er in I.
    change (start hash o1 r [] = Ok q) in Es. rewrite Hs in Es. injection Es as <-.
    assert (He' : exec hash if1 oN [] lfx m p0 expanded p).
    { apply exec_no_exit. eapply exec_more; [|exact He]. apply Nat.le_max_l. }
    destruct (exec_inv_ext hash if1 oN [] F n L K lfx m [] Hg1 Hb Hd1 r _ _ _ He' _ _ I) as (d & pe & ad & I2 & Ex & _).
    exists d, pe. split; auto. split; auto. split; auto. rewrite Ex, map_length. auto.
  Qed.
  Lemma rs_const : hash (txt "T") <> hash (txt "F") /\
    forall x, reach hash oN lfx m r x -> sid x <> hash (txt "T") /\ sid x <> hash (txt "F").
  Proof.
    destruct rs_root as (N & Hsd & Hc & W & _ & _ & Hb).
    destruct (constants_distinct_same _ _ _ _ (same_no_exit o1) CD) as [C1 C2]. split; auto. intros x Hx.
    assert (Nr : is_node hash F n L K r) by (split; auto).
    destruct (reach_node hash oN F n L K lfx m r x Nr Hb Hx) as (Nx & Sx & _). rewrite Sx.
    apply (C2 x); [|eapply node_text; eauto].
    eapply (reach_searched hash oN root F n L K lfx r); eauto.
    apply rs_prep; [apply same_no_exit|apply Nat.le_max_r].
  Qed.
  Lemma rs_rows doneT pendT h w : INV r p doneT pendT -> In (h, w) T ->
    r_unique w = 0 /\ r_num_clauses w <= Z.of_nat (List.length (clauses r)).
  Proof.
    intros I Hi. unfold T in Hi. rewrite (db_rows hash oN F n L K lfx m r G1 _ _ _ I) in Hi.
    apply in_map_iff in Hi as ([[x k1] k2] & E & Hin). injection E as <- <-. cbn. split; auto.
    destruct (i_nodes _ _ _ _ _ _ _ _ _ _ _ _ _ I x) as [(_ & _ & _ & W) _].
    { apply in_app_iff. left. apply in_map_iff. exists (x, k1, k2). auto. }
    destruct W as (_ & _ & W). unfold K in W. lia.
  Qed.
  Lemma rs_unsolved doneT pendT : INV r p doneT pendT ->
    is_set_solved o2 (loaded_solved o2 T (Z.of_nat (List.length (clauses r)))) (sid r) T = false.
  Proof.
    intros I. unfold is_set_solved, loaded_solved. rewrite G2. destruct (o_no_mem o2); cbn [andb negb].
    - unfold gs_is_hash_solved. destruct (dget text_eqb (sid r) T) as [w|] eqn:E; auto.
      apply (dget_In _ tspec) in E. destruct (rs_rows _ _ _ _ I E) as [-> _]. auto.
    - destruct (dmem text_eqb (sid r) (gs_load_solved_sets T (Z.of_nat (List.length (clauses r))))) eqn:E; auto.
      apply (dmem_In _ tspec) in E. unfold gs_load_solved_sets, dkeys in E. rewrite map_map in E.
      apply in_map_iff in E as ([h w] & _ & Hf). apply filter_In in Hf as [Hi Hf]. cbn [snd] in Hf.
      destruct (rs_rows _ _ _ _ I Hi) as [Hu _]. rewrite Hu in Hf. rewrite andb_false_r in Hf. discriminate.
  Qed.
  Lemma rs_seen doneT pendT : INV r p doneT pendT ->
    o_no_mem o2 = false -> forall h, existsb (text_eqb h) seen = true <-> In h (dkeys T).
  Proof.
    intros I En h. unfold seen, loaded_seen. rewrite G2, En. cbn [andb negb].
    assert (E : gs_load_unsolved_sets T (Z.of_nat (List.length (clauses r))) = dkeys T).
    { unfold gs_load_unsolved_sets, dkeys. f_equal.
      assert (G : forall t, incl t T -> filter (fun kv => (r_num_clauses (snd kv) <=? Z.of_nat (List.length (clauses r))) && (r_unique (snd kv) =? 0)) t = t).
      { induction t as [|[a w] t IH]; intros Hi; auto. cbn [filter snd].
        destruct (rs_rows _ _ a w I) as [U1 U2]; [apply Hi; left; auto|]. rewrite U1.
        rewrite (proj2 (Z.leb_le _ _) U2). cbn [Z.eqb andb]. f_equal. apply IH. intros x Hx. apply Hi. right; auto. }
      apply G, incl_refl. }
    rewrite E. split.
    - intros H. apply existsb_exists in H as (h' & Hh & Eh). apply text_eqb_eq in Eh. rewrite Eh. clear Eh.
      apply in_app_iff in Hh as [Hh|Hh]; auto. unfold gs_load_solved_sets in Hh. rewrite map_map in Hh.
      apply in_map_iff in Hh as ([a w] & <- & Hf). apply filter_In in Hf as [Hf _]. apply (in_map fst) in Hf. exact Hf.
    - intros Hh. apply existsb_exists. exists h. split; [apply in_app_iff; auto|apply text_eqb_refl].
  Qed.

  Lemma rs_stuck p2 xs p2' : start hash o2 r T = Ok p2 -> (exists d pe, INV r p d pe) ->
    exec hash if2 o2 seen lfx m p2 xs p2' -> stuck hash if2 o2 seen m p2' ->
    exists N, forall fuel lf', (N <= fuel)%nat -> (N <= lf')%nat ->
      solve_set hash if2 fuel lf' o2 root T = Err IndexError.
  Proof.
    intros Es (d & pe & I) EX [Hl Hst]. exists (Nat.max lfx (S (List.length xs))). intros fuel lf' H1 H2.
    unfold solve_set. destruct (to_pretty_total root) as [t Et]; [right; apply RO|]. rewrite Et; cbn [bind].
    rewrite (rs_prep o2 lf' SS) by (unfold lfx in H2; lia). cbn [bind]. rewrite (rs_unsolved _ _ I).
    fold seen. unfold process_nodes_queue. rewrite Es. cbn [bind]. rewrite rs_mode.
    rewrite (exec_run_err hash if2 o2 seen lf' m p2 xs p2' IndexError); auto; [eapply exec_more; [|exact EX]; lia|lia].
  Qed.
  Lemma rs_ends p2 xs p2' : start hash o2 r T = Ok p2 -> (exists d pe, INV r p d pe) ->
    exec hash if2 o2 seen lfx m p2 xs p2' -> loop_done o2 p2' = true ->
    closed_graph (p_children p2') -> In (sid r) (dkeys (p_children p2')) ->
    exists out, ends_with hash if2 o2 root T out /\ out_sat out = p_sat p2' /\ out_solution out = p_solution p2' /\
      out_children out = p_children p2' /\ out_found out = p_found p2'.
  Proof.
    intros Es (d & pe & I) EX Hl Hcl Hroot.
    set (sf := S (List.length (dkeys (p_children p2')))).
    destruct (construct_stats_spec (p_children p2') Hcl sf (sid r)) as (stats & rr & Est & Hst); [unfold sf; lia|auto|].
    destruct (Hst (sid r) Hroot) as ([[u rn] rh] & Hget & Hrow).
    set (out := if o_no_stats o2
      then mkOut (p_sat p2') (p_solution p2') (p_children p2') (p_uniques p2') 0 (p_hits p2') (p_found p2') (p_db p2') (p_dot p2')
      else mkOut (p_sat p2') (p_solution p2') (p_children p2') u rn rh (p_found p2')
                (if o_gdb o2 then save_in_global_db stats rr (p_db p2') else p_db p2') (p_dot p2')).
    exists out. split.
    - set (f0 := Nat.max (List.length xs) sf). exists (Nat.max f0 lfx). intros fuel lf' H1 H2.
      apply (solve_set_mono hash if2 o2 root T f0 fuel lfx lf'); try lia.
      unfold solve_set.
      destruct (to_pretty_total root) as [t Et]; [right; apply RO|]. rewrite Et; cbn [bind].
      rewrite (rs_prep o2 lfx SS) by apply Nat.le_max_r. cbn [bind]. rewrite (rs_unsolved _ _ I).
      fold seen. unfold process_nodes_queue. rewrite Es. cbn [bind]. rewrite rs_mode.
      rewrite (exec_run hash if2 o2 seen lfx m p2 xs p2' EX Hl f0) by apply Nat.le_max_l. cbn [bind].
      unfold out. destruct (o_no_stats o2); auto. unfold construct_graph_stats in *.
      rewrite (graph_stats_mono _ _ sf f0 (Nat.le_max_r _ _) _ _ _ _ Est). cbn [bind].
      change digest with text in *. rewrite Hget. reflexivity.
    - unfold out. destruct (o_no_stats o2); cbn; auto.
  Qed.

  Notation SIM := (Sim hash oN o2 F n L K lfx m r).
  Lemma rs_root_key p1 done pend : INV r p1 done pend -> In (sid r) (dkeys (p_children p1)).
  Proof.
    intros I. rewrite (i_keys _ _ _ _ _ _ _ _ _ _ _ _ _ I). apply in_map.
    pose proof (i_root _ _ _ _ _ _ _ _ _ _ _ _ _ I) as Hr. destruct (ys done pend); [discriminate|].
    injection Hr as ->. simpl; auto.
  Qed.

  (* whatever the second run does, its verdict is right *)
  Lemma rs_any :
    (exists N, forall fuel lf', (N <= fuel)%nat -> (N <= lf')%nat ->
       solve_set hash if2 fuel lf' o2 root T = Err IndexError) \/
    exists out, ends_with hash if2 o2 root T out /\
      (out_sat out = true -> satisfiable F) /\
      (collision_free hash o2 root -> satisfiable F -> out_sat out = true) /\
      (out_sat out = false -> out_solution out = None) /\
      (forall sol, out_solution out = Some sol -> sol = [] \/ (forall a, extends a sol -> cnf_true a F)).
  Proof.
    destruct rs_root as (N & Hsd & Hc & W & _ & Heq & Hb). destruct rs_const as [HTF Hconst].
    destruct rs_first as (doneT & pendT & I0 & IT & E1 & _).
    pose proof SS as (SS1 & SS2 & SS3 & SS4).
    destruct (start2 hash oN o2 F n L K lfx m r p SS4 p0 Hs I0 Hc) as (p2 & Es & SM & Edb & Esol & Efo).
    destruct (sim_exec hash if1 if2 oN o2 seen F n L K lfx m r p doneT pendT G1 eq_refl NF1 G2 NF2 SS4 SS2 SS3 Hb IT HTF Hconst
                (rs_seen _ _ IT) (weight [r]) p0 [] [r] p2 [r] SM) as (xs1 & xs2 & p1' & p2' & d' & pe & pe2 & X1 & X2 & SM' & Hend).
    { left. exists expanded. split; auto. } { lia. }
    destruct Hend as [Hl|Hst]; [right|left; eapply rs_stuck; eauto].
    destruct SM' as (I' & C & Q & AL).
    destruct (inv_closed _ _ _ _ _ _ _ _ _ _ _ _ _ I') as [Hcl _].
    destruct (rs_ends p2 xs2 p2' Es (ex_intro _ _ (ex_intro _ _ IT)) X2 Hl) as (out & En & A1 & A2 & _).
    { rewrite (co_children _ _ C). exact Hcl. }
    { rewrite (co_children _ _ C). eapply rs_root_key; eauto. }
    exists out. split; auto. rewrite A1, A2, (co_sat _ _ C).
    destruct (sol_sat _ _ _ _ _ _ _ _ _ _ _ _ _ I') as [B1 B2]. split; [|split; [|split]].
    - intros Hsat. eapply inv_sound; eauto.
    - intros CF Hsat. apply Heq in Hsat. unfold loop_done in Hl. rewrite (qrep_empty _ _ _ _ Q) in Hl.
      destruct pe2 as [|y ys2].
      + inversion AL; subst. rewrite (i_sat _ _ _ _ _ _ _ _ _ _ _ _ _ I').
        assert (NC : no_collision hash oN lfx m r).
        { apply (collision_free_no hash oN root lfx r RO (Nat.le_max_r _ _)).
          - apply rs_prep; [apply same_no_exit|apply Nat.le_max_r].
          - eapply collision_free_same; [|exact CF]. apply same_search_sym in SS. exact SS. }
        pose proof (inv_complete hash oN F n L K lfx m [] r p1' _ I' NC Hsat).
        destruct (true_leaves _); congruence.
      + cbn [orb] in Hl. apply andb_true_iff in Hl as [Hl _]. rewrite B1.
        destruct (co_sol _ _ C) as [<-|[_ Hz]]; auto. rewrite Hz in Hl. discriminate.
    - intros Hsat. rewrite Hsat in B1. destruct (p_solution p1') as [[|]|] eqn:Eso; try discriminate.
      + destruct (B2 [] eq_refl) as (_ & _ & A & _). congruence.
      + destruct (co_sol _ _ C) as [->|[Hn _]]; auto. congruence.
    - intros sol Hsol. destruct (co_sol _ _ C) as [Hz|[_ Hz]].
      + right. rewrite Hz in Hsol. destruct (B2 sol Hsol) as (A & _). auto.
      + left. congruence.
  Qed.

  (* when every child of the root is in the table *)
  Lemma rs_loaded : (forall h, In h (succs (p_children p) (sid r)) -> In h (dkeys T)) -> expanded <> [] ->
    (queue_is_empty (p_queue p) = false /\
     exists N, forall fuel lf', (N <= fuel)%nat -> (N <= lf')%nat ->
       solve_set hash if2 fuel lf' o2 root T = Err IndexError) \/
    (queue_is_empty (p_queue p) = true /\
     exists out, ends_with hash if2 o2 root T out /\ out_sat out = p_sat p /\
       out_solution out = (if p_sat p then Some [] else None) /\ out_children out = p_children p /\
       out_found out = Z.of_nat (List.length expanded)).
  Proof.
    intros Hkids Hne.
    destruct rs_root as (N & Hsd & Hc & W & _ & Heq & Hb). destruct rs_const as [HTF Hconst].
    destruct rs_first as (doneT & pendT & I0 & IT & E1 & _).
    pose proof SS as (SS1 & SS2 & SS3 & SS4).
    destruct (start2 hash oN o2 F n L K lfx m r p SS4 p0 Hs I0 Hc) as (p2 & Es & SM & Edb & Esol & Efo).
    assert (HinT : In (sid r) (dkeys T)).
    { destruct expanded as [|x0 xs0]; [congruence|]. inversion E1 as [|? x1 q1 p3 xs1 p4 Hl1 Hp1 Hs1 He1]; subst.
      destruct (step_inv hash if1 oN [] Hg1 F n L K lfx m Hb [] Hd1 r p0 [] r [] I0)
        as (p3' & k1 & k2 & E2 & I' & X). rewrite Hs1 in E2; inv E2.
      destruct (exec_inv_ext hash if1 oN [] F n L K lfx m [] Hg1 Hb Hd1 r _ _ _ He1 _ _ I')
        as (d' & pe & ad & I2 & _ & Ey).
      unfold T. rewrite (db_keys hash oN F n L K lfx m r G1 _ _ _ I2). cbn [app map e_node fst]. left; auto. }
    destruct (sim_pull hash if1 if2 oN o2 seen F n L K lfx m r p doneT pendT G1 NF1 G2 Hb IT HTF Hconst
                (rs_seen _ _ IT) p0 [] r [] p2 r [] expanded SM E1 Edb HinT)
      as (p1' & k1 & k2 & zs' & Est & I' & EX & He' & Ezs & GN & GP).
    destruct GP as (p2' & E2 & SM' & Hdb' & Hf & HU).
    { destruct (exec_inv_ext hash if1 oN [] F n L K lfx m [] Hg1 Hb Hd1 r _ _ _ He' _ _ I')
        as (d' & pe & ad & I2 & _ & Ey).
      destruct (i_done _ _ _ _ _ _ _ _ _ _ _ _ _ I2 (r, k1, k2)) as [Hd _]; [simpl; auto|].
      intros h Hh. apply Hkids. unfold succs. cbn [e_node fst] in Hd. rewrite Hd. exact Hh. }
    cbn [app] in SM'.
    destruct (dead_exec hash if1 if2 oN o2 seen F n L K lfx m r p doneT pendT G1 NF1 G2 Hb IT HTF Hconst
                (rs_seen _ _ IT) zs' p1' _ _ p2' He' SM' Hdb' (HU (or_introl Esol))) as (xs2 & p2'' & d' & X & Y).
    assert (El : loop_done o2 p2 = false).
    { unfold loop_done. rewrite (sim_live hash oN o2 F n L K lfx m r _ _ _ _ _ SM), Esol. auto. }
    destruct SM as (_ & _ & Q0 & _).
    destruct (exec2_cons hash if2 o2 seen lfx m p2 _ _ _ p2' xs2 p2'' El Q0 E2 X) as (xs2' & X' & Hlen).
    destruct Y as [[Hst Hq]|(Hl & Hq & SM2 & U & _ & Hf2)].
    - left. split; auto. eapply rs_stuck; eauto.
    - right. split; auto. destruct SM2 as (I2 & C & _ & _).
      destruct (inv_closed _ _ _ _ _ _ _ _ _ _ _ _ _ I2) as [Hcl _].
      destruct (rs_ends p2 xs2' p2'' Es (ex_intro _ _ (ex_intro _ _ IT)) X' Hl) as (out & En & A1 & A2 & A3 & A4).
      { rewrite (co_children _ _ C). exact Hcl. }
      { rewrite (co_children _ _ C). eapply rs_root_key; eauto. }
      exists out. split; auto. split; [rewrite A1; apply C|]. split; [|split; [rewrite A3; apply C|]].
      + rewrite A2. destruct (sol_sat _ _ _ _ _ _ _ _ _ _ _ _ _ I2) as [B1 B2]. rewrite B1.
        destruct (co_sol _ _ C) as [Hz|[Hn Hz]].
        * destruct U as [U|U]; rewrite U in *; rewrite <- Hz; auto.
          destruct (B2 [] (eq_sym Hz)) as (_ & _ & A & _). congruence.
        * rewrite Hz. destruct (p_solution p) as [[|]|] eqn:Eso; auto; [|congruence].
          destruct (B2 [] eq_refl) as (_ & _ & A & _). congruence.
      + rewrite A4, Hf2, Hf, Efo, Ezs. cbn [List.length]. lia.
  Qed.
End Resumed.
