(* PP7.v -- proofs of C36-C40 (the global table); Properties7.v states them. *)
From Coq Require Import String Ascii ZArith List Bool Lia Permutation Sorted.
From Verif Require Import Spec PyBase MSet MText MQueue MDb MSolver MMain SpecInput SpecRun PLib PClause PRename PLo PNorm PEval PText PQueue PNode PStep PRun PStats PSolver PSolve PSearch PGraph PMain PDb PP1 PP2.
Import ListNotations.
Open Scope Z_scope.

(* C36: with a fresh global table, verdict, solution, recorded graph and counts are those of
   the run without the global DB *)
Lemma p_C36_fresh_db_harmless : forall hash insert_fails o1 o2 root db2 out1 out2,
  root_ok root -> (forall h, insert_fails h = false) -> o_gdb o1 = true -> o_gdb o2 = false -> o_no_mem o2 = false ->
  o_mode o1 = o_mode o2 -> o_sort_by_size o1 = o_sort_by_size o2 -> o_thief o1 = o_thief o2 ->
  o_exit o1 = o_exit o2 -> o_rdb o1 = o_rdb o2 -> o_no_stats o1 = o_no_stats o2 ->
  ends_with hash insert_fails o1 root [] out1 -> ends_with hash insert_fails o2 root db2 out2 ->
  out_sat out1 = out_sat out2 /\ out_solution out1 = out_solution out2 /\
  out_children out1 = out_children out2 /\ out_uniques out1 = out_uniques out2 /\
  out_redundants out1 = out_redundants out2 /\ out_hits out1 = out_hits out2 /\ out_db out2 = db2.
Proof.
  intros hash ifl o1 o2 root db2 out1 out2 RO NF G1 G2 M2 Em Ez Et Ee Er En E1 E2.
  assert (F1 : fresh_db o1 ifl []) by (split; auto).
  assert (F2 : fresh_db o2 ifl db2) by (split; congruence).
  destruct (ends_solved hash ifl o1 root [] RO F1 out1 E1) as (r & p1 & dn1 & pd1 & S1).
  destruct (ends_solved hash ifl o2 root db2 RO F2 out2 E2) as (r' & p2 & dn2 & pd2 & S2).
  assert (r' = r) as ->.
  { pose proof (sv_prep _ _ _ _ _ _ _ _ _ _ _ S1) as P1. pose proof (sv_prep _ _ _ _ _ _ _ _ _ _ _ S2) as P2.
    unfold prepare_root in *. rewrite Em, Ez, Et in P1. rewrite P1 in P2. congruence. }
  assert (Emi : input_mode o1 = input_mode o2) by (unfold input_mode; rewrite Em; auto).
  set (lf := root_bound root) in *. pose proof (sv_bound _ _ _ _ _ _ _ _ _ _ _ S1) as Hb.
  destruct (prepare_root_spec hash o1 lf (root_L root) root RO (root_below root) Hb)
      as (r0 & Ep & N & Hsd & Hc & W & _). rewrite (sv_prep _ _ _ _ _ _ _ _ _ _ _ S1) in Ep. injection Ep as <-.
  assert (Erh : set_hash r (Some (sid r)) = r) by (rewrite <- Hc; destruct r; auto).
  destruct (start_inv hash o1 (raws root) (root_n root) (root_L root) (root_K root) lf (input_mode o1) [] r
                N Hsd (or_intror Hc) W) as (q1 & Es1 & I1).
  destruct (start_inv hash o2 (raws root) (root_n root) (root_L root) (root_K root) lf (input_mode o2) db2 r
                N Hsd (or_intror Hc) W) as (q2 & Es2 & I2).
  rewrite Erh in I1, I2. rewrite <- Emi in I2.
  destruct (sv_run _ _ _ _ _ _ _ _ _ _ _ S1) as [f1 R1]. destruct (sv_run _ _ _ _ _ _ _ _ _ _ _ S2) as [f2 R2].
  unfold process_nodes_queue in R1, R2. rewrite Es1 in R1. rewrite Es2 in R2. cbn [bind] in R1, R2. rewrite <- Emi in R2.
  assert (Hg1 : o_gdb o1 = true -> @nil digest = [] /\ forall h, ifl h = false) by auto.
  assert (Hg2 : o_gdb o2 = true -> @nil digest = [] /\ forall h, ifl h = false) by auto.
  assert (Hd2 : o_gdb o2 = true -> db2 = []) by congruence.
  destruct (run_lock hash ifl ifl o1 o2 [] [] Hg1 Hg2 (raws root) (root_n root) (root_L root) (root_K root)
              lf (input_mode o1) Hb [] db2 (fun _ => eq_refl) Hd2 Er Ez Et Ee f1 f2 r q1 q2 p1 p2 [] [r] I1 I2 R1 R2)
    as (done & pend & J1 & J2).
  rewrite (sv_sat _ _ _ _ _ _ _ _ _ _ _ S1), (sv_sol _ _ _ _ _ _ _ _ _ _ _ S1), (sv_children _ _ _ _ _ _ _ _ _ _ _ S1).
  rewrite (sv_sat _ _ _ _ _ _ _ _ _ _ _ S2), (sv_sol _ _ _ _ _ _ _ _ _ _ _ S2), (sv_children _ _ _ _ _ _ _ _ _ _ _ S2).
  assert (Ech : p_children p1 = p_children p2) by exact (lock_children hash o1 o2 _ _ _ _ _ _ [] db2 r p1 p2 done pend J1 J2).
  split; [rewrite (i_sat _ _ _ _ _ _ _ _ _ _ _ _ _ J1), (i_sat _ _ _ _ _ _ _ _ _ _ _ _ _ J2); auto|].
  split; [rewrite (i_sol _ _ _ _ _ _ _ _ _ _ _ _ _ J1), (i_sol _ _ _ _ _ _ _ _ _ _ _ _ _ J2); auto|].
  split; [exact Ech|].
  assert (Edb : p_db p2 = db2).
  { rewrite (i_db _ _ _ _ _ _ _ _ _ _ _ _ _ J2), G2, app_nil_r. auto. }
  destruct (o_no_stats o1) eqn:N1.
  - destruct (sv_nostats _ _ _ _ _ _ _ _ _ _ _ S1 N1) as (-> & -> & -> & _).
    destruct (sv_nostats _ _ _ _ _ _ _ _ _ _ _ S2 (eq_sym En)) as (-> & -> & -> & ->).
    pose proof (i_uniq _ _ _ _ _ _ _ _ _ _ _ _ _ J1). pose proof (i_uniq _ _ _ _ _ _ _ _ _ _ _ _ _ J2).
    pose proof (i_hits _ _ _ _ _ _ _ _ _ _ _ _ _ J1). pose proof (i_hits _ _ _ _ _ _ _ _ _ _ _ _ _ J2).
    repeat split; auto; lia.
  - destruct (sv_stats _ _ _ _ _ _ _ _ _ _ _ S1 N1) as (g1 & st1 & rr1 & C1 & D1 & _).
    destruct (sv_stats _ _ _ _ _ _ _ _ _ _ _ S2 (eq_sym En)) as (g2 & st2 & rr2 & C2 & D2 & _ & ->).
    rewrite G2, Edb. rewrite Ech in C1. unfold construct_graph_stats in *.
    apply (graph_stats_mono _ _ g1 (Nat.max g1 g2)) in C1; [|lia].
    apply (graph_stats_mono _ _ g2 (Nat.max g1 g2)) in C2; [|lia].
    rewrite C1 in C2. injection C2 as <- <-. rewrite D1 in D2. injection D2 as <- <- <-. auto.
Qed.

(* C36: afterwards the table has one row for each expanded node of the recorded graph (for every node, when
   the run is not cut short by a solution), holding its text, clause count and the hashes of its two
   branches *)
Lemma p_C36_rows : forall hash insert_fails o root out,
  root_ok root -> fresh_db o insert_fails [] -> o_gdb o = true -> ends_with hash insert_fails o root [] out ->
  let t := out_db out in let g := out_children out in
  NoDup (dkeys t) /\
  (exists waiting, dkeys g = dkeys t ++ waiting /\ (forall h, In h waiting -> succs g h = []) /\
     (o_exit o = false -> waiting = [])) /\
  (forall h r, In (h, r) t -> exists x left right, searched hash o root x /\
     h = hash (formula_text (raws x)) /\ r_body r = formula_text (raws x) /\
     r_num_clauses r = Z.of_nat (List.length (raws x)) /\
     evaluate (view (o_rdb o) x) = Ok (Some (left, right)) /\
     branch_hash hash o left (r_cid1 r) /\ branch_hash hash o right (r_cid2 r)).
Proof.
  intros hash ifl o root out RO FD Hg E t g. unfold t, g. clear t g.
  destruct (ends_solved hash ifl o root [] RO FD out E) as (r & p & done & pend & S).
  pose proof (sv_inv _ _ _ _ _ _ _ _ _ _ _ S) as I.
  pose proof (left_keys hash ifl o root Hg out _ r p done pend S) as Ek.
  rewrite (sv_children _ _ _ _ _ _ _ _ _ _ _ S).
  pose proof (i_nodup _ _ _ _ _ _ _ _ _ _ _ _ _ I) as ND.
  assert (ND' : NoDup (dkeys (out_db out))).
  { rewrite Ek. unfold ys in ND. rewrite map_app in ND. apply NoDup_app_left in ND. exact ND. }
  split; [exact ND'|]. split.
  - exists (map sid pend). split; [rewrite (i_keys _ _ _ _ _ _ _ _ _ _ _ _ _ I), Ek; unfold ys; rewrite map_app; auto|].
    split.
    + intros h Hh. apply in_map_iff in Hh as (y & <- & Hy). unfold succs.
      rewrite (i_pend _ _ _ _ _ _ _ _ _ _ _ _ _ I y Hy). auto.
    + intros Hex. pose proof (sv_done _ _ _ _ _ _ _ _ _ _ _ S) as Hl. unfold loop_done in Hl.
      rewrite Hex, andb_false_r, orb_false_r, (inv_empty _ _ _ _ _ _ _ _ _ _ _ _ _ I) in Hl.
      destruct pend; [auto|discriminate].
  - intros h rw Hi.
    assert (Hh : In h (dkeys (out_db out))) by (apply (in_map fst) in Hi; exact Hi).
    rewrite Ek in Hh. rewrite map_map in Hh. apply in_map_iff in Hh as (e & <- & He).
    destruct (left_row hash ifl o root Hg out _ r p done pend e S He) as (n & s & Eg & _).
    apply (dget_In_NoDup _ tspec _ _ _ ND') in Hi. change digest with text in *. rewrite Eg in Hi. injection Hi as <-.
    destruct e as [[x k1] k2]. cbn [e_node fst snd row_of_entry] in *.
    destruct (i_exp _ _ _ _ _ _ _ _ _ _ _ _ _ I x k1 k2 He) as ((lc & rc & Ev & P1 & P2) & _).
    destruct (i_nodes _ _ _ _ _ _ _ _ _ _ _ _ _ I x) as [Nx Rx].
    { unfold ys. apply in_app_iff. left. apply in_map_iff. exists (x, k1, k2). auto. }
    pose proof (sv_bound _ _ _ _ _ _ _ _ _ _ _ S) as Hb.
    assert (Hr : In r (ys done pend)).
    { pose proof (i_root _ _ _ _ _ _ _ _ _ _ _ _ _ I) as Hr. destruct (ys done pend); [discriminate|]. inv Hr. left; auto. }
    destruct (i_nodes _ _ _ _ _ _ _ _ _ _ _ _ _ I r Hr) as [Nr _].
    exists x, lc, rc. destruct s as [[u rn] rh]. split; [|split; [apply Nx|split; [reflexivity|split]]].
    + eapply reach_searched; [exact Nr|exact Hb|apply S|exact Rx].
    + cbn. unfold raws. rewrite map_length. auto.
    + split; [exact Ev|]. 
      assert (Q : forall c k, prepared hash o (root_bound root) (branch_mode o) c k -> branch_hash hash o c (kid_hash hash k)).
      { intros c k P. inv P; unfold branch_hash.
        - destruct v; simpl; auto.
        - right; right. split; auto. exists (root_bound root), c0. split; auto. }
      split; [exact (Q _ _ P1)|exact (Q _ _ P2)].
Qed.

(* C36: the same in terms of formulas, for runs without the thief ordering *)
Lemma p_C36_row_formulas : forall hash insert_fails o root out,
  root_ok root -> fresh_db o insert_fails [] -> o_gdb o = true -> o_thief o = false ->
  ends_with hash insert_fails o root [] out ->
  let m := branch_mode o in let z := o_sort_by_size o in
  exists G0, normal_form (o_mode o) z (raws root) G0 /\
  forall h r, In (h, r) (out_db out) -> exists G, met m z G0 G /\ h = hash (formula_text G) /\
    r_body r = formula_text G /\ r_num_clauses r = Z.of_nat (List.length G) /\
    child_hash hash m z true G (r_cid1 r) /\ child_hash hash m z false G (r_cid2 r).
Proof.
  intros hash ifl o root out RO FD Hg Ht E m z.
  destruct (ends_solved hash ifl o root [] RO FD out E) as (r & p & done & pend & S).
  pose proof (sv_inv _ _ _ _ _ _ _ _ _ _ _ S) as I.
  pose proof (sv_prep _ _ _ _ _ _ _ _ _ _ _ S) as Hp.
  pose proof (left_keys hash ifl o root Hg out _ r p done pend S) as Ek.
  pose proof (i_nodup _ _ _ _ _ _ _ _ _ _ _ _ _ I) as ND.
  assert (ND' : NoDup (dkeys (out_db out))).
  { rewrite Ek. unfold ys in ND. rewrite map_app in ND. apply NoDup_app_left in ND. exact ND. }
  pose proof (sv_bound _ _ _ _ _ _ _ _ _ _ _ S) as Hb.
  assert (Hr : In r (ys done pend)).
  { pose proof (i_root _ _ _ _ _ _ _ _ _ _ _ _ _ I) as Hr. destruct (ys done pend); [discriminate|]. inv Hr. left; auto. }
  destruct (i_nodes _ _ _ _ _ _ _ _ _ _ _ _ _ I r Hr) as [Nr _].
  exists (raws r). split.
  { unfold prepare_root in Hp. apply bind_ok in Hp as (r1 & E1 & Hp). rewrite Ht in E1.
    apply to_lo_normal in E1.
    2:{ split; [apply RO|]. split; [apply RO|]. left. apply RO. }
    apply bind_ok in Hp as ([h r2] & E2 & Hp). injection Hp as <-.
    replace (raws (set_id r2 h)) with (raws r1); [exact E1|].
    unfold get_hash in E2. cbn in E2. destruct (computed_hash r1); apply bind_ok in E2 as (t & _ & E2); injection E2 as <- <-; reflexivity. }
  intros h rw Hi.
  assert (Hh : In h (dkeys (out_db out))) by (apply (in_map fst) in Hi; exact Hi).
  rewrite Ek in Hh. rewrite map_map in Hh. apply in_map_iff in Hh as (e & <- & He).
  destruct (left_row hash ifl o root Hg out _ r p done pend e S He) as (n & s & Eg & _).
  apply (dget_In_NoDup _ tspec _ _ _ ND') in Hi. change digest with text in *. rewrite Eg in Hi. injection Hi as <-.
  destruct e as [[x k1] k2]. cbn [e_node fst snd row_of_entry] in *.
  destruct (i_exp _ _ _ _ _ _ _ _ _ _ _ _ _ I x k1 k2 He) as (Ex & _).
  destruct (i_nodes _ _ _ _ _ _ _ _ _ _ _ _ _ I x) as [Nx Rx].
  { unfold ys. apply in_app_iff. left. apply in_map_iff. exists (x, k1, k2). auto. }
  exists (raws x). destruct s as [[u rn] rh]. split; [|split; [apply Nx|split; [reflexivity|split]]].
  - exact (reach_met hash o Ht _ _ _ _ _ _ Hb r x Nr Rx).
  - cbn. unfold raws. rewrite map_length. auto.
  - destruct (expands_hashes hash o Ht _ _ _ x k1 k2 (proj1 Nx) Ex) as [A B]. split; [exact A|exact B].
Qed.

(* C36: the counts stored by a run with statistics: nodes reachable in the recorded graph, and, for
   redundant_times, the arrivals beyond the first when starting from the root *)
Lemma p_C36_counts : forall hash insert_fails o root lf r out,
  root_ok root -> fresh_db o insert_fails [] -> o_gdb o = true -> prepare_root hash lf o root = Ok r ->
  ends_with hash insert_fails o root [] out ->
  let g := out_children out in
  forall h w, In (h, w) (out_db out) ->
    (o_no_stats o = true -> r_unique w = 0 /\ r_redundant w = 0 /\ r_hits w = 0 /\ r_times w = 0) /\
    (o_no_stats o = false -> exists R, NoDup R /\ (forall x, In x R <-> reaches (succs g) h x) /\
       r_unique w = Z.of_nat (List.length R) /\
       r_hits w = Z.of_nat (List.length (flat_map (succs g) R)) - Z.of_nat (List.length R) + 1 /\
       extra_arrivals g (sid r) h (r_times w)).
Proof.
  intros hash ifl o root lf r out RO FD Hg Hr E g h w Hi. unfold g. clear g.
  destruct (ends_solved hash ifl o root [] RO FD out E) as (r' & p & done & pend & S).
  apply (prepare_root_same hash o root lf r RO) in Hr.
  rewrite (sv_prep _ _ _ _ _ _ _ _ _ _ _ S) in Hr. injection Hr as ->.
  pose proof (sv_inv _ _ _ _ _ _ _ _ _ _ _ S) as I.
  pose proof (left_keys hash ifl o root Hg out _ r p done pend S) as Ek.
  pose proof (i_nodup _ _ _ _ _ _ _ _ _ _ _ _ _ I) as ND.
  assert (ND' : NoDup (dkeys (out_db out))).
  { rewrite Ek. unfold ys in ND. rewrite map_app in ND. apply NoDup_app_left in ND. exact ND. }
  assert (Hh : In h (dkeys (out_db out))) by (apply (in_map fst) in Hi; exact Hi).
  rewrite Ek in Hh. rewrite map_map in Hh. apply in_map_iff in Hh as (e & <- & He).
  destruct (left_row hash ifl o root Hg out _ r p done pend e S He) as (n & s & Eg & H1 & H2).
  apply (dget_In_NoDup _ tspec _ _ _ ND') in Hi. change digest with text in *. rewrite Eg in Hi. injection Hi as <-.
  rewrite (sv_children _ _ _ _ _ _ _ _ _ _ _ S). split.
  - intros En. destruct (H1 En) as [-> ->]. cbn. auto.
  - intros En. destruct (H2 En) as [Hs Hx]. destruct s as [[u rn] rh].
    destruct (stat_counts _ _ _ _ _ Hs) as (R & T & A1 & A2 & A3 & A4 & _). exists R. cbn. auto.
Qed.

(* C37: a root marked solved in the table is answered "Not satisfiable", without a solution, whatever the
   formula; nothing is searched and the table is left alone *)
Lemma p_C37_solved_root : forall hash insert_fails o root lf r db row,
  root_ok root -> o_gdb o = true -> prepare_root hash lf o root = Ok r ->
  NoDup (dkeys db) -> In (hash (formula_text (raws r)), row) db -> 0 < r_unique row ->
  (o_no_mem o = false -> r_num_clauses row <= Z.of_nat (List.length (raws r))) ->
  exists out, ends_with hash insert_fails o root db out /\ out_sat out = false /\ out_solution out = None /\
    out_children out = [] /\ out_db out = db /\ out_uniques out = r_unique row.
Proof.
  intros hash ifl o root lf r db w RO Hg Hr ND Hi Hu Hn.
  apply (prepare_root_same hash o root lf r RO) in Hr. clear lf.
  destruct (prepare_root_spec hash o (root_bound root) (root_L root) root RO (root_below root) (le_n _))
      as (r0 & Ep & N & Hs & Hc & W & Hev & Heq). rewrite Hr in Ep. injection Ep as <-.
  fold (fhash hash (raws r)) in Hi. rewrite <- Hs in Hi.
  assert (Hget : dget text_eqb (sid r) db = Some w) by (apply (dget_In_NoDup _ tspec); auto).
  eexists. split.
  - exists (root_bound root). intros fuel lf H1 H2.
    apply (solve_set_mono hash ifl o root db fuel fuel (root_bound root) lf); try lia.
    unfold solve_set.
    destruct (to_pretty_total root) as [t Et]; [right; apply RO|]. rewrite Et; cbn [bind].
    rewrite Hr; cbn [bind].
    assert (Es : is_set_solved o (loaded_solved o db (Z.of_nat (List.length (clauses r)))) (sid r) db = true).
    { unfold is_set_solved, loaded_solved. rewrite Hg. destruct (o_no_mem o); simpl.
      - unfold gs_is_hash_solved. change digest with text in *. rewrite Hget. apply negb_true_iff, Z.eqb_neq. lia.
      - apply (dmem_In _ tspec). unfold gs_load_solved_sets, dkeys. rewrite map_map. simpl.
        apply in_map_iff. exists (sid r, w). split; auto. apply filter_In. split; auto. simpl.
        apply andb_true_iff. split; [|apply Z.ltb_lt; auto]. apply Z.leb_le.
        specialize (Hn eq_refl). unfold raws in Hn. rewrite map_length in Hn. auto. }
    rewrite Es. unfold gs_get_set_data. change digest with text in *. rewrite Hget. reflexivity.
  - simpl. auto.
Qed.

(* C37: solving a formula twice: whatever the first run answered, the second answers "Not satisfiable" *)
Lemma p_C37_second_run : forall hash insert_fails1 insert_fails2 o1 o2 root out1,
  root_ok root -> fresh_db o1 insert_fails1 [] -> o_gdb o1 = true -> o_no_stats o1 = false ->
  o_gdb o2 = true -> o_mode o1 = o_mode o2 -> o_sort_by_size o1 = o_sort_by_size o2 -> o_thief o1 = o_thief o2 ->
  ends_with hash insert_fails1 o1 root [] out1 ->
  exists out2, ends_with hash insert_fails2 o2 root (out_db out1) out2 /\
    out_sat out2 = false /\ out_solution out2 = None /\
    (satisfiable (raws root) -> collision_free hash o1 root -> out_sat out1 = true /\ out_sat out2 <> out_sat out1).
Proof.
  intros hash if1 if2 o1 o2 root out1 RO FD G1 N1 G2 Em Ez Et E1.
  destruct (ends_solved hash if1 o1 root [] RO FD out1 E1) as (r & p & done & pend & S).
  pose proof (sv_inv _ _ _ _ _ _ _ _ _ _ _ S) as I.
  pose proof (sv_prep _ _ _ _ _ _ _ _ _ _ _ S) as Hp.
  pose proof (left_keys hash if1 o1 root G1 out1 _ r p done pend S) as Ek.
  pose proof (i_nodup _ _ _ _ _ _ _ _ _ _ _ _ _ I) as ND.
  assert (ND' : NoDup (dkeys (out_db out1))).
  { rewrite Ek. unfold ys in ND. rewrite map_app in ND. apply NoDup_app_left in ND. exact ND. }
  assert (Hd : exists k1 k2, In (r, k1, k2) done).
  { destruct done as [|[[x k1] k2] done].
    - exfalso. pose proof (i_root _ _ _ _ _ _ _ _ _ _ _ _ _ I) as Hr.
      pose proof (sv_done _ _ _ _ _ _ _ _ _ _ _ S) as Hl. unfold loop_done in Hl.
      rewrite (inv_empty _ _ _ _ _ _ _ _ _ _ _ _ _ I), (i_sol _ _ _ _ _ _ _ _ _ _ _ _ _ I) in Hl.
      destruct pend; discriminate.
    - pose proof (i_root _ _ _ _ _ _ _ _ _ _ _ _ _ I) as Hr. cbn in Hr. injection Hr as ->. exists k1, k2. left; auto. }
  destruct Hd as (k1 & k2 & He).
  destruct (left_row hash if1 o1 root G1 out1 _ r p done pend _ S He) as (n & s & Eg & _ & Hst).
  destruct (Hst N1) as [Hsr _]. destruct s as [[u rn] rh].
  destruct (stat_counts _ _ _ _ _ Hsr) as (R & T & A1 & A2 & A3 & _).
  cbn [e_node fst] in *.
  assert (Hu : 0 < u).
  { assert (In (sid r) R) by (apply A2; constructor). destruct R; [contradiction|]. simpl in A3. lia. }
  destruct (i_nodes _ _ _ _ _ _ _ _ _ _ _ _ _ I r) as [(_ & Hsid & _) _].
  { unfold ys. apply in_app_iff. left. apply in_map_iff. exists (r, k1, k2). auto. }
  assert (Hp2 : prepare_root hash (root_bound root) o2 root = Ok r).
  { unfold prepare_root in *. rewrite Em, Ez, Et in Hp. exact Hp. }
  apply (dget_In _ tspec) in Eg. 
  set (w := timed n (counted (u, rn, rh) (snd (row_of_entry hash (r, k1, k2))))) in *.
  assert (Hw : In (hash (formula_text (raws r)), w) (out_db out1)).
  { change (hash (formula_text (raws r))) with (fhash hash (raws r)). rewrite <- Hsid. exact Eg. }
  destruct (p_C37_solved_root hash if2 o2 root (root_bound root) r (out_db out1) w RO G2 Hp2 ND' Hw Hu)
    as (out2 & B1 & B2 & B3 & _).
  { intros _. unfold w. cbn. unfold raws. rewrite map_length. lia. }
  exists out2. split; auto. split; auto. split; auto.
  intros Hsat CF. assert (Hv : out_sat out1 = true) by (apply (p_C22_verdict_exact hash if1 o1 root [] out1 RO FD CF E1); auto).
  rewrite Hv, B2. split; auto; discriminate.
Qed.

(*EX
(* the sample formula with the global DB and with statistics: thirteen rows, the root with its counts;
   solving it again gives the opposite verdict *)
Example C36_C37_example : let o := mkOpts MODE_FLO false false false false true false false false in
  root_ok sample /\ fresh_db o no_fail [] /\
  exists out1 out2, ends_with (fun t => t) no_fail o sample [] out1 /\ out_sat out1 = true /\
    List.length (out_db out1) = 13%nat /\
    option_map (fun w => (r_num_clauses (snd w), r_unique (snd w), r_hits (snd w))) (hd_error (out_db out1)) = Some (5, 13, 5) /\
    ends_with (fun t => t) no_fail o sample (out_db out1) out2 /\ out_sat out2 = false.
Proof.
  split; [apply sample_ok|]. split; [split; [split; auto|discriminate]|].
  eexists _, _. split; [exists 40%nat; intros fuel lf H1 H2; apply (solve_set_mono _ _ _ _ _ 40 fuel 40 lf H1 H2);
     vm_compute; reflexivity|]. split; [reflexivity|]. split; [reflexivity|]. split; [reflexivity|].
  split; [exists 40%nat; intros fuel lf H1 H2; apply (solve_set_mono _ _ _ _ _ 40 fuel 40 lf H1 H2);
     vm_compute; reflexivity|reflexivity].
Qed.
EX*)

(* C38: if storing the row of the root fails, for whatever reason, only its two branches are looked at: no
   deeper node is recorded, no row is stored, and the answer is "Satisfiable" only if one value of the
   leading variable alone satisfies every clause *)
Lemma p_C38_lost_root_insert : forall hash insert_fails o root lf r db,
  root_ok root -> o_gdb o = true -> prepare_root hash lf o root = Ok r ->
  let h := hash (formula_text (raws r)) in
  ~ In h (dkeys db) -> insert_fails h = true ->
  exists out, ends_with hash insert_fails o root db out /\
    (out_sat out = true <-> exists b, restrict (leading (hd [] (raws r))) b (raws r) = []) /\
    (out_sat out = false -> out_solution out = None) /\
    (forall k, In k (dkeys (out_children out)) <-> k = h \/ In k (succs (out_children out) h)) /\
    (forall k, k <> h -> succs (out_children out) k = []) /\
    dkeys (out_db out) = dkeys db.
Proof.
  intros hash ifl o root lf r db RO Hg Hr h Hn Hf. unfold h in *. clear h.
  assert (Hs : sid r = hash (formula_text (raws r))).
  { pose proof (prepare_root_same hash o root lf r RO Hr) as Hr'.
    destruct (prepare_root_spec hash o (root_bound root) (root_L root) root RO (root_below root) (le_n _))
      as (r0 & Ep & N & Hs & _). rewrite Hr' in Ep. injection Ep as <-. exact Hs. }
  rewrite <- Hs in *.
  destruct (lost_root hash ifl o root db RO Hg lf r Hr Hn Hf) as (out & k1 & k2 & A1 & A2 & A3 & A4 & A5 & A6 & A7 & A8 & A9 & A10 & A11).
  exists out. split; auto. destruct (expands_true hash o _ _ _ r k1 k2 A3 A2) as [B1 B2].
  split; [|split; [|split; [|split; auto]]].
  - rewrite A4. split.
    + intros Ht. destruct (true_leaf k1) eqn:E1; [|exists true; apply B1; discriminate].
      destruct (true_leaf k2) eqn:E2; [discriminate|]. exists false; apply B2; discriminate.
    + intros ([] & Hb).
      * apply B1 in Hb. destruct (true_leaf k1); [contradiction|auto].
      * apply B2 in Hb. destruct (true_leaf k1), (true_leaf k2); auto.
  - rewrite A4, A5. destruct (true_leaf k1 ++ true_leaf k2); auto. discriminate.
  - rewrite A9. exact A8.
Qed.
(*EX
Example C38_example : exists out, 
  ends_with (fun t => t) (fun _ => true) (mkOpts MODE_FLO false false false false true false false false) sample [] out /\
  out_sat out = false /\ out_children out <> [].
Proof.
  eexists. split; [exists 40%nat; intros fuel lf H1 H2; apply (solve_set_mono _ _ _ _ _ 40 fuel 40 lf H1 H2);
                   vm_compute; reflexivity|]. vm_compute. split; [reflexivity|discriminate].
Qed.
EX*)

(* C38: so a satisfiable formula can be reported "Not satisfiable" *)
Lemma p_C38_wrong_verdict_refuted : exists root out,
  root_ok root /\ satisfiable (raws root) /\
  ends_with (fun t => t) (fun _ => true) (mkOpts MODE_FLO false false false false true false false false) root [] out /\
  out_sat out = false /\ out_solution out = None.
Proof.
  exists sample. eexists. split; [apply sample_ok|]. split.
  { exists (fun v => negb (v =? 7)). intros c Hc. simpl in Hc.
    repeat (destruct Hc as [<-|Hc]; [eexists; split; [simpl; eauto 10|reflexivity]|]). destruct Hc. }
  split; [exists 40%nat; intros fuel lf H1 H2; apply (solve_set_mono _ _ _ _ _ 40 fuel 40 lf H1 H2);
                   vm_compute; reflexivity|]. vm_compute. auto.
Qed.

(* C40: an insert for a present hash, or one that fails, changes nothing and is reported as a violation; any
   other insert adds exactly that row, with zero counts *)
Lemma p_C40_insert : forall fails t h body c1 c2 nc nv,
  ((fails = true \/ In h (dkeys t)) -> gs_insert_row fails t h body c1 c2 nc nv = (DB_UNIQUE_VIOLATION, t)) /\
  (fails = false -> ~ In h (dkeys t) -> exists t', gs_insert_row fails t h body c1 c2 nc nv = (SUCCESS, t') /\
     forall k r, In (k, r) t' <-> In (k, r) t \/ (k = h /\ r = mkRow body c1 c2 nc nv 0 0 0 0)).
Proof.
  intros fails t h body c1 c2 nc nv. unfold gs_insert_row. split.
  - intros [->|Hi]; auto. apply (dmem_In _ tspec) in Hi. change digest with text in *. rewrite Hi, orb_true_r. auto.
  - intros -> Hn. apply (dmem_false _ tspec) in Hn. change digest with text in *. rewrite Hn. simpl.
    eexists; split; [reflexivity|]. intros k r. rewrite in_app_iff. simpl. split.
    + intros [H|[H|[]]]; auto. injection H as <- <-. auto.
    + intros [H|[-> ->]]; auto.
Qed.

(* C40: updating the counts, or redundant_times, of a hash changes just that, in the row of that hash *)
Lemma p_C40_updates : forall t u rn rh n h, NoDup (dkeys t) -> forall k r,
  (In (k, r) (gs_update_count t u rn rh h) <-> exists r0, In (k, r0) t /\ row_content r = row_content r0 /\
     r_times r = r_times r0 /\ row_counts r = if text_dec k h then (u, rn, rh) else row_counts r0) /\
  (In (k, r) (gs_update_redundant_times t n h) <-> exists r0, In (k, r0) t /\ row_content r = row_content r0 /\
     row_counts r = row_counts r0 /\ r_times r = if text_dec k h then r_times r0 + n else r_times r0).
Proof.
  intros t u rn rh n h ND k r. unfold gs_update_count, gs_update_redundant_times, update_row.
  assert (Eqb : text_eqb h k = if text_dec k h then true else false).
  { destruct (text_dec k h) as [->|Hn]; [apply text_eqb_refl|]. destruct (text_eqb_spec h k); [congruence|auto]. }
  split; rewrite in_map_iff; split.
  - intros ([a r0] & E & Hi). exists r0. cbn [fst snd] in E. destruct (text_eqb h a) eqn:Ea.
    + injection E as -> <-. rewrite Ea in Eqb. destruct (text_dec k h); [|discriminate]. auto.
    + injection E as -> <-. rewrite Ea in Eqb. destruct (text_dec k h); [discriminate|]. auto.
  - intros (r0 & Hi & A & B & C). exists (k, r0). cbn [fst snd]. split; auto. rewrite Eqb.
    destruct r as [b1 c1 d1 e1 f1 g1 h1 i1 j1], r0 as [b2 c2 d2 e2 f2 g2 h2 i2 j2]. unfold row_content, row_counts in *; simpl in A, B, C |- *.
    destruct (text_dec k h); f_equal; congruence.
  - intros ([a r0] & E & Hi). exists r0. cbn [fst snd] in E. destruct (text_eqb h a) eqn:Ea.
    + injection E as -> <-. rewrite Ea in Eqb. destruct (text_dec k h); [|discriminate]. auto.
    + injection E as -> <-. rewrite Ea in Eqb. destruct (text_dec k h); [discriminate|]. auto.
  - intros (r0 & Hi & A & B & C). exists (k, r0). cbn [fst snd]. split; auto. rewrite Eqb.
    destruct r as [b1 c1 d1 e1 f1 g1 h1 i1 j1], r0 as [b2 c2 d2 e2 f2 g2 h2 i2 j2]. unfold row_content, row_counts in *; simpl in A, B, C |- *.
    destruct (text_dec k h); f_equal; congruence.
Qed.

Lemma tab_step_get t op k : dget text_eqb k (tab_step t op) =
  match op with
  | TInsert fails h body c1 c2 nc nv =>
      match dget text_eqb k t with
      | Some r => Some r
      | None => if negb fails && text_eqb k h then Some (mkRow body c1 c2 nc nv 0 0 0 0) else None
      end
  | TCount u rn rh h => if text_dec h k then option_map (counted (u, rn, rh)) (dget text_eqb k t) else dget text_eqb k t
  | TTimes n h => if text_dec h k then option_map (timed n) (dget text_eqb k t) else dget text_eqb k t
  end.
Proof.
  assert (Eqb : forall h, text_eqb h k = if text_dec h k then true else false).
  { intros h. destruct (text_dec h k) as [->|Hn]; [apply text_eqb_refl|]. destruct (text_eqb_spec h k); [congruence|auto]. }
  destruct op as [fails h body c1 c2 nc nv|u rn rh h|n h]; cbn [tab_step].
  - unfold gs_insert_row. destruct fails; cbn [orb snd negb andb]; [destruct (dget text_eqb k t); auto|].
    destruct (dmem text_eqb h t) eqn:E; cbn [snd].
    + destruct (dget text_eqb k t) eqn:Eg; auto. destruct (text_eqb_spec k h) as [->|]; auto.
      unfold dmem in E. change digest with text in *. rewrite Eg in E. discriminate.
    + rewrite dget_app_new. auto.
  - unfold gs_update_count. rewrite dget_update, Eqb. destruct (text_dec h k); auto.
  - unfold gs_update_redundant_times. rewrite dget_update, Eqb. destruct (text_dec h k); auto.
Qed.
Lemma tab_step_nodup t op : NoDup (dkeys t) -> NoDup (dkeys (tab_step t op)).
Proof.
  intros ND. destruct op as [fails h body c1 c2 nc nv|u rn rh h|n h]; cbn [tab_step];
    [|unfold gs_update_count; rewrite dkeys_update; auto|unfold gs_update_redundant_times; rewrite dkeys_update; auto].
  unfold gs_insert_row. destruct fails; cbn [orb snd]; auto.
  destruct (dmem text_eqb h t) eqn:E; cbn [snd]; auto. apply (dmem_false _ tspec) in E.
  unfold dkeys in *. rewrite map_app. simpl. apply (Permutation_NoDup (Permutation_cons_append _ _)). constructor; auto. 
Qed.

(* C40: through any history, hashes stay unique and a row never loses or changes its content; its counts
   are the last ones written for it, its redundant_times the old one plus all increments *)
Lemma p_C40_history : forall ops t, NoDup (dkeys t) ->
  NoDup (dkeys (tab_run ops t)) /\
  (forall h r, In (h, r) t -> exists r', In (h, r') (tab_run ops t) /\ row_content r' = row_content r /\
     row_counts r' = last_counts ops h (row_counts r) /\ r_times r' = r_times r + total_times ops h) /\
  (forall h r', In (h, r') (tab_run ops t) -> In h (dkeys t) \/
     exists body c1 c2 nc nv, In (TInsert false h body c1 c2 nc nv) ops /\ row_content r' = (body, c1, c2, nc, nv)).
Proof.
  induction ops as [|op ops IH]; intros t ND.
  - split; auto. split.
    + intros h r Hi. exists r. split; auto. split; auto. split; auto. change (total_times [] h) with 0. lia.
    + intros h r' Hi. left. apply (in_map fst) in Hi. exact Hi.
  - cbn [tab_run fold_left]. change (fold_left tab_step ops ?x) with (tab_run ops x).
    destruct (IH (tab_step t op) (tab_step_nodup t op ND)) as (A & B & C). split; auto. split.
    + intros h r Hi. apply (dget_In_NoDup _ tspec _ _ _ ND) in Hi.
      assert (Hs : exists r1, dget text_eqb h (tab_step t op) = Some r1 /\ row_content r1 = row_content r /\
                row_counts r1 = last_counts [op] h (row_counts r) /\ r_times r1 = r_times r + total_times [op] h).
      { rewrite tab_step_get. change digest with text in *. rewrite Hi.
        destruct op as [fails k body c1 c2 nc nv|u rn rh k|n k]; cbn [option_map last_counts total_times fold_left fold_right map];
          try destruct (text_dec k h); eexists; (split; [reflexivity|]); (split; [reflexivity|]);
          (split; [reflexivity|]); unfold timed, counted; simpl r_times; lia. }
      destruct Hs as (r1 & E1 & E2 & E3 & E4). apply (dget_In _ tspec) in E1.
      destruct (B h r1 E1) as (r' & H1 & H2 & H3 & H4). exists r'. split; auto. split; [congruence|].
      split; [rewrite H3, E3; reflexivity|]. rewrite H4, E4.
      unfold total_times. cbn [map fold_right]. lia.
    + intros h r' Hi. destruct (C h r' Hi) as [Hk|(body & c1 & c2 & nc & nv & H1 & H2)].
      * destruct (in_dec text_dec h (dkeys t)) as [Hin|Hnin]; [auto|]. right.
        assert (Hg : exists r1, dget text_eqb h (tab_step t op) = Some r1).
        { destruct (dget text_eqb h (tab_step t op)) eqn:E; eauto. apply (dget_None _ tspec) in E. contradiction. }
        destruct Hg as (r1 & E1). pose proof E1 as E1'. rewrite tab_step_get in E1.
        apply (dget_None _ tspec) in Hnin. change digest with text in *. rewrite Hnin in E1.
        destruct op as [fails k body c1 c2 nc nv|u rn rh k|n k];
          [|destruct (text_dec k h); discriminate|destruct (text_dec k h); discriminate].
        destruct fails; [discriminate|]. cbn [negb andb] in E1. destruct (text_eqb_spec h k) as [->|]; [|discriminate].
        injection E1 as <-. apply (dget_In _ tspec) in E1'. destruct (B _ _ E1') as (r2 & G1 & G2 & _).
        apply (dget_In_NoDup _ tspec _ _ _ A) in G1. apply (dget_In_NoDup _ tspec _ _ _ A) in Hi.
        rewrite G1 in Hi. injection Hi as ->.
        exists body, c1, c2, nc, nv. split; [left; auto|]. rewrite G2. reflexivity.
      * right. exists body, c1, c2, nc, nv. split; auto. right; auto.
Qed.
(*EX
Example C40_example : tab_run [TInsert false (txt "h") (txt "1|2") (txt "T") (txt "F") 1 2; TCount 3 1 1 (txt "h");
    TInsert false (txt "h") (txt "9") (txt "F") (txt "F") 7 7; TTimes 2 (txt "h")] []
  = [(txt "h", mkRow (txt "1|2") (txt "T") (txt "F") 1 2 3 1 1 2)].
Proof. vm_compute. reflexivity. Qed.
EX*)

(* C40: what counts as solved: a non-zero unique count (single look-ups), a positive unique count and few
   enough clauses (hashes loaded at start-up) *)
Lemma p_C40_solved_tests : forall t n, NoDup (dkeys t) ->
  (forall h, gs_is_hash_solved t h = true <-> exists r, In (h, r) t /\ r_unique r <> 0) /\
  (forall h u rd, In (h, (u, rd)) (gs_load_solved_sets t n) <->
     exists r, In (h, r) t /\ r_num_clauses r <= n /\ 0 < r_unique r /\ u = r_unique r /\ rd = r_redundant r) /\
  (forall h, In h (gs_load_unsolved_sets t n) <-> exists r, In (h, r) t /\ r_num_clauses r <= n /\ r_unique r = 0).
Proof.
  intros t n ND. split; [|split].
  - intros h. unfold gs_is_hash_solved. split.
    + destruct (dget text_eqb h t) as [r|] eqn:E; [|discriminate]. intros H. apply negb_true_iff, Z.eqb_neq in H.
      exists r. split; auto. apply (dget_In _ tspec); auto.
    + intros (r & Hi & Hu). apply (dget_In_NoDup _ tspec _ _ _ ND) in Hi. change digest with text in *. rewrite Hi.
      apply negb_true_iff, Z.eqb_neq; auto.
  - intros h u rd. unfold gs_load_solved_sets. rewrite in_map_iff. split.
    + intros ([a r] & E & Hf). injection E as <- <- <-. apply filter_In in Hf as [Hi Hf]. cbn [snd] in Hf.
      apply andb_true_iff in Hf as [H1 H2]. exists r. split; auto. split; [lia|]. split; [lia|auto].
    + intros (r & Hi & H1 & H2 & -> & ->). exists (h, r). split; auto. apply filter_In. split; auto. cbn [snd].
      apply andb_true_iff; lia.
  - intros h. unfold gs_load_unsolved_sets. rewrite in_map_iff. split.
    + intros ([a r] & <- & Hf). apply filter_In in Hf as [Hi Hf]. cbn [snd] in Hf.
      apply andb_true_iff in Hf as [H1 H2]. exists r. split; auto. split; lia.
    + intros (r & Hi & H1 & H2). exists (h, r). split; auto. apply filter_In. split; auto. cbn [snd].
      apply andb_true_iff; lia.
Qed.
