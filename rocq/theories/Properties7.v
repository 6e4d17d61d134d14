(* Properties7.v -- generated by tools/genprops.py from PP7.v: property theorems, their
   assumptions, and examples showing that the hypotheses are met.  Proofs are in PP7.v. *)
From Coq Require Import String Ascii ZArith List Bool Lia Permutation Sorted.
From Verif Require Import Spec PyBase MSet MText MQueue MDb MSolver MMain SpecInput SpecRun PLib PClause PRename PLo PNorm PEval PText PQueue PNode PStep PRun PStats PSolver PSolve PSearch PGraph PMain PDb PP1 PP2.
Import ListNotations.
From Verif Require Import PP7.
Open Scope Z_scope.

(* C36: with a fresh global table, verdict, solution, recorded graph and counts are those of
   the run without the global DB *)
Theorem C36_fresh_db_harmless : forall hash insert_fails o1 o2 root db2 out1 out2,
  root_ok root -> (forall h, insert_fails h = false) -> o_gdb o1 = true -> o_gdb o2 = false -> o_no_mem o2 = false ->
  o_mode o1 = o_mode o2 -> o_sort_by_size o1 = o_sort_by_size o2 -> o_thief o1 = o_thief o2 ->
  o_exit o1 = o_exit o2 -> o_rdb o1 = o_rdb o2 -> o_no_stats o1 = o_no_stats o2 ->
  ends_with hash insert_fails o1 root [] out1 -> ends_with hash insert_fails o2 root db2 out2 ->
  out_sat out1 = out_sat out2 /\ out_solution out1 = out_solution out2 /\
  out_children out1 = out_children out2 /\ out_uniques out1 = out_uniques out2 /\
  out_redundants out1 = out_redundants out2 /\ out_hits out1 = out_hits out2 /\ out_db out2 = db2.
Proof. exact p_C36_fresh_db_harmless. Qed.
Print Assumptions C36_fresh_db_harmless.

(* C36: afterwards the table has one row for each expanded node of the recorded graph (for every node, when
   the run is not cut short by a solution), holding its text, clause count and the hashes of its two
   branches *)
Theorem C36_rows : forall hash insert_fails o root out,
  root_ok root -> fresh_db o insert_fails [] -> o_gdb o = true -> ends_with hash insert_fails o root [] out ->
  let t := out_db out in let g := out_children out in
  NoDup (dkeys t) /\
  (exists waiting, dkeys g = dkeys t ++ waiting /\ (forall h, In h waiting -> succs g h = []) /\
     (o_exit o = false -> waiting = [])) /\
  (forall h r, In (h, r) t -> exists x left right, searched hash o root x /\
     h = hash (formula_text (raws x)) /\ r_body r = formula_text (raws x) /\
     r_num_clauses r = Z.of_nat (List.length (raws x)) /\
     evaluate (view (o_rdb o) x) = Ok (Some (left, right)) /\
     branch_hash hash o left (r_cid1 r) /\ branch_hash hash o right (r_cid2 r)).
Proof. exact p_C36_rows. Qed.
Print Assumptions C36_rows.

(* C36: the same in terms of formulas, for runs without the thief ordering *)
Theorem C36_row_formulas : forall hash insert_fails o root out,
  root_ok root -> fresh_db o insert_fails [] -> o_gdb o = true -> o_thief o = false ->
  ends_with hash insert_fails o root [] out ->
  let m := branch_mode o in let z := o_sort_by_size o in
  exists G0, normal_form (o_mode o) z (raws root) G0 /\
  forall h r, In (h, r) (out_db out) -> exists G, met m z G0 G /\ h = hash (formula_text G) /\
    r_body r = formula_text G /\ r_num_clauses r = Z.of_nat (List.length G) /\
    child_hash hash m z true G (r_cid1 r) /\ child_hash hash m z false G (r_cid2 r).
Proof. exact p_C36_row_formulas. Qed.
Print Assumptions C36_row_formulas.

(* C36: the counts stored by a run with statistics: nodes reachable in the recorded graph, and, for
   redundant_times, the arrivals beyond the first when starting from the root *)
Theorem C36_counts : forall hash insert_fails o root lf r out,
  root_ok root -> fresh_db o insert_fails [] -> o_gdb o = true -> prepare_root hash lf o root = Ok r ->
  ends_with hash insert_fails o root [] out ->
  let g := out_children out in
  forall h w, In (h, w) (out_db out) ->
    (o_no_stats o = true -> r_unique w = 0 /\ r_redundant w = 0 /\ r_hits w = 0 /\ r_times w = 0) /\
    (o_no_stats o = false -> exists R, NoDup R /\ (forall x, In x R <-> reaches (succs g) h x) /\
       r_unique w = Z.of_nat (List.length R) /\
       r_hits w = Z.of_nat (List.length (flat_map (succs g) R)) - Z.of_nat (List.length R) + 1 /\
       extra_arrivals g (sid r) h (r_times w)).
Proof. exact p_C36_counts. Qed.
Print Assumptions C36_counts.

(* C37: a root marked solved in the table is answered "Not satisfiable", without a solution, whatever the
   formula; nothing is searched and the table is left alone *)
Theorem C37_solved_root : forall hash insert_fails o root lf r db row,
  root_ok root -> o_gdb o = true -> prepare_root hash lf o root = Ok r ->
  NoDup (dkeys db) -> In (hash (formula_text (raws r)), row) db -> 0 < r_unique row ->
  (o_no_mem o = false -> r_num_clauses row <= Z.of_nat (List.length (raws r))) ->
  exists out, ends_with hash insert_fails o root db out /\ out_sat out = false /\ out_solution out = None /\
    out_children out = [] /\ out_db out = db /\ out_uniques out = r_unique row.
Proof. exact p_C37_solved_root. Qed.
Print Assumptions C37_solved_root.

(* C37: solving a formula twice: whatever the first run answered, the second answers "Not satisfiable" *)
Theorem C37_second_run : forall hash insert_fails1 insert_fails2 o1 o2 root out1,
  root_ok root -> fresh_db o1 insert_fails1 [] -> o_gdb o1 = true -> o_no_stats o1 = false ->
  o_gdb o2 = true -> o_mode o1 = o_mode o2 -> o_sort_by_size o1 = o_sort_by_size o2 -> o_thief o1 = o_thief o2 ->
  ends_with hash insert_fails1 o1 root [] out1 ->
  exists out2, ends_with hash insert_fails2 o2 root (out_db out1) out2 /\
    out_sat out2 = false /\ out_solution out2 = None /\
    (satisfiable (raws root) -> collision_free hash o1 root -> out_sat out1 = true /\ out_sat out2 <> out_sat out1).
Proof. exact p_C37_second_run. Qed.
Print Assumptions C37_second_run.

(* the sample formula with the global DB and with statistics: thirteen rows, the root with its counts;
   solving it again gives the opposite verdict *)
Example C36_C37_example : let o := mkOpts MODE_FLO false false false false true false false false in
  root_ok sample /\ fresh_db o no_fail [] /\
  exists out1 out2, ends_with (fun t => t) no_fail o sample [] out1 /\ out_sat out1 = true /\
    List.length (out_db out1) = 13%nat /\
    option_map (fun w => (r_num_clauses (snd w), r_unique (snd w), r_hits (snd w))) (hd_error (out_db out1)) = Some (5, 13, 5) /\
    ends_with (fun t => t) no_fail o sample (out_db out1) out2 /\ out_sat out2 = false.
Proof.
  split; [apply sample_ok|]. split; [split; [split; auto|discriminate]|].
  eexists _, _. split; [exists 40%nat; intros fuel lf H1 H2; apply (solve_set_mono _ _ _ _ _ 40 fuel 40 lf H1 H2);
     vm_compute; reflexivity|]. split; [reflexivity|]. split; [reflexivity|]. split; [reflexivity|].
  split; [exists 40%nat; intros fuel lf H1 H2; apply (solve_set_mono _ _ _ _ _ 40 fuel 40 lf H1 H2);
     vm_compute; reflexivity|reflexivity].
Qed.

(* C38: if storing the row of the root fails, for whatever reason, only its two branches are looked at: no
   deeper node is recorded, no row is stored, and the answer is "Satisfiable" only if one value of the
   leading variable alone satisfies every clause *)
Theorem C38_lost_root_insert : forall hash insert_fails o root lf r db,
  root_ok root -> o_gdb o = true -> prepare_root hash lf o root = Ok r ->
  let h := hash (formula_text (raws r)) in
  ~ In h (dkeys db) -> insert_fails h = true ->
  exists out, ends_with hash insert_fails o root db out /\
    (out_sat out = true <-> exists b, restrict (leading (hd [] (raws r))) b (raws r) = []) /\
    (out_sat out = false -> out_solution out = None) /\
    (forall k, In k (dkeys (out_children out)) <-> k = h \/ In k (succs (out_children out) h)) /\
    (forall k, k <> h -> succs (out_children out) k = []) /\
    dkeys (out_db out) = dkeys db.
Proof. exact p_C38_lost_root_insert. Qed.
Print Assumptions C38_lost_root_insert.

Example C38_example : exists out, 
  ends_with (fun t => t) (fun _ => true) (mkOpts MODE_FLO false false false false true false false false) sample [] out /\
  out_sat out = false /\ out_children out <> [].
Proof.
  eexists. split; [exists 40%nat; intros fuel lf H1 H2; apply (solve_set_mono _ _ _ _ _ 40 fuel 40 lf H1 H2);
                   vm_compute; reflexivity|]. vm_compute. split; [reflexivity|discriminate].
Qed.

(* C38: so a satisfiable formula can be reported "Not satisfiable" *)
Theorem C38_wrong_verdict_refuted : exists root out,
  root_ok root /\ satisfiable (raws root) /\
  ends_with (fun t => t) (fun _ => true) (mkOpts MODE_FLO false false false false true false false false) root [] out /\
  out_sat out = false /\ out_solution out = None.
Proof. exact p_C38_wrong_verdict_refuted. Qed.
Print Assumptions C38_wrong_verdict_refuted.

(* C40: an insert for a present hash, or one that fails, changes nothing and is reported as a violation; any
   other insert adds exactly that row, with zero counts *)
Theorem C40_insert : forall fails t h body c1 c2 nc nv,
  ((fails = true \/ In h (dkeys t)) -> gs_insert_row fails t h body c1 c2 nc nv = (DB_UNIQUE_VIOLATION, t)) /\
  (fails = false -> ~ In h (dkeys t) -> exists t', gs_insert_row fails t h body c1 c2 nc nv = (SUCCESS, t') /\
     forall k r, In (k, r) t' <-> In (k, r) t \/ (k = h /\ r = mkRow body c1 c2 nc nv 0 0 0 0)).
Proof. exact p_C40_insert. Qed.
Print Assumptions C40_insert.

(* C40: updating the counts, or redundant_times, of a hash changes just that, in the row of that hash *)
Theorem C40_updates : forall t u rn rh n h, NoDup (dkeys t) -> forall k r,
  (In (k, r) (gs_update_count t u rn rh h) <-> exists r0, In (k, r0) t /\ row_content r = row_content r0 /\
     r_times r = r_times r0 /\ row_counts r = if text_dec k h then (u, rn, rh) else row_counts r0) /\
  (In (k, r) (gs_update_redundant_times t n h) <-> exists r0, In (k, r0) t /\ row_content r = row_content r0 /\
     row_counts r = row_counts r0 /\ r_times r = if text_dec k h then r_times r0 + n else r_times r0).
Proof. exact p_C40_updates. Qed.
Print Assumptions C40_updates.

(* C40: through any history, hashes stay unique and a row never loses or changes its content; its counts
   are the last ones written for it, its redundant_times the old one plus all increments *)
Theorem C40_history : forall ops t, NoDup (dkeys t) ->
  NoDup (dkeys (tab_run ops t)) /\
  (forall h r, In (h, r) t -> exists r', In (h, r') (tab_run ops t) /\ row_content r' = row_content r /\
     row_counts r' = last_counts ops h (row_counts r) /\ r_times r' = r_times r + total_times ops h) /\
  (forall h r', In (h, r') (tab_run ops t) -> In h (dkeys t) \/
     exists body c1 c2 nc nv, In (TInsert false h body c1 c2 nc nv) ops /\ row_content r' = (body, c1, c2, nc, nv)).
Proof. exact p_C40_history. Qed.
Print Assumptions C40_history.

Example C40_example : tab_run [TInsert false (txt "h") (txt "1|2") (txt "T") (txt "F") 1 2; TCount 3 1 1 (txt "h");
    TInsert false (txt "h") (txt "9") (txt "F") (txt "F") 7 7; TTimes 2 (txt "h")] []
  = [(txt "h", mkRow (txt "1|2") (txt "T") (txt "F") 1 2 3 1 1 2)].
Proof. vm_compute. reflexivity. Qed.

(* C40: what counts as solved: a non-zero unique count (single look-ups), a positive unique count and few
   enough clauses (hashes loaded at start-up) *)
Theorem C40_solved_tests : forall t n, NoDup (dkeys t) ->
  (forall h, gs_is_hash_solved t h = true <-> exists r, In (h, r) t /\ r_unique r <> 0) /\
  (forall h u rd, In (h, (u, rd)) (gs_load_solved_sets t n) <->
     exists r, In (h, r) t /\ r_num_clauses r <= n /\ 0 < r_unique r /\ u = r_unique r /\ rd = r_redundant r) /\
  (forall h, In h (gs_load_unsolved_sets t n) <-> exists r, In (h, r) t /\ r_num_clauses r <= n /\ r_unique r = 0).
Proof. exact p_C40_solved_tests. Qed.
Print Assumptions C40_solved_tests.
