(* PCli.v -- lemmas about the command line: acceptance, file names, the solver chosen. *)
From Coq Require Import String Ascii ZArith List Bool Lia Permutation Sorted.
From Verif Require Import Spec PyBase MSet MText MQueue MDb MSolver MMain MProc MShare MCli SpecInput SpecRun SpecProc SpecShare
  SpecCli PLib PMain PP1 PP2 PP5 PP9 PP10 PProg PProg2.
Import ListNotations.
Open Scope Z_scope.

(* ---- the solver ---- *)
Lemma mp_hash hash ifl max wf arr fuel lf o root db h :
  solve_set_mp hash ifl max wf arr fuel lf o (set_hash root h) db = solve_set_mp hash ifl max wf arr fuel lf o root db.
Proof.
  unfold solve_set_mp. pose proof (prepare_root_hash h hash lf o root) as Q. unfold PMain.H in Q. rewrite Q. reflexivity.
Qed.
Lemma sh_hash hash ifl max wf sched lg fuel lf o root db h :
  solve_set_sh hash ifl max wf sched lg fuel lf o (set_hash root h) db = solve_set_sh hash ifl max wf sched lg fuel lf o root db.
Proof.
  unfold solve_set_sh. pose proof (prepare_root_hash h hash lf o root) as Q. unfold PMain.H in Q. rewrite Q. reflexivity.
Qed.
Lemma solver_hash e fuel lf c s db h : solver e fuel lf c (set_hash s h) db = solver e fuel lf c s db.
Proof. unfold solver. destruct (c_gdb c); [apply sh_hash|apply mp_hash]. Qed.

Lemma single_good hash ifl o root db out : root_ok root -> fresh_db o ifl db -> ends_with hash ifl o root db out ->
  good hash o root out.
Proof.
  intros RO FD E. destruct (p_C21_sat_verdict_sound hash ifl o root db out RO FD E) as [A B].
  split; auto. split; auto. intros CF. apply (p_C22_verdict_exact hash ifl o root db out RO FD CF E).
Qed.

Lemma solver_good e c db root : (c_gnm c = true -> c_gdb c = true) -> reliable e c db -> root_ok root ->
  exists out, (exists N, forall fuel lf, (N <= fuel)%nat -> (N <= lf)%nat -> solver e fuel lf c root db = Ok out) /\
    good (e_hash e) (opts_of c) root out.
Proof.
  intros Hgnm (Hw & Hf & Hs & Hdb & H1) RO.
  destruct (Z.eq_dec (c_threads c) 1) as [E1|E1].
  - assert (FD : fresh_db (opts_of c) (e_insert_fails e) db) by (split; auto).
    destruct (p_C23_solver_terminates (e_hash e) (e_insert_fails e) (opts_of c) root db RO FD) as (out & HE).
    exists out. split; [|eapply single_good; eauto]. destruct HE as [N HN]. exists N. intros fuel lf L1 L2.
    unfold solver. rewrite E1. destruct (c_gdb c).
    + rewrite p_C48_one_process. auto.
    + destruct (p_C34_one_process (e_hash e) (e_insert_fails e) (e_worker_fails e) (e_arrived e) fuel lf (opts_of c) root db (e_cpus e)) as [_ Q].
      rewrite Q. auto.
  - assert (Hn : c_gnm c = false) by (destruct (c_gnm c); auto; exfalso; apply E1; auto).
    assert (Hn' : o_no_mem (opts_of c) = false) by exact Hn. clear Hn. rename Hn' into Hn.
    unfold solver. destruct (c_gdb c) eqn:Eg0.
    + assert (Eg : o_gdb (opts_of c) = true) by exact Eg0.
      destruct (Hdb eq_refl) as [-> Hif].
      destruct (p_C48_ends (e_hash e) (e_insert_fails e) (max_threads (e_cpus e) (c_threads c)) (e_worker_fails e) (e_sched e) (e_linger e)
        (opts_of c) root Hif RO Eg Hn Hw Hs) as (out & HE).
      exists out. split; auto.
      destruct (p_C48_sound _ _ _ _ _ _ _ _ _ Hif RO Eg Hn Hw Hs HE) as (A & B & _).
      split; auto. split; auto. intros CF. apply (p_C48_same_outcome _ _ _ _ _ _ _ _ _ Hif RO Eg Hn Hw Hs CF HE).
    + assert (Eg : o_gdb (opts_of c) = false) by exact Eg0.
      destruct (p_C34_ends (e_hash e) (e_insert_fails e) (max_threads (e_cpus e) (c_threads c)) (e_worker_fails e) (e_arrived e)
        (opts_of c) root db RO Eg Hn Hw Hf) as (out & HE).
      exists out. split; auto.
      destruct (p_C34_sound _ _ _ _ _ _ _ _ _ RO Eg Hn Hw Hf HE) as (A & B & _).
      split; auto. split; auto. intros CF. apply (p_C34_same_outcome _ _ _ _ _ _ _ _ _ RO Eg Hn Hw Hf CF HE).
Qed.

(* ---- accepted command lines ---- *)
Lemma groups_ok_spec c : groups_ok c = true <-> one_verbosity c /\ one_input c.
Proof.
  unfold groups_ok, one_verbosity, one_input, count, given.
  destruct (c_v c), (c_vv c), (c_q c), (c_qn c), (c_line c), (c_line_file c), (c_dimacs c); cbn;
    intuition (try discriminate; try congruence).
Qed.
Lemma checks_spec c : one_input c ->
  (checks c = None <-> 0 <= c_threads c /\ (c_gnm c = true -> c_gdb c = true) /\ forall a b, c_multiply c = Some (a, b) -> 1 < a /\ 1 < b) /\
  (forall st, checks c = Some st -> (st = 3 /\ c_threads c < 0) \/ (st = 2 /\ 0 <= c_threads c)).
Proof.
  intros HI. unfold checks.
  replace (negb (given (c_line c)) && negb (given (c_line_file c)) && negb (given (c_dimacs c))) with false
    by (unfold one_input, given in *; destruct (c_line c), (c_line_file c), (c_dimacs c); cbn; intuition congruence).
  replace ((nonempty (c_line c) && given (c_line_file c)) || (nonempty (c_line c) && given (c_dimacs c)) ||
          (given (c_dimacs c) && given (c_line_file c))) with false
    by (unfold one_input, given in *; destruct (c_line c), (c_line_file c), (c_dimacs c); cbn; rewrite ?andb_false_r; intuition congruence).
  destruct (Z.ltb_spec (c_threads c) 0).
  { split; [split; [discriminate|lia]|]. intros st E. injection E as <-. left; auto. }
  destruct (c_gnm c) eqn:Egn, (c_gdb c) eqn:Eg; cbn [andb negb].
  2:{ split; [split; [discriminate|intros (_ & Q & _); specialize (Q eq_refl); discriminate]|]. intros st E. injection E as <-. right; auto. }
  all: destruct (c_multiply c) as [[a b]|];
    [destruct (Z.leb_spec a 1), (Z.leb_spec b 1); cbn [orb]|].
  all: (split; [split; [try discriminate|]|intros st E; try discriminate; injection E as <-; right; auto]).
  all: try (intros (_ & _ & Q); destruct (Q _ _ eq_refl); lia).
  all: try (intros _; split; [auto|split; [auto|]]; intros x y E; try discriminate; injection E as <- <-; auto).
  all: auto.
Qed.
Lemma proper_iff c : proper c <-> groups_ok c = true /\ checks c = None.
Proof.
  rewrite groups_ok_spec. split.
  - intros [A B C D E]. split; auto. apply checks_spec; auto.
  - intros [[B A] C]. apply checks_spec in C as (C & D & E); auto. split; auto.
Qed.
Lemma proper_command e fuel lf c db : proper c -> command e fuel lf c db =
  (ans <- main_with (e_hash e) (solver e fuel lf c) (main_opts_of c) (chosen_input c) db ;;
   Ok (Ran ans (files_of c ans) (shown_of c ans))).
Proof. intros P. apply proper_iff in P as [A B]. unfold command. rewrite A, B. reflexivity. Qed.
Lemma reads_chosen c name i : one_input c -> reads_file c name i -> chosen_input c = i /\ input_name c = name.
Proof.
  intros HI [(content & E & ->)|(content & E & ->)]; unfold chosen_input, input_name; rewrite E.
  - destruct HI as [(A & B & C)|[(A & B & C)|(A & B & C)]]; try congruence. rewrite A. auto.
  - destruct HI as [(A & B & C)|[(A & B & C)|(A & B & C)]]; try congruence. rewrite A, B. auto.
Qed.
Lemma command_ends_report e c db ans : proper c ->
  answers (e_hash e) (main_opts_of c) (fun fuel lf => solver e fuel lf c) db (chosen_input c) ans ->
  command_ends e c db (Ran ans (files_of c ans) (shown_of c ans)).
Proof.
  intros P [N HN]. exists N. intros fuel lf L1 L2. rewrite proper_command by auto. rewrite HN by auto. reflexivity.
Qed.

(* ---- file names ---- *)
Lemma rfind_from_notin ch t : forall i f, ~ In ch t -> rfind_from ch t i f = f.
Proof.
  induction t as [|a t IH]; intros i f H; cbn [rfind_from]; auto. destruct (Ascii.eqb_spec a ch) as [->|].
  - exfalso; apply H; left; auto.
  - apply IH. intros K; apply H; right; auto.
Qed.
Lemma rfind_from_app ch t u : forall i f, rfind_from ch (t ++ u) i f = rfind_from ch u (i + Z.of_nat (List.length t)) (rfind_from ch t i f).
Proof.
  induction t as [|a t IH]; intros i f; cbn [rfind_from app List.length]; [f_equal; lia|]. rewrite IH. f_equal. lia.
Qed.
Lemma rfind_last ch t u : ~ In ch u -> rfind ch (t ++ ch :: u) = Z.of_nat (List.length t).
Proof.
  intros H. unfold rfind. rewrite rfind_from_app. cbn [rfind_from]. rewrite Ascii.eqb_refl, rfind_from_notin by auto. lia.
Qed.
Lemma rfind_none ch t : ~ In ch t -> rfind ch t = -1.
Proof. apply rfind_from_notin. Qed.
(* the last component *)
Lemma rfind_dir dir base : (dir = [] \/ exists d, dir = d ++ ["/"%char]) -> ~ In "/"%char base ->
  rfind "/"%char (dir ++ base) = Z.of_nat (List.length dir) - 1.
Proof.
  intros [->|(d & ->)] H.
  - apply rfind_none; auto.
  - rewrite <- app_assoc. cbn [app]. rewrite rfind_last by auto. rewrite app_length. cbn [List.length]. lia.
Qed.
Lemma dots_no_sep dots : Forall (fun a => a = "."%char) dots -> ~ In "/"%char dots.
Proof. intros H K. rewrite Forall_forall in H. apply H in K. discriminate. Qed.
Lemma splitext_stem name stem : stem_of name stem -> splitext_root name = stem.
Proof.
  intros [dir dots base Hd Hdots Hb Hs|dir dots ch base ext Hd Hdots Hch Hs He1 He2].
  - unfold splitext_root.
    assert (Hns : ~ In "/"%char (dots ++ base)) by (rewrite in_app_iff; intros [K|K]; [apply dots_no_sep in Hdots|]; auto).
    rewrite rfind_dir by auto.
    destruct dots as [|d1 dots'] eqn:Ed.
    + cbn [app]. destruct (Z.ltb_spec (Z.of_nat (List.length dir) - 1) (rfind "."%char (dir ++ base))) as [L|]; auto.
      exfalso. unfold rfind in L. rewrite rfind_from_app, rfind_from_notin in L by auto.
      assert (G : forall t i f, f < i -> rfind_from "."%char t i f < i + Z.of_nat (List.length t)).
      { induction t as [|x t IH]; intros i f L1; cbn [rfind_from List.length]; [lia|].
        specialize (IH (i + 1) (if Ascii.eqb x "." then i else f) ltac:(destruct (Ascii.eqb x "."); lia)). lia. }
      specialize (G dir 0 (-1) ltac:(lia)). lia.
    + rewrite <- Ed in *. assert (Hl : exists l, dots = l ++ ["."%char]).
      { destruct (exists_last (l := dots)) as (l & x & El); [rewrite Ed; discriminate|]. exists l. rewrite El. f_equal. f_equal.
        rewrite El in Hdots. apply Forall_app in Hdots as [_ Q]. inversion Q; auto. }
      destruct Hl as (l & El).
      assert (R : rfind "."%char (dir ++ dots ++ base) = Z.of_nat (List.length (dir ++ l))).
      { rewrite El. rewrite <- app_assoc, app_assoc. cbn [app]. apply rfind_last; auto. }
      rewrite R, app_length. destruct (Z.ltb_spec (Z.of_nat (List.length dir) - 1) (Z.of_nat (List.length dir + List.length l))); auto.
      replace (Z.to_nat (Z.of_nat (List.length dir) - 1 + 1)) with (List.length dir) by lia.
      replace (Z.to_nat (Z.of_nat (List.length dir + List.length l) - (Z.of_nat (List.length dir) - 1 + 1))) with (List.length l) by lia.
      rewrite skipn_app, skipn_all, Nat.sub_diag. cbn [app skipn]. rewrite El, <- app_assoc, firstn_app, Nat.sub_diag, firstn_all, app_nil_r.
      assert (Q : existsb (fun a => negb (Ascii.eqb a ".")) l = false); [|rewrite Q; rewrite <- ?app_assoc; auto].
      rewrite El in Hdots. apply Forall_app in Hdots as [Q _]. clear -Q. induction Q as [|x l -> _ IH]; auto.
  - unfold splitext_root.
    assert (Hns : ~ In "/"%char (dots ++ ch :: base ++ "."%char :: ext)).
    { rewrite in_app_iff. intros [K|K]; [apply dots_no_sep in Hdots; auto|]. change (ch :: base ++ "."%char :: ext) with ((ch :: base) ++ "."%char :: ext) in K.
      apply in_app_iff in K as [K|[K|K]]; auto. discriminate. }
    rewrite rfind_dir by auto.
    set (pre := dots ++ ch :: base).
    replace (dots ++ ch :: base ++ "."%char :: ext) with (pre ++ "."%char :: ext) by (unfold pre; rewrite <- app_assoc; auto).
    rewrite app_assoc, rfind_last, app_length by auto.
    destruct (Z.ltb_spec (Z.of_nat (List.length dir) - 1) (Z.of_nat (List.length dir + List.length pre))); [|lia].
    replace (Z.to_nat (Z.of_nat (List.length dir) - 1 + 1)) with (List.length dir) by lia.
    replace (Z.to_nat (Z.of_nat (List.length dir + List.length pre) - (Z.of_nat (List.length dir) - 1 + 1))) with (List.length pre) by lia.
    rewrite <- app_assoc. rewrite skipn_app, skipn_all, Nat.sub_diag. cbn [app skipn]. rewrite firstn_app, Nat.sub_diag, firstn_all, app_nil_r.
    assert (Q : existsb (fun a => negb (Ascii.eqb a ".")) pre = true).
    { apply existsb_exists. exists ch. split; [unfold pre; apply in_app_iff; right; left; auto|].
      destruct (Ascii.eqb_spec ch "."%char); auto. }
    rewrite Q. rewrite Nat2Z.id. rewrite app_assoc, <- app_length, firstn_app, Nat.sub_diag, firstn_all, app_nil_r. auto.
Qed.
Lemma last_split (ch : ascii) (t : text) : ~ In ch t \/ exists u v, t = u ++ ch :: v /\ ~ In ch v.
Proof.
  induction t as [|a t [IH|(u & v & -> & IH)]].
  - left; auto.
  - destruct (ascii_dec a ch) as [->|Hn]; [right; exists [], t; auto|left; intros [K|K]; auto].
  - right. exists (a :: u), v. auto.
Qed.
Lemma stem_total name : exists stem, stem_of name stem.
Proof.
  assert (HD : exists dir base, name = dir ++ base /\ (dir = [] \/ exists d, dir = d ++ ["/"%char]) /\ ~ In "/"%char base).
  { destruct (last_split "/"%char name) as [H|(u & v & -> & H)].
    - exists [], name. auto.
    - exists (u ++ ["/"%char]), v. rewrite <- app_assoc. split; auto. split; eauto. }
  destruct HD as (dir & base & -> & HD & Hs).
  assert (HB : exists dots rest, base = dots ++ rest /\ Forall (fun a => a = "."%char) dots /\
                 (rest = [] \/ exists ch r, rest = ch :: r /\ ch <> "."%char)).
  { clear. induction base as [|a base (dots & rest & -> & H1 & H2)].
    - exists [], []. auto.
    - destruct (ascii_dec a "."%char) as [->|Hn].
      + exists ("."%char :: dots), rest. auto.
      + exists [], (a :: dots ++ rest). split; auto. split; auto. right. eauto. }
  destruct HB as (dots & rest & -> & HB & HR).
  destruct (last_split "."%char rest) as [H|(u & v & -> & H)].
  - eexists. apply stem_plain; auto. intros K. apply Hs, in_app_iff; auto.
  - destruct u as [|ch u].
    + destruct HR as [HR|(ch & r & E & Hn)]; [discriminate|]. cbn in E. congruence.
    + destruct HR as [HR|(ch' & r & E & Hn)]; [discriminate|]. cbn [app] in E. injection E as <- _.
      eexists. cbn [app]. apply stem_ext; auto.
      * intros K. apply Hs, in_app_iff. right. change ((ch :: u) ++ "."%char :: v) with ((ch :: u) ++ "."%char :: v). apply in_app_iff; auto.
      * intros K. apply Hs, in_app_iff. right. apply in_app_iff. right; right; auto.
Qed.
Lemma stem_shape name stem : stem_of name stem -> name = stem \/ exists x, name = stem ++ "."%char :: x.
Proof.
  intros [dir dots base|dir dots ch base ext]; auto. right. exists ext. rewrite <- !app_assoc. auto.
Qed.
Lemma sol_not_input name stem m : stem_of name stem -> stem ++ txt "_" ++ mode_name m ++ txt ".sol" <> name.
Proof.
  intros H E. apply stem_shape in H as [->|(x & ->)].
  - rewrite <- (app_nil_r stem) in E at 2. apply app_inv_head in E. discriminate.
  - apply app_inv_head in E. discriminate.
Qed.
Lemma sol_names_inj s1 s2 m1 m2 :
  s1 ++ txt "_" ++ mode_name m1 ++ txt ".sol" = s2 ++ txt "_" ++ mode_name m2 ++ txt ".sol" -> s1 = s2 /\ m1 = m2.
Proof.
  intros E. apply (f_equal (@rev ascii)) in E. rewrite !rev_app_distr in E.
  assert (G : forall m, rev (mode_name m ++ txt ".sol") = rev (txt ".sol") ++ rev (mode_name m)) by (intros; apply rev_app_distr).
  rewrite <- !rev_app_distr in E. rewrite !rev_app_distr in E. rewrite <- !app_assoc in E. apply app_inv_head in E.
  destruct m1, m2; cbn in E; try discriminate; injection E as E;
    (split; [|reflexivity]); rewrite <- (rev_involutive s1), E, rev_involutive; auto.
Qed.

(* ---- without -gdb the table is not touched ---- *)
Ltac ok H := let x := fresh "x" in let E := fresh "E" in apply bind_ok in H as (x & E & H).
Section NoGdb.
  Variable hash : text -> digest.
  Variable ifl : digest -> bool.
  Variable o : opts.
  Hypothesis Hg : o_gdb o = false.
  Lemma child_db lf m pulled pid child p c st p' : process_child hash o lf m pulled pid child p = Ok (c, st, p') -> p_db p' = p_db p.
  Proof.
    unfold process_child. intros H. ok H. ok H. destruct x0 as [[c1 st1] p1].
    assert (D : p_db p1 = p_db p).
    { destruct (svalue child) as [v|].
      - injection E0 as _ _ <-. destruct v, (p_solution p); auto.
      - ok E0. ok E0. destruct x1. injection E0 as _ _ <-. auto. }
    ok H. ok H. destruct x1 as [h c2]. destruct st1.
    - ok H. injection H as _ _ <-. exact D.
    - ok H. injection H as _ _ <-. exact D.
    - injection H as _ _ <-. destruct (svalue c2) as [[]|]; exact D.
  Qed.
  Lemma enqueue_db st c p p' : enqueue_if_unique st c p = Ok p' -> p_db p' = p_db p.
  Proof. destruct st; cbn; intros H; try (injection H as <-; auto; fail). ok H. injection H as <-. auto. Qed.
  Lemma step_db seen lf m p p' : step hash ifl o seen lf m p = Ok p' -> p_db p' = p_db p.
  Proof.
    unfold step. rewrite Hg. intros H. ok H. destruct x as [cnf q]. cbn [andb bind] in H. ok H. destruct x as [[[s1 s2] pulled] p1].
    assert (D1 : p_db p1 = p_db p).
    { ok E0. destruct x as [[a b]|]; [|discriminate]. injection E0 as _ _ _ <-. auto. }
    ok H. destruct x as [[c1 st1] p2]. ok H. destruct x as [[c2 st2] p3]. apply child_db in E1, E2.
    ok H. destruct x. ok H. destruct x. ok H. destruct x as [gs p4]. unfold save_parent_children in E5.
    ok E5. destruct x. ok E5. rewrite Hg in E5. cbn [andb] in E5. injection E5 as <- <-. ok H.
    ok E5. apply enqueue_db in E5, E8.
    destruct (svalue c1), (svalue c2); injection H as <-; cbn [p_db add_leaf]; congruence.
  Qed.
  Lemma poll_step_db exit arr st st' b : poll_step exit arr st = Ok (st', b) -> p_db (pl_state st') = p_db (pl_state st).
  Proof.
    unfold poll_step. destruct (nth_error _ _) as [w|]; [|discriminate]. destruct (w_reply w) as [rep|].
    - destruct (arr (w_no w)); [|intros H; injection H as <- <-; auto]. destruct rep as [|sat ch sol].
      + intros H. ok H. injection H as <- <-. auto.
      + assert (D : p_db (absorb (pl_state st) sat ch sol) = p_db (pl_state st)) by (unfold absorb; destruct (solution_truthy sol); auto).
        destruct (_ && exit); intros H; injection H as <- <-; auto.
    - intros H; injection H as <- <-; auto.
  Qed.
  Lemma poll_loop_db exit arr fuel : forall t st st', poll_loop fuel exit arr t st = Ok st' -> p_db (pl_state st') = p_db (pl_state st).
  Proof.
    induction fuel as [|f IH]; intros t st st'; cbn [poll_loop]; destruct (pl_workers st); intros H; try (injection H as <-; auto; fail); try discriminate.
    ok H. destruct x as [st1 b]. apply poll_step_db in E. destruct b; [injection H as <-; auto|]. apply IH in H. congruence.
  Qed.
  Lemma run_mp_db seen max wf arr lf m fuel : forall gen p p', run_mp hash ifl o seen max wf arr fuel lf m gen p = Ok p' -> p_db p' = p_db p.
  Proof.
    induction fuel as [|f IH]; intros gen p p'; cbn [run_mp]; destruct (loop_done o p); intros H; try (injection H as <-; auto; fail); try discriminate.
    ok H. apply step_db in E. destruct (_ && _).
    - ok H. apply IH in H. unfold split_work in E0. ok E0. destruct x1 as [nodes q]. ok E0. injection E0 as <-.
      apply poll_loop_db in E2. cbn [pl_state p_db with_queue] in E2. congruence.
    - apply IH in H. congruence.
  Qed.
  Lemma mp_db max wf arr fuel lf root db out :
    solve_set_mp hash ifl max wf arr fuel lf o root db = Ok out -> out_db out = db.
  Proof.
    unfold solve_set_mp. intros H. ok H. ok H. destruct (is_set_solved _ _ _ _).
    - destruct (gs_get_set_data _ _); [|discriminate]. injection H as <-. auto.
    - ok H. ok H. apply run_mp_db in E2.
      assert (D : p_db x1 = db). { unfold start in E1. ok E1. destruct x3. ok E1. injection E1 as <-. auto. }
      destruct (o_no_stats o); [injection H as <-; cbn [out_db]; congruence|].
      ok H. destruct x3 as [stats rr]. destruct (match dget text_eqb (sid x0) stats with Some x => x | None => zero_stats end) as [[u rn] rh].
      rewrite Hg in H. injection H as <-. cbn [out_db]. congruence.
  Qed.
End NoGdb.
