(* PP15.v -- sequences of runs on one database (C63, C64): statements and proofs. *)
From Coq Require Import String Ascii ZArith List Bool Lia Permutation Sorted.
From Verif Require Import Spec PyBase MSet MText MQueue MDb MSolver MMain MProc MShare MCli MSession MGen SpecInput SpecRun SpecProc
  SpecShare SpecGen SpecCli SpecSession PLib PDb PSolver PReader PMain PP1 PP2 PP5 PP7 PP10 PProg PProg2 PCli PSession PP14.
Import ListNotations.
Open Scope Z_scope.

Lemma name_eq m : global_table_name m = txt "globalsetstable_" ++ mode_name m.
Proof. destruct m; reflexivity. Qed.
Lemma name_inj m m' : global_table_name m = global_table_name m' -> m = m'.
Proof. destruct m, m'; intros H; try reflexivity; discriminate H. Qed.
Lemma lower_name m : lower (global_table_name m) = global_table_name m.
Proof. destruct m; reflexivity. Qed.
Lemma rows_eq d m : rows_of d m = content d (global_table_name m).
Proof. unfold rows_of. rewrite name_eq. auto. Qed.

Lemma content_create d n name : content (gs_create_table n d) name = content d name.
Proof.
  unfold gs_create_table. destruct (dmem text_eqb (lower n) d) eqn:E; auto. unfold content.
  assert (G : forall d : database, dget text_eqb name (d ++ [(lower n, [])]) = match dget text_eqb name d with Some t => Some t | None => if text_eqb name (lower n) then Some [] else None end).
  { clear. induction d as [|[a b] d IH]; simpl; auto. destruct (text_eqb name a); auto. }
  rewrite G. destruct (dget text_eqb name d); auto. destruct (text_eqb name (lower n)); auto.
Qed.
Lemma content_store t name n : forall d, content (store n t d) name = if text_eqb name n then (if dmem text_eqb n d then t else []) else content d name.
Proof.
  unfold content, store, dmem. induction d as [|[a b] d IH]; cbn [map dget fst snd]; [destruct (text_eqb name n); auto|].
  destruct (text_eqb_spec n a) as [<-|Hn]; cbn [dget fst].
  - destruct (text_eqb_spec name n) as [->|Hm]; auto.
  - destruct (text_eqb_spec name a) as [->|Hm].
    + destruct (text_eqb_spec a n) as [|_]; [congruence|auto].
    + exact IH.
Qed.
Lemma content_with m t d m' : content (with_table m t d) (global_table_name m') = if text_eqb (global_table_name m') (global_table_name m) then t else content d (global_table_name m').
Proof.
  unfold with_table. rewrite content_store, content_create.
  destruct (text_eqb (global_table_name m') (global_table_name m)); auto.
  assert (H : dmem text_eqb (global_table_name m) (gs_create_table (global_table_name m) d) = true); [|rewrite H; auto].
  unfold gs_create_table. rewrite lower_name. destruct (dmem text_eqb (global_table_name m) d) eqn:E; auto.
  apply (dmem_In _ tspec). unfold dkeys. rewrite map_app. apply in_app_iff. right. left. auto.
Qed.
Lemma rows_with m t d m' : rows_of (with_table m t d) m' = if text_eqb (global_table_name m') (global_table_name m) then t else rows_of d m'.
Proof. rewrite !rows_eq. apply content_with. Qed.
Lemma rows_with_same m t d : rows_of (with_table m t d) m = t.
Proof. rewrite rows_with, text_eqb_refl. auto. Qed.
Lemma rows_with_other m t d m' : m <> m' -> rows_of (with_table m t d) m' = rows_of d m'.
Proof.
  intros H. rewrite rows_with. destruct (text_eqb_spec (global_table_name m') (global_table_name m)) as [E|]; auto. apply name_inj in E. congruence.
Qed.
Lemma content_drop n name : forall d, content (gs_drop_table n d) name = if text_eqb n name then [] else content d name.
Proof.
  unfold content, gs_drop_table. induction d as [|[a b] d IH]; cbn [filter dget fst]; [destruct (text_eqb n name); auto|].
  destruct (text_eqb_spec n a) as [<-|Hn]; cbn [negb dget].
  - rewrite IH. destruct (text_eqb_spec n name) as [->|Hm]; auto. destruct (text_eqb_spec name n); [congruence|auto].
  - destruct (text_eqb_spec name a) as [->|Hm]; auto. destruct (text_eqb_spec n a); [congruence|auto].
Qed.
Lemma deletable_iff name : existsb (text_eqb name) deletable = true <-> exists m, deletes m (Deletes [name]).
Proof.
  rewrite existsb_exists. split.
  - intros (x & Hx & E). destruct (text_eqb_spec name x); [subst x|discriminate]. unfold deletable in Hx.
    destruct Hx as [<-|[<-|[<-|[<-|[]]]]]; [exists MODE_LOU|exists MODE_LO|exists MODE_FLO|exists MODE_FLOP]; split; try reflexivity; discriminate.
  - intros (m & -> & Hm). exists (txt "globalsetstable_" ++ mode_name m). split; [|apply text_eqb_refl].
    destruct m; [| | | |congruence]; cbn; auto 6.
Qed.

(* C63: delete_gdb.py empties the table of the mode it is asked for, unless that mode is 'normal', and
   touches no other; whatever its arguments, the table of mode 'normal' stays; and if it says nothing was
   deleted, nothing was *)
Lemma p_C63_delete : forall args d,
  (forall m, deletes m (Deletes args) -> rows_of (fst (delete_gdb args d)) m = [] /\ snd (delete_gdb args d) = true) /\
  (forall m, ~ deletes m (Deletes args) -> rows_of (fst (delete_gdb args d)) m = rows_of d m) /\
  rows_of (fst (delete_gdb args d)) MODE_NORMAL = rows_of d MODE_NORMAL /\
  (snd (delete_gdb args d) = true <-> exists m, deletes m (Deletes args)) /\
  (snd (delete_gdb args d) = false -> fst (delete_gdb args d) = d).
Proof.
  intros args d. unfold delete_gdb. destruct args as [|name rest].
  { cbn. split; [intros m []|]. split; [auto|]. split; auto. split; [split; [discriminate|intros (m & [])]|auto]. }
  assert (DI : forall m, deletes m (Deletes (name :: rest)) <-> deletes m (Deletes [name])) by (intros m; cbn; tauto).
  destruct (existsb (text_eqb name) deletable) eqn:E; cbn [fst snd].
  - assert (O : forall m, ~ deletes m (Deletes (name :: rest)) -> rows_of (gs_drop_table name d) m = rows_of d m).
    { intros m Hm. rewrite !rows_eq, content_drop. destruct (text_eqb_spec name (global_table_name m)) as [En|]; auto. exfalso.
      apply Hm. unfold deletes. rewrite <- name_eq. split; auto. intros ->. subst name. vm_compute in E. discriminate. }
    split; [|split; [exact O|split; [apply O; intros [_ K]; congruence|split; [|discriminate]]]].
    + intros m [-> _]. split; auto. rewrite rows_eq, content_drop, name_eq, text_eqb_refl. auto.
    + split; auto. intros _. apply deletable_iff in E as (m & Hm). exists m. apply DI; auto.
  - assert (N : forall m, ~ deletes m (Deletes (name :: rest))).
    { intros m Hm. apply DI in Hm. assert (existsb (text_eqb name) deletable = true) by (apply deletable_iff; eauto). congruence. }
    split; [intros m Hm; destruct (N _ Hm)|]. split; auto. split; auto. split; auto. split; [discriminate|intros (m & Hm); destruct (N _ Hm)].
Qed.

(* C63: the tables of the modes are kept apart: an event changes the table of a mode only if it deletes it or
   is a run in that mode with -gdb *)
Lemma p_C63_tables_apart : forall d ev d' m,
  happens d ev d' -> ~ uses m ev -> ~ deletes m ev -> rows_of d' m = rows_of d m.
Proof.
  intros d ev d' m H U D. destruct H as [e c out lines file ver written shown _|e c x written shown ops _ _|e c r _ _ _|c ops _|args|]; cbn [uses] in U.
  - destruct (c_gdb c); auto. apply rows_with_other. intros <-. auto.
  - destruct (c_gdb c); auto. apply rows_with_other. intros <-. auto.
  - auto.
  - destruct (c_gdb c); auto. apply rows_with_other. intros <-. auto.
  - destruct (p_C63_delete args d) as (_ & K & _). auto.
  - rewrite !rows_eq. apply content_create.
Qed.

Lemma proper_run e c db ans w s : command_ends e c db (Ran ans w s) -> proper c.
Proof.
  intros (N & H). specialize (H N N (le_n _) (le_n _)). apply proper_iff. unfold command in H.
  destruct (groups_ok c); cbn [negb] in H; [|discriminate]. destruct (checks c); [discriminate|]. auto.
Qed.
Lemma command_main e c db ans w s : command_ends e c db (Ran ans w s) ->
  exists N, forall fuel lf, (N <= fuel)%nat -> (N <= lf)%nat ->
    main_with (e_hash e) (solver e fuel lf c) (main_opts_of c) (chosen_input c) db = Ok ans.
Proof.
  intros H. pose proof (proper_run _ _ _ _ _ _ H) as P. destruct H as (N & H). exists N. intros fuel lf H1 H2.
  specialize (H fuel lf H1 H2). rewrite proper_command in H by auto. apply bind_ok in H as (x & E & H). injection H as <- _ _. auto.
Qed.
Lemma report_grows e c db out lines file ver w s : command_ends e c db (Ran (Report out lines file ver) w s) ->
  grows db (out_db out).
Proof.
  intros H. destruct (command_main _ _ _ _ _ _ H) as (N & M). specialize (M N N (le_n _) (le_n _)).
  apply main_problem in M as (cnf & fi & mi & R & _). apply run_with_inv in R as (_ & h & cnf' & l1 & l2 & _ & S & _).
  unfold solver in S. destruct (c_gdb c) eqn:Eg; [eapply sh_grows; eauto|]. apply mp_db in S; [|exact Eg]. rewrite S. apply grows_refl.
Qed.

(* C63: a run that ends with a report has changed the table of its mode only by statements that insert rows
   under new hashes, write positive counts, or add to redundant_times *)
Lemma p_C63_statements : forall e c db out lines file ver written shown,
  command_ends e c db (Ran (Report out lines file ver) written shown) ->
  exists ops, Forall statement ops /\ out_db out = tab_run ops db /\ (c_gdb c = false -> ops = []).
Proof.
  intros e c db out lines file ver w s H. destruct (c_gdb c) eqn:Eg.
  - destruct (report_grows _ _ _ _ _ _ _ _ _ H) as (ops & A & B). exists ops. split; auto. split; auto. discriminate.
  - exists []. split; [constructor|]. split; auto. destruct H as (N & H).
    cbn. eapply p_C58_table_only_with_gdb; [exact Eg|]. apply (H N N); auto.
Qed.

Lemma happens_grows d ev d' m : happens d ev d' -> ~ deletes m ev -> grows (rows_of d m) (rows_of d' m).
Proof.
  intros H D. assert (G : forall c t, grows (rows_of d (c_mode c)) t -> grows (rows_of d m) (rows_of (if c_gdb c then with_table (c_mode c) t d else d) m)).
  { intros c t Ht. destruct (c_gdb c); [|apply grows_refl]. destruct (text_dec (global_table_name (c_mode c)) (global_table_name m)) as [E|E].
    - apply name_inj in E. rewrite <- E, rows_with_same. auto.
    - rewrite rows_with_other; [apply grows_refl|]. congruence. }
  destruct H as [e c out lines file ver written shown K|e c x written shown ops _ K|e c r _ _ _|c ops K|args|].
  - apply G. eapply report_grows; eauto.
  - apply G. exists ops. auto.
  - apply grows_refl.
  - apply G. exists ops. auto.
  - destruct (p_C63_delete args d) as (_ & K & _). rewrite K by auto. apply grows_refl.
  - rewrite !rows_eq. unfold create_global_table. rewrite content_create. apply grows_refl.
Qed.
Lemma happens_tidy d ev d' m : happens d ev d' -> tidy (rows_of d m) -> tidy (rows_of d' m).
Proof.
  intros H T. assert (Dec : deletes m ev \/ ~ deletes m ev).
  { destruct ev as [| |[|name rest]|]; cbn; auto.
    destruct (text_dec name (txt "globalsetstable_" ++ mode_name m)); [|tauto]. destruct m; try (left; split; [auto|discriminate]). right. intros [_ K]. auto. }
  destruct Dec as [D|D].
  - destruct ev as [| |args|]; try destruct D. inversion H; subst. destruct (p_C63_delete (args) d) as (K & _). 
    destruct args; [contradiction|]. destruct (K m D) as [-> _]. apply tidy_nil.
  - eapply grows_tidy; [eapply happens_grows; eauto|auto].
Qed.
Lemma session_tidy d evs d' m : session d evs d' -> tidy (rows_of d m) -> tidy (rows_of d' m).
Proof. intros H T. induction H; auto. eapply happens_tidy; eauto. Qed.
Lemma session_grows d evs d' m : session d evs d' -> (forall ev, In ev evs -> ~ deletes m ev) -> grows (rows_of d m) (rows_of d' m).
Proof.
  intros H D. induction H as [|evs d1 ev d2 H IH K]; [apply grows_refl|]. eapply grows_trans; [apply IH; intros; apply D, in_app_iff; auto|].
  eapply happens_grows; eauto. apply D, in_app_iff. right. left. auto.
Qed.
Lemma session_app d evs1 : forall evs2 d2, session d (evs1 ++ evs2) d2 -> exists d1, session d evs1 d1 /\ session d1 evs2 d2.
Proof.
  intros evs2. induction evs2 as [|ev evs2 IH] using rev_ind; intros d2 H.
  - rewrite app_nil_r in H. exists d2. split; auto. constructor.
  - rewrite app_assoc in H. inversion H as [E|evs d1 ev' d3 H1 H2 E].
    + symmetry in E. apply app_eq_nil in E as [_ E]. discriminate.
    + apply app_inj_tail in E as [-> ->]. subst d3. destruct (IH _ H1) as (d0 & A & B). exists d0. split; auto. econstructor; eauto.
Qed.
Lemma tidy_start m : tidy (rows_of [] m).
Proof. apply tidy_nil. Qed.

(* C63: through any sequence of runs, complete or cut off, with any options and outcomes, and of deletions of
   other tables, no row of a table is lost or changes its content, and a solved set stays solved *)
Lemma p_C63_rows_kept : forall evs0 d evs d' m h w,
  session [] evs0 d -> session d evs d' -> (forall ev, In ev evs -> ~ deletes m ev) ->
  In (h, w) (rows_of d m) ->
  NoDup (dkeys (rows_of d' m)) /\
  exists w', In (h, w') (rows_of d' m) /\ row_content w' = row_content w /\ (0 < r_unique w -> 0 < r_unique w').
Proof.
  intros evs0 d evs d' m h w S0 S1 D Hi. pose proof (session_tidy _ _ _ m S0 (tidy_start m)) as T.
  pose proof (session_tidy _ _ _ m S1 T) as T'. split; [apply T'|].
  apply (dget_In_NoDup _ tspec _ _ _ (proj1 T)) in Hi. destruct (grows_row _ _ _ _ (session_grows _ _ _ m S1 D) Hi) as (w' & A & B & C).
  exists w'. split; auto. apply (dget_In _ tspec) in A. auto.
Qed.

(* C63: the verdict does not depend on the past: after any sequence of runs and deletions, a run without
   -gdb, or one with -gdb whose table was not used since it was last deleted, reports the truth (see C59) *)
Lemma p_C63_verdict_whatever_happened : forall evs d e c name i F,
  session [] evs d -> (c_gdb c = true -> unused (c_mode c) evs) ->
  proper c -> reads_file c name i -> represents i F -> (exists cl, In cl F /\ ~ complementary cl) ->
  reliable e c [] -> c_factorize c = false -> c_multiply c = None ->
  exists root out file ver written shown,
    get_cnf_set i = Ok root /\
    command_ends e c (rows_of d (c_mode c)) (Ran (Report out [] file ver) written shown) /\
    (out_sat out = true -> satisfiable F /\
       exists sol, out_solution out = Some sol /\ NoDup (dkeys sol) /\
         (forall asg, extends asg sol -> cnf_true asg F) /\
         (forall v, In v (dkeys sol) -> In v (fvars F))) /\
    (out_sat out = false -> out_solution out = None) /\
    (collision_free (e_hash e) (opts_of c) root -> (out_sat out = true <-> satisfiable F)).
Proof.
  intros evs d e c name i F S U P HR HF HT HE Hf Hm.
  assert (HE' : reliable e c (rows_of d (c_mode c))).
  { destruct HE as (A & B & C & D & E). split; auto. split; auto. split; auto. split; auto. intros Hg. split; [|apply D; auto].
    destruct (U Hg) as (before & after & -> & Hb & Ha). destruct (session_app _ _ _ _ S) as (d1 & S1 & S2).
    assert (E1 : rows_of d1 (c_mode c) = []).
    { destruct Hb as [->|(b & ev & -> & Hd)].
      - inversion S1 as [E0|evs d0 ev d2 ? ? E0]; [reflexivity|]. apply app_eq_nil in E0 as [_ E0]. discriminate.
      - destruct (session_app _ _ _ _ S1) as (d0 & _ & S3). inversion S3 as [|evs d2 ev' d3 S4 H4 E4]. 
        apply (app_inj_tail _ []) in E4 as [-> ->]. subst d3. destruct ev as [| |args|]; try destruct Hd. inversion H4; subst.
        destruct args; [contradiction|]. destruct (p_C63_delete (t :: args) d2) as (K & _). apply (K (c_mode c)). exact Hd. }
    assert (G : forall l x y, session x l y -> (forall ev, In ev l -> ~ uses (c_mode c) ev) -> rows_of x (c_mode c) = [] -> rows_of y (c_mode c) = []).
    { clear. intros l x y H. induction H as [|evs d1 ev d2 H IH K]; auto. intros Hn E.
      specialize (IH (fun ev' h => Hn ev' (proj2 (in_app_iff _ _ _) (or_introl h))) E).
      assert (Hu : ~ uses (c_mode c) ev) by (apply Hn, in_app_iff; right; left; auto).
      destruct ev as [e1 c1 r1|c1 ops|args|].
      - rewrite (p_C63_tables_apart _ _ _ _ K Hu); auto.
      - rewrite (p_C63_tables_apart _ _ _ _ K Hu); auto.
      - inversion K; subst. destruct (p_C63_delete args d1) as (K1 & K2 & _).
        assert (Dec : deletes (c_mode c) (Deletes args) \/ ~ deletes (c_mode c) (Deletes args)).
        { destruct args as [|name rest]; cbn; auto. destruct (text_dec name (txt "globalsetstable_" ++ mode_name (c_mode c))); [|tauto].
          destruct (c_mode c); try (left; split; [auto|discriminate]). right. intros [_ Q]. auto. }
        destruct Dec as [D|D]; [apply K1; auto|rewrite K2; auto].
      - rewrite (p_C63_tables_apart _ _ _ _ K Hu); auto. }
    eapply G; eauto. }
  destruct (p_C59_program_verdict e c _ name i F P HR HF HT HE' Hf Hm) as (root & out & file & ver & w & s & A & B & C & D & E).
  exists root, out, file, ver, w, s. split; auto. split; auto. split; [|split; auto].
  - intros Hs. destruct (C Hs) as (C1 & sol & C2 & C3 & C4 & C5 & _). split; auto. exists sol. auto.
  - intros Hs. apply D; auto.
Qed.

Lemma same_solver e fuel lf c h cnf cnf' db : get_hash (e_hash e) false cnf = Ok (h, cnf') -> solver e fuel lf c cnf' db = solver e fuel lf c cnf db.
Proof.
  intros Eh. unfold get_hash in Eh. destruct (computed_hash cnf) as [h0|] eqn:E0.
  - injection Eh as _ <-. auto.
  - apply bind_ok in Eh as (t & _ & Eh). injection Eh as _ <-. apply solver_hash.
Qed.

(* C64: once a problem was solved with -gdb, every later run of it in the same mode with -gdb reports 'Not
   satisfiable', without a solution, and with -fact calls the number prime: whatever was run, cut off or
   deleted in between, as long as it is not this mode's table, and whatever the other options of the later
   run.  In mode 'normal' this lasts for ever, as its table cannot be deleted.  (The first run finds an empty
   table, or the later one has -gnm; with -rdb the input is taken as it is.) *)
Lemma p_C64_denied_ever_after : forall evs0 d0 e1 c1 out1 lines1 file1 ver1 written1 shown1 d1 evs d2 e2 c2,
  session [] evs0 d0 ->
  happens d0 (Runs e1 c1 (Ran (Report out1 lines1 file1 ver1) written1 shown1)) d1 ->
  session d1 evs d2 -> (c_mode c1 = MODE_NORMAL \/ forall ev, In ev evs -> ~ deletes (c_mode c1) ev) ->
  c_gdb c1 = true -> c_no_stats c1 = false -> (forall h, e_insert_fails e1 h = false) ->
  (c_gnm c2 = true \/ rows_of d0 (c_mode c1) = []) ->
  (c_rdb c1 = true -> c_factorize c1 = false /\ c_multiply c1 = None /\
     exists F, represents (chosen_input c1) F /\ exists cl, In cl F /\ ~ complementary cl) ->
  proper c2 -> c_gdb c2 = true -> same_problem c1 c2 -> e_hash e2 = e_hash e1 ->
  exists out2 written2 shown2,
    command_ends e2 c2 (rows_of d2 (c_mode c2)) (Ran (Report out2 (map denied lines1) None None) written2 shown2) /\
    out_sat out2 = false /\ out_solution out2 = None /\ out_db out2 = rows_of d2 (c_mode c2).
Proof.
  intros evs0 d0 e1 c1 out1 lines1 file1 ver1 w1 s1 d1 evs d2 e2 c2 S0 H1 S1 ND' G1 N1 I1 HF HR P2 G2 (Si & Sf & Sm & So & Sz & St) Hh.
  assert (ND : forall ev, In ev evs -> ~ deletes (c_mode c1) ev).
  { destruct ND' as [->|K]; auto. intros ev _ Hd. destruct ev as [| |[|x y]|]; cbn in Hd; try destruct Hd. tauto. }
  assert (T0 : tidy (rows_of d0 (c_mode c1))) by (eapply session_tidy; eauto; apply tidy_start).
  assert (Ed1 : d1 = with_table (c_mode c1) (out_db out1) d0 /\ command_ends e1 c1 (rows_of d0 (c_mode c1)) (Ran (Report out1 lines1 file1 ver1) w1 s1)).
  { inversion H1; subst; [rewrite G1; auto|]. exfalso. match goal with K : _ |- False => eapply K; reflexivity end. }
  destruct Ed1 as [Ed1 C1]. pose proof (session_grows _ _ _ _ S1 ND) as GR. rewrite Ed1, rows_with_same in GR.
  assert (T2 : tidy (rows_of d2 (c_mode c1))).
  { eapply grows_tidy; [exact GR|]. eapply grows_tidy; [eapply report_grows; eauto|auto]. }
  destruct (command_main _ _ _ _ _ _ C1) as (N & M). pose proof (M N N (le_n _) (le_n _)) as M1.
  destruct (main_problem _ _ _ _ _ _ _ _ _ M1) as (cnf & fi & mi & R & Hcnf & Again).
  destruct (run_with_inv _ _ _ _ _ _ _ _ _ _ _ R) as (Hne & h & cnf' & l1 & l2 & Eh & Sv & F1 & F2 & El).
  rewrite (same_solver _ _ _ _ _ _ _ _ Eh) in Sv. unfold solver in Sv. rewrite G1 in Sv.
  assert (RO : o_rdb (opts_of c1) = true -> root_ok cnf).
  { intros Hr. destruct (HR Hr) as (A1 & A2 & F & A3 & A4). specialize (Hcnf A1 A2).
    destruct (represents_read _ _ A3) as (s & A & B & C & D & E & _ & G & I & J).
    assert (s = cnf) by congruence. subst s.
    assert (HFn : F <> []) by (destruct A4 as (cl & Hc & _); intros ->; destruct Hc).
    eapply read_root_ok; eauto. }
  destruct (sh_solves _ _ _ _ _ _ _ _ _ _ _ _ Sv G1 N1 RO T0) as (t & r & Et & Er & Hw).
  destruct (Hw (I1 _)) as (w & W1 & W2 & W3).
  destruct (grows_row _ _ _ _ GR W1) as (w' & V1 & V2 & V3).
  set (out2 := mkOut false None [] (r_unique w') (r_redundant w') (r_hits w') 1 (rows_of d2 (c_mode c1)) []).
  assert (S2 : forall fuel lf, (N <= lf)%nat -> solver e2 fuel lf c2 cnf (rows_of d2 (c_mode c1)) = Ok out2).
  { intros fuel lf Hlf. unfold solver. rewrite G2. apply sh_again with (t := t) (r := r); auto; try apply T2.
    - rewrite Hh. rewrite (prepare_same (e_hash e1) lf (opts_of c2) (opts_of c1)) by (cbn; congruence).
      eapply prepare_root_mono; eauto.
    - intros Hn. cbn in Hn. destruct HF as [K|K]; [congruence|]. rewrite K in W3.
      specialize (W3 eq_refl). unfold row_content in V2. injection V2 as _ _ _ V2 _. rewrite V2, W3. lia. }
  set (ans := Report out2 (map denied lines1) None None).
  exists out2, (files_of c2 ans), (shown_of c2 ans). split; [|split; [reflexivity|split; [reflexivity|cbn [out_db out2]; rewrite So; reflexivity]]].
  rewrite <- So. apply command_ends_report; auto. exists N. intros fuel lf L1 L2.
  rewrite <- Si, Hh. rewrite (Again _ (main_opts_of c2)) by (cbn; congruence).
  destruct (run_with_none (e_hash e1) (solver e2 fuel lf c2) (main_opts_of c2) cnf fi mi (rows_of d2 (c_mode c1)) h cnf' out2 Hne Eh) as (k1 & k2 & K1 & K2 & K3).
  - rewrite <- Hh in Eh. rewrite (same_solver _ _ _ _ _ _ _ _ Eh). apply S2; auto.
  - reflexivity.
  - rewrite K3. destruct (lines_denied _ _ _ _ _ F1 F2) as [J1 J2]. rewrite J1 in K1. rewrite J2 in K2. injection K1 as <-. injection K2 as <-.
    unfold ans. rewrite El, map_app. auto.
Qed.

(* C64: so on the file generated for a composite number, -fact -gdb prints its factors the first time, and
   'prime' every other time *)
Lemma p_C64_composite_called_prime : forall am mm n t e c name evs0 d0,
  4 <= n -> ~ Znumtheory.prime n -> array_sized mm n -> gen_main am mm n = Some t ->
  proper c -> c_dimacs c = Some (name, t) -> reliable e c [] -> c_factorize c = true -> c_multiply c = None ->
  c_gdb c = true -> c_rdb c = false -> c_no_stats c = false ->
  (forall root info s', get_cnf_set (InDimacs t) = Ok root -> factorize root = Some (info, s') ->
     collision_free (e_hash e) (opts_of c) s') ->
  session [] evs0 d0 -> rows_of d0 (c_mode c) = [] ->
  exists p q out file ver written shown d1,
    1 < p /\ 1 < q /\ n = p * q /\
    happens d0 (Runs e c (Ran (Report out [LFactors n p q] file ver) written shown)) d1 /\
    forall evs d2, session d1 evs d2 -> (forall ev, In ev evs -> ~ deletes (c_mode c) ev) ->
      exists out2 written2 shown2,
        command_ends e c (rows_of d2 (c_mode c)) (Ran (Report out2 [LPrime n] None None) written2 shown2).
Proof.
  intros am mm n t e c name evs0 d0 Hn Hp Ha Ht PR HD HE Hf Hm Hg Hr Hs CF S0 Hd.
  destruct (p_C61_generated_factors am mm n t e c [] name Hn Ha Ht PR HD HE Hf Hm)
    as (root & info & s' & out & lines & file & ver & w & s & A & B & C & D1 & _ & D3).
  assert (Hsat : out_sat out = true) by (apply D3; [eapply CF; eauto|exact Hp]).
  destruct (D1 Hsat) as (p & q & -> & P1 & P2 & P3).
  assert (HH : happens d0 (Runs e c (Ran (Report out [LFactors n p q] file ver) w s))
     (if c_gdb c then with_table (c_mode c) (out_db out) d0 else d0)).
  { apply h_report. rewrite Hd. exact C. }
  exists p, q, out, file, ver, w, s. eexists. split; auto. split; auto. split; auto. split; [exact HH|].
  intros evs d2 S2 N2.
  destruct (p_C64_denied_ever_after evs0 d0 e c _ _ _ _ _ _ _ evs d2 e c S0 HH S2 (or_intror N2) Hg Hs) as (out2 & w2 & s2 & K & _).
  - apply HE. exact Hg.
  - right; auto.
  - congruence.
  - auto.
  - auto.
  - repeat split.
  - reflexivity.
  - exists out2, w2, s2. exact K.
Qed.

(*EX
(* a day's work: a run in mode lo is killed after its first statement, the file generated for 6 is factored with
   -gdb in mode flo, then again, and the table of mode flo is deleted *)
From Verif Require Import Properties12 Properties14.
Definition six : cli := on_generated 6 true None.
Definition cut_run : event := CutOff (on_file true 3) [TInsert false (txt "h") (txt "1") (txt "T") (txt "F") 1 1].
Definition deletion : event := Deletes [txt "globalsetstable_flo"].
Example C63_C64_example : exists d0, session [] [cut_run] d0 /\ rows_of d0 MODE_FLO = [] /\ List.length (rows_of d0 MODE_LO) = 1%nat /\
  proper six /\ reliable plain_env six [] /\ same_problem six six /\
  exists p q out file ver w s d1,
    happens d0 (Runs plain_env six (Ran (Report out [LFactors 6 p q] file ver) w s)) d1 /\ 1 < p /\ 1 < q /\ 6 = p * q /\
    (exists out2 w2 s2, command_ends plain_env six (rows_of d1 MODE_FLO) (Ran (Report out2 [LPrime 6] None None) w2 s2)) /\
    deletes MODE_FLO deletion /\
    (exists d2, happens d1 deletion d2 /\ rows_of d2 MODE_FLO = [] /\ rows_of d2 MODE_LO = rows_of d0 MODE_LO) /\
    unused MODE_FLO [Runs plain_env six (Ran (Report out [LFactors 6 p q] file ver) w s); cut_run; deletion; cut_run].
Proof.
  destruct C61_example as (P & R & Gm & _). fold six in P, R.
  assert (H0 : happens [] cut_run (with_table MODE_LO (tab_run [TInsert false (txt "h") (txt "1") (txt "T") (txt "F") 1 1] []) [])).
  { apply (h_cut [] (on_file true 3) [TInsert false (txt "h") (txt "1") (txt "T") (txt "F") 1 1]). constructor; [exact I|constructor]. }
  set (d0 := with_table _ _ _) in H0. exists d0.
  assert (S0 : session [] [cut_run] d0) by (apply (s_next [] [] [] cut_run d0); [constructor|exact H0]).
  split; auto. split; [reflexivity|]. split; [reflexivity|]. split; auto. split; auto. split; [repeat split|].
  destruct (C64_composite_called_prime NBit CarrySave 6 (text_of 6) plain_env six (txt "six.txt") [cut_run] d0)
    as (p & q & out & file & ver & w & s & d1 & Hp & Hq & Hpq & H1 & H2); try reflexivity; auto; try lia.
  - intros [_ K]. specialize (K 2 ltac:(lia)). apply Znumtheory.Zgcd_1_rel_prime in K. vm_compute in K. discriminate.
  - discriminate.
  - intros. apply never_collides.
  - exists p, q, out, file, ver, w, s, d1. split; auto. split; auto. split; auto. split; auto.
    split; [apply (H2 [] d1); [constructor|intros ev []]|].
    assert (D : deletes MODE_FLO deletion) by (split; [reflexivity|discriminate]). split; auto.
    split.
    + eexists. split; [apply h_delete|]. destruct (C63_delete [txt "globalsetstable_flo"] d1) as (K1 & K2 & _).
      split; [apply K1; exact D|]. rewrite K2 by (intros [K _]; discriminate).
      apply (C63_tables_apart _ _ _ MODE_LO H1); cbn; [intros [_ K]; discriminate|auto].
    + exists [Runs plain_env six (Ran (Report out [LFactors 6 p q] file ver) w s); cut_run; deletion], [cut_run].
      split; auto. split; [right; exists [Runs plain_env six (Ran (Report out [LFactors 6 p q] file ver) w s); cut_run], deletion; auto|].
      intros ev [<-|[]] [_ K]. discriminate.
Qed.
EX*)
