(* PP1.v -- properties of clauses and sets (C01-C15): statements and proofs. *)
From Coq Require Import String Ascii ZArith List Bool Lia Permutation Sorted.
From Verif Require Import Spec PyBase MSet MText MQueue MDb MSolver SpecRun PLib PClause PRename PLo
  PNorm PEval PText PQueue PNode PStep PRun PStats PSolver PSolve PSearch PGraph.
Import ListNotations.
Open Scope Z_scope.

Lemma sample_ok : root_ok sample.
Proof.
  split; try reflexivity; try discriminate.
  - intros c H. vm_compute in H. repeat (destruct H as [<-|H]; [discriminate|]). destruct H.
  - intros c H. vm_compute in H. repeat (destruct H as [<-|H]; [repeat constructor; simpl; lia|]). destruct H.
  - intros c H. vm_compute in H. repeat (destruct H as [<-|H]; [reflexivity|]). destruct H.
  - constructor.
  - intros v [].
  - intros v [].
Qed.

(* C01: a clause over distinct variables keeps its literals, sorted by variable, whatever order the
   collection is enumerated in, and is undecided. *)
Lemma p_C01_clause_keeps_literals : forall c : list Z, distinct_vars c ->
  Permutation (raw (clause_init c)) c /\ sorted_clause (raw (clause_init c)) /\
  cvalue (clause_init c) = None /\ substituted (clause_init c) = false /\
  (forall c', Permutation c c' -> clause_init c' = clause_init c).
Proof.
  intros c H. rewrite (clause_init_distinct c H). simpl.
  split; [apply sort_abs_Perm|split; [apply sort_abs_sorted|split; [auto|split; [auto|]]]].
  intros c' P. rewrite (clause_init_distinct c') by (eapply distinct_vars_Perm; eauto).
  rewrite (sort_abs_perm_eq c c' H P). auto.
Qed.
(*EX
Example C01_example : distinct_vars [6; 3; -5] /\ raw (clause_init [6; 3; -5]) = [3; -5; 6].
Proof. split; [repeat constructor; simpl; lia | reflexivity]. Qed.
EX*)

(* C02: a clause of at most three literals becomes the constant True exactly when it contains a
   complementary pair; otherwise it is undecided. *)
Lemma p_C02_tautology_exact_up_to_three : forall c : list Z, NoDup c -> (List.length c <= 3)%nat ->
  (cvalue (clause_init c) = Some true <-> complementary c) /\
  (~ complementary c -> cvalue (clause_init c) = None /\ Permutation (raw (clause_init c)) c).
Proof.
  intros c N L. assert (E : cvalue (clause_init c) = Some true <-> complementary c).
  { split; [apply clause_init_taut_sound; auto|apply clause_init_taut_complete; auto]. }
  split; auto. intros H. destruct (clause_init_value c) as [H1|[H1 H2]]; [tauto|].
  split; auto. rewrite H2. apply sort_abs_Perm.
Qed.
(* C02, longer clauses: from four literals on, only a complementary pair over the smallest variable of
   the clause is noticed. *)
Lemma p_C02_tautology_only_smallest_variable : forall c : list Z, NoDup c -> (4 <= List.length c)%nat ->
  (cvalue (clause_init c) = Some true <->
   exists v, 0 < v /\ In v c /\ In (- v) c /\ forall l, In l c -> v <= Z.abs l).
Proof.
  intros c N L. rewrite clause_init_taut_iff. pose proof (sort_abs_Perm c) as P.
  pose proof (sort_abs_sorted c) as Srt. assert (N' : NoDup (sort_abs c)) by (eapply Permutation_NoDup; [symmetry; exact P|auto]).
  assert (Len : List.length (sort_abs c) = List.length c) by (apply Permutation_length; auto).
  destruct (sort_abs c) as [|x [|y [|z [|w t]]]] eqn:E; simpl in Len; try lia.
  unfold sorted_clause, cvars in Srt. simpl in Srt. inversion Srt as [|? ? S1 F1]; subst.
  inversion S1 as [|? ? S2 F2]; subst. rewrite Forall_forall in F1, F2.
  assert (Hin : forall l, In l c <-> In l (x :: y :: z :: w :: t)).
  { intros l; split; intros; [eapply Permutation_in; [symmetry; exact P|]|eapply Permutation_in; [exact P|]]; auto. }
  split.
  - intros Exy. destruct (NoDup_eq_abs x y _ N') as [E1 E2]; auto; [left; auto|].
    exists (Z.abs x). split; [lia|]. 
    assert (C : (Z.abs x = x /\ - Z.abs x = y) \/ (Z.abs x = y /\ - Z.abs x = x)) by lia.
    split; [apply Hin; destruct C as [[-> _]|[-> _]]; simpl; auto|].
    split; [apply Hin; destruct C as [[_ ->]|[_ ->]]; simpl; auto|].
    intros l Hl. apply Hin in Hl. destruct Hl as [<-|Hl]; [lia|]. apply F1.
    change (In (Z.abs l) (map Z.abs (y :: z :: w :: t))). apply in_map; auto.
  - intros (v & Hv & I1 & I2 & Hmin).
    assert (Hx : v <= Z.abs x) by (apply Hmin, Hin; simpl; auto).
    apply Hin in I1. apply Hin in I2.
    assert (G : forall l, In l (x :: y :: z :: w :: t) -> l = x \/ Z.abs y <= Z.abs l).
    { intros l [<-|[<-|Hl]]; auto; [right; lia|]. right. apply F2.
      change (In (Z.abs l) (map Z.abs (z :: w :: t))). apply in_map; auto. }
    assert (G' : Z.abs x <= Z.abs y) by (apply F1; simpl; auto).
    destruct (G _ I1) as [E1|E1], (G _ I2) as [E2|E2]; lia.
Qed.
(* C02, consequence: a clause of four literals with a complementary pair that is not over its smallest
   variable makes the solver abort, with every option set without early exit; the formula is valid. *)
Lemma p_C02_wide_tautology_aborts_refuted :
  exists F : list (list Z), (forall a, cnf_true a F) /\
    forall o, o_gdb o = false -> o_no_mem o = false -> o_exit o = false ->
      forall fuel lf, (10 <= fuel)%nat -> (10 <= lf)%nat ->
        exists e, solve_set (fun t => t) no_fail fuel lf o (set_of_text (formula_text F)) [] = Err e.
Proof.
  exists [[1; 2; 3; -3]]. split.
  - intros a c [<-|[]]. destruct (a 3) eqn:E; [exists 3|exists (-3)]; simpl; unfold lit_true; simpl; rewrite ?E; auto 10.
  - intros [m z t e r g nm ns gr] Hg Hn He fuel lf Hf Hl. simpl in Hg, Hn, He. subst.
    replace fuel with (10 + (fuel - 10))%nat by lia. replace lf with (10 + (lf - 10))%nat by lia.
    destruct m, z, t, r, ns, gr; eexists; vm_compute; reflexivity.
Qed.

(* C03: the clause order *)
Lemma p_C03_clause_order : 
  (forall a, clause_lt a a = false) /\
  (forall a b c, clause_lt a b = true -> clause_lt b c = true -> clause_lt a c = true) /\
  (forall a b, clause_lt a b = true \/ raw a = raw b \/ clause_lt b a = true) /\
  (forall a b, clause_lt a b = true <->
     (exists y q, raw b = raw a ++ y :: q) \/
     (exists p x y q r, raw a = p ++ x :: q /\ raw b = p ++ y :: r /\ lit_before x y)).
Proof.
  unfold clause_lt. split; [intros; apply raw_lt_irrefl|]. split; [intros a b c; apply raw_lt_trans|].
  split; [intros; apply raw_lt_total|]. intros a b.
  assert (LB : forall x y, lit_lt x y <-> lit_before x y) by (unfold lit_lt, lit_before; intros; lia).
  generalize (raw a) (raw b). clear a b. induction l as [|x a IH]; intros [|y b].
  - rewrite raw_lt_nil_l. split; [discriminate|]. intros [(y & q & E)|(p & x & y & q & r & E & _)]; [|destruct p]; discriminate.
  - rewrite raw_lt_nil_l. split; [|auto]. intros _. left. exists y, b. auto.
  - rewrite raw_lt_nil_r. split; [discriminate|]. intros [(z & q & E)|(p & z & w & q & r & _ & E & _)]; [|destruct p]; discriminate.
  - rewrite raw_lt_cons, IH, LB. split.
    + intros [H|[-> [(z & q & E)|(p & z & w & q & r & E1 & E2 & H)]]].
      * right. exists [], x, y, a, b. auto.
      * left. exists z, q. rewrite E. auto.
      * right. exists (y :: p), z, w, q, r. rewrite E1, E2. auto.
    + intros [(z & q & E)|(p & z & w & q & r & E1 & E2 & H)].
      * simpl in E. injection E as -> ->. right; split; auto. left. exists z, q; auto.
      * destruct p as [|u p]; simpl in *.
        -- injection E1 as -> ->. injection E2 as -> ->. auto.
        -- injection E1 as -> ->. injection E2 as -> ->. right; split; auto. right. exists p, z, w, q, r; auto.
Qed.
(*EX
Example C03_example : clause_lt (clause_init [1; 2]) (clause_init [-1; 2]) = true /\
  clause_lt (clause_init [1; 2]) (clause_init [1; 2; 3]) = true.
Proof. split; reflexivity. Qed.
EX*)

(* C04: adding clauses one by one computes the conjunction *)
Lemma p_C04_add_clauses_conjunction : forall cs : list clause,
  let s := fold_left add_clause cs empty_set in
  (svalue s = Some false <-> exists c, In c cs /\ cvalue c = Some false) /\
  (svalue s = Some true <-> cs <> [] /\ forall c, In c cs -> cvalue c = Some true) /\
  ((forall c, In c cs -> cvalue c <> Some false) ->
     clauses s = filter (fun c => match cvalue c with None => true | _ => false end) cs).
Proof.
  intros cs s.
  destruct (existsb (fun c => match cvalue c with Some false => true | _ => false end) cs) eqn:Ex.
  - apply existsb_exists in Ex as (c & Hc & Hv). 
    assert (Hf : cvalue c = Some false) by (destruct (cvalue c) as [[|]|]; congruence).
    assert (Es : svalue s = Some false) by (apply fold_add_false_in; eauto).
    rewrite Es. split; [split; eauto|]. split; [split; [discriminate|]|].
    + intros [_ H]. rewrite (H c Hc) in Hf. discriminate.
    + intros H. exfalso. apply (H c Hc Hf).
  - assert (Hn : forall c, In c cs -> cvalue c <> Some false).
    { intros c Hc Hv. enough (false = true) by discriminate. rewrite <- Ex. apply existsb_exists. exists c. rewrite Hv; auto. }
    destruct (fold_add_nofalse cs empty_set) as [E1 E2]; auto; [discriminate|]. fold s in E1, E2. simpl in E1, E2.
    change (filter (fun c => match cvalue c with None => true | _ => false end) cs) with (filter undecided cs).
    rewrite E2. split; [split|split; [split|]]; auto.
    + destruct (filter undecided cs); [destruct cs|]; discriminate.
    + intros (c & Hc & Hv). destruct (Hn c Hc Hv).
    + intros E. destruct (filter undecided cs) eqn:Ef; [|discriminate].
      destruct cs as [|c0 cs]; [discriminate|]. split; [discriminate|].
      intros c Hc. assert (Hu : undecided c = false).
      { destruct (undecided c) eqn:U; auto. assert (In c []) by (rewrite <- Ef; apply filter_In; auto). destruct H. }
      specialize (Hn c Hc). unfold undecided in Hu. destruct (cvalue c) as [[|]|]; congruence.
    + intros [H1 H2]. assert (Ef : filter undecided cs = []).
      { clear - H2. induction cs as [|c cs IH]; auto. simpl. unfold undecided at 1. rewrite H2 by (left; auto).
        apply IH. intros; apply H2; right; auto. }
      rewrite Ef. destruct cs; congruence.
Qed.
(*EX
Example C04_example : exists cs, List.length cs = 3%nat /\
  raws (fold_left add_clause cs empty_set) = [[1; 2]; [-1; 3]].
Proof. exists [clause_init [2; 1]; clause_init [2; -2; 5]; clause_init [3; -1]]. split; reflexivity. Qed.
EX*)

(* C05: renaming is an invertible change of names *)
Lemma p_C05_renaming_invertible : forall s s' : cset, names_ok s -> rename_vars s = Ok s' ->
  exists f : Z -> Z,
    map f (first_occurrences (occurrences (raws s))) =
      one_to (List.length (first_occurrences (occurrences (raws s)))) /\
    injective_on f (fvars (raws s)) /\
    Forall2 (fun c d => Permutation (map (rename_lit f) c) d /\ sorted_clause d) (raws s) (raws s') /\
    (forall v, In v (fvars (raws s)) ->
       nth_error (final_names_map s') (Z.to_nat (f v - 1)) =
       match final_names_map s with
       | [] => Some v
       | m => nth_error m (Z.to_nat (v - 1))
       end) /\
    evaluated_vars s' = evaluated_vars s /\ original_values s' = original_values s /\ svalue s' = svalue s.
Proof.
  intros s s' N H. destruct (rename_vars_spec s s' N H) as [f R]. exists f.
  rewrite !first_occurrences_dedup. unfold occurrences.
  split; [apply (rn_image _ _ _ R)|]. split; [eapply rn_inj; eauto|]. split.
  - unfold raws. rewrite (rn_clauses _ _ _ R), map_map. simpl.
    clear. induction (clauses s) as [|c l IH]; simpl; constructor; auto.
    split; [symmetry; apply sort_abs_Perm|apply sort_abs_sorted].
  - split; [|split; [apply (rn_evaluated _ _ _ R)|split; [apply (rn_original _ _ _ R)|apply (rn_value _ _ _ R)]]].
    intros v Hv. pose proof (rn_names _ _ _ R v Hv) as E. unfold name_at in E.
    pose proof (rn_range R v Hv) as Hr. pose proof (rn_length _ _ _ R) as Hl.
    destruct (Z.leb_spec 1 (f v)) as [_|?]; [|lia].
    assert (Hne : final_names_map s' <> []).
    { intros E0. rewrite E0 in Hl. simpl in Hl. rewrite <- Hl in Hr. simpl in Hr. lia. }
    destruct (final_names_map s') as [|x0 l0]; [congruence|]. rewrite E.
    destruct N as [N|N]; [rewrite N; auto|]. destruct (final_names_map s) as [|y0 l1]; auto.
    specialize (N v Hv). destruct (Z.leb_spec 1 v); auto; lia.
Qed.
(*EX
Example C05_example : exists s', rename_vars (set_of_text (txt "6|3|-5&8|-3")) = Ok s' /\
  raws s' = [[1; -2; 3]; [-1; 4]] /\ final_names_map s' = [3; 5; 6; 8].
Proof. eexists; split; [vm_compute; reflexivity|split; reflexivity]. Qed.
EX*)

(* C06: renaming fails exactly on sets without literals *)
Lemma p_C06_renaming_fails_iff_no_literal : forall s : cset, names_ok s ->
  ((exists s', rename_vars s = Ok s') <-> (exists c l, In c (raws s) /\ In l c)) /\
  ((forall s', rename_vars s <> Ok s') -> rename_vars s = Err ValueError).
Proof.
  intros s N. destruct (concat (raws s)) as [|l ls] eqn:E.
  - rewrite (rename_vars_nil s E). split; auto. split; [intros [s' H]; discriminate|].
    intros (c & l & Hc & Hl). assert (H : In l (concat (raws s))) by (apply in_concat; eauto). rewrite E in H. destruct H.
  - assert (Hne : concat (raws s) <> []) by (rewrite E; discriminate).
    destruct (rename_vars_total s Hne N) as [s' H]. split; [|intros K; destruct (K s' H)].
    split; intros _; eauto. assert (Hl : In l (concat (raws s))) by (rewrite E; left; auto).
    apply in_concat in Hl as (c & Hc & Hl). eauto.
Qed.
(* C06, consequence: a non-empty list of tautologies is not reported satisfiable, the run ends with an
   exception *)
Lemma p_C06_all_tautologies_error : forall hash insert_fails fuel lf o db (cs : list clause),
  cs <> [] -> (forall c, In c cs -> cvalue c = Some true) ->
  solve_set hash insert_fails fuel lf o (fold_left add_clause cs empty_set) db = Err ValueError.
Proof.
  intros hash ifl fuel lf o db cs Hne Ht. pose proof (p_C04_add_clauses_conjunction cs) as (_ & H2 & H3).
  set (s := fold_left add_clause cs empty_set) in *.
  assert (Hv : svalue s = Some true) by (apply H2; auto).
  assert (Hc : clauses s = []).
  { rewrite H3 by (intros c Hc; rewrite Ht; auto; discriminate).
    clear - Ht. induction cs as [|c cs IH]; auto. simpl. rewrite Ht by (left; auto). apply IH. intros; apply Ht; right; auto. }
  unfold solve_set, to_pretty. rewrite Hv. cbn [bind]. unfold prepare_root. rewrite to_lo_unfold.
  set (s0 := set_original s _).
  destruct (pre_sort_eq (o_mode o) (o_sort_by_size o) (o_thief o) s0) as (cs' & P & ->).
  change (clauses s0) with (clauses s) in P. rewrite Hc in P. apply Permutation_nil in P. subst cs'.
  rewrite rename_vars_nil; [reflexivity|]. reflexivity.
Qed.
(*EX
Example C06_example : forall c, In c [clause_init [1; -1]; clause_init [2; 3; -3]] -> cvalue c = Some true.
Proof. intros c [<-|[<-|[]]]; reflexivity. Qed.
EX*)

(* C07: normalisation terminates, in every mode and with every option *)
Lemma p_C07_normalisation_terminates : forall m by_size thief (s : cset), pre_lo s ->
  exists s', exists N, forall fuel, (N <= fuel)%nat -> to_lo_condition fuel m by_size thief s = Ok s'.
Proof.
  intros m z t s P. destruct (to_lo_total (root_bound s) m z t s (root_L s) P (root_below s)) as [s' H].
  { unfold root_bound, root_n, root_K. auto. }
  exists s', (root_bound s). intros fuel Hf. eapply to_lo_mono; eauto.
Qed.
(*EX
Example C07_example : pre_lo sample.
Proof.
  split; [discriminate|split; [|left; reflexivity]].
  intros c H. vm_compute in H. repeat destruct H as [<-|H]; try discriminate. destruct H.
Qed.
EX*)

(* C08: what holds on return from normalisation *)
Lemma p_C08_normal_form_conditions : forall fuel m by_size thief (s s' : cset), pre_lo s ->
  to_lo_condition fuel m by_size thief s = Ok s' ->
  (forall c, In c (raws s') -> sorted_clause c) /\
  (m <> MODE_NORMAL -> starts_low (raws s') /\ new_vars_ascend (raws s') /\
     (forall v, In v (fvars (raws s')) -> 1 <= v)) /\
  (m = MODE_LO \/ m = MODE_FLO \/ m = MODE_FLOP -> leading_ascend (raws s')).
Proof.
  intros fuel m z t s s' P H. destruct (to_lo_spec _ _ _ _ _ _ P H) as (f & N & R & L).
  destruct (is_in_lo_state_spec m s' (rd_ne _ _ R) (rd_nonempty _ _ R)) as (b & Eb & Hb).
  rewrite L in Eb. injection Eb as <-. destruct Hb as [Hb _]. specialize (Hb eq_refl).
  split; [apply (rd_sorted _ _ R)|]. split.
  - intros Hm. destruct Hb as [->|(A & B & _)]; [congruence|]. split; auto. split; auto.
    intros v Hv. apply (rd_vars _ _ R) in Hv. lia.
  - intros Hm. destruct Hb as [->|(A & B & C)]; [destruct Hm as [?|[?|?]]; discriminate|].
    apply C. destruct Hm as [->|[->| ->]]; discriminate.
Qed.
(* C08, the state test itself *)
Lemma p_C08_state_test_exact : forall m (s : cset), clauses s <> [] -> nonempty_clauses (raws s) ->
  exists b, is_in_lo_state m s = Ok b /\
    (b = true <-> (m = MODE_NORMAL \/
      (starts_low (raws s) /\ new_vars_ascend (raws s) /\ (m <> MODE_LOU -> leading_ascend (raws s))))).
Proof. exact is_in_lo_state_spec. Qed.

(* C09: the documented full clause ordering is not guaranteed *)
Lemma p_C09_full_order_refuted : exists s : cset, pre_lo s /\
  forall m by_size thief fuel, m = MODE_LO \/ m = MODE_FLO \/ m = MODE_FLOP ->
    exists s', to_lo_condition (1 + fuel) m by_size thief s = Ok s' /\
    ~ StronglySorted (fun c d => clause_lt d c = false) (clauses s').
Proof.
  exists (set_of_text (txt "1|2&-1|2&1|2")). split.
  - split; [discriminate|split; [|left; reflexivity]].
    intros c H. vm_compute in H. repeat destruct H as [<-|H]; try discriminate. destruct H.
  - intros m z t fuel Hm.
    destruct m; destruct Hm as [E|[E|E]]; try discriminate; destruct z, t;
      (eexists; split; [vm_compute; reflexivity|]); intros Srt; inversion Srt as [|? ? S1 F1]; subst; inversion S1 as [|? ? S2 F2]; subst;
      rewrite Forall_forall in F2; (discriminate (F2 _ (or_introl eq_refl))).
Qed.

(* C10: normalisation only renames and reorders *)
Lemma p_C10_normalisation_renames : forall fuel m by_size thief (s s' : cset), pre_lo s ->
  to_lo_condition fuel m by_size thief s = Ok s' ->
  exists f : Z -> Z,
    injective_on f (fvars (raws s)) /\
    same_up_to_renaming f (raws s) (raws s') /\
    (forall a, cnf_true a (raws s') <-> cnf_true (fun v => a (f v)) (raws s)) /\
    (satisfiable (raws s') <-> satisfiable (raws s)) /\
    (forall v, In v (fvars (raws s)) -> name_at s' (f v) = name_at s v) /\
    evaluated_vars s' = evaluated_vars s /\ original_values s' = original_values s /\ svalue s' = svalue s.
Proof.
  intros fuel m z t s s' P H. destruct (to_lo_spec _ _ _ _ _ _ P H) as (f & N & R & L). exists f.
  split; [apply (nl_inj _ _ _ N)|]. split; [apply norm_same; auto|]. split; [intros a; apply norm_true; auto|].
  split; [symmetry; eapply norm_sat; eauto|]. split; [apply (nl_names _ _ _ N)|].
  split; [apply (nl_evaluated _ _ _ N)|split; [apply (nl_original _ _ _ N)|apply (nl_value _ _ _ N)]].
Qed.
(* C10, for the root of a search: the recorded maps lead from each name of the normal form to the
   input variable it stands for *)
Lemma p_C10_root_names_trace_back : forall hash lf o (root r : cset), root_ok root ->
  prepare_root hash lf o root = Ok r ->
  exists f : Z -> Z,
    injective_on f (fvars (raws root)) /\
    same_up_to_renaming f (raws root) (raws r) /\
    (forall v, In v (fvars (raws root)) -> original_of r (f v) = Ok v) /\
    evaluated_vars r = evaluated_vars root.
Proof.
  intros hash lf o root r RO H. unfold prepare_root in H. set (s0 := set_original _ _) in H.
  apply bind_ok in H as (r1 & H1 & H). apply bind_ok in H as ([h r2] & H2 & H). inv H.
  assert (P : pre_lo s0).
  { split; [apply (ro_ne _ RO)|split; [apply (ro_nonempty _ RO)|left; apply (ro_names _ RO)]]. }
  destruct (to_lo_spec _ _ _ _ _ _ P H1) as (f & N & R & L). exists f.
  destruct (root_node f root r1 RO N R) as (Nd & Hev & Hnv).
  assert (E2 : r2 = set_hash r1 (Some h)).
  { unfold get_hash in H2. destruct (computed_hash r1); apply bind_ok in H2 as (t & T1 & T2); inv T2; auto. }
  subst r2. split; [apply (nl_inj _ _ _ N)|]. split; [exact (norm_same _ _ _ N)|].
  split; [|exact Hev].
  intros v Hv. change (original_of (set_id (set_hash r1 (Some h)) h)) with (original_of r1).
  assert (Hf : In (f v) (fvars (raws r1))) by (apply (norm_vars _ _ _ N); exists v; auto).
  destruct (node_original_of _ _ (f v) Nd Hf) as (x & Ho & Hx). rewrite Ho. f_equal.
  unfold orig in Hx. rewrite (nl_names _ _ _ N v Hv) in Hx. unfold name_at in Hx.
  change (final_names_map s0) with (final_names_map root) in Hx. rewrite (ro_names _ RO) in Hx.
  rewrite (nl_original _ _ _ N) in Hx. subst s0. cbn [original_values set_original] in Hx.
  assert (G : forall l : list Z, In v l -> dget Z.eqb v (combine l l) = Some v).
  { clear. induction l as [|y l IH]; intros []; simpl.
    - subst. rewrite Z.eqb_refl. auto.
    - destruct (Z.eqb_spec v y); [subst|]; auto. }
  rewrite G in Hx by (apply get_variables_In; auto). congruence.
Qed.
(*EX
Example C10_example : root_ok sample /\ exists r, prepare_root (fun t => t) 50 default_opts sample = Ok r /\
  final_names_map r = [3; 5; 6; 1; 8; 9; 2; 7; 4].
Proof. split; [apply sample_ok|]. eexists; split; [vm_compute; reflexivity|reflexivity]. Qed.
EX*)

(* C11: branching computes the two cofactors.  [restrict p b F] drops the clauses made true by p = b and
   removes the falsified literals (Spec.v). *)
Lemma p_C11_branching_cofactors : forall s : cset, eval_ready s ->
  let p := leading (hd [] (raws s)) in
  exists l r po, evaluate s = Ok (Some (l, r)) /\ In p (fvars (raws s)) /\ original_of s p = Ok po /\
    forall b c, (b = true /\ c = l) \/ (b = false /\ c = r) ->
      raws c = filter nonempty (restrict p b (raws s)) /\
      (svalue c = Some false <-> In [] (restrict p b (raws s))) /\
      (svalue c = Some true <-> restrict p b (raws s) = []) /\
      ~ In p (fvars (raws c)) /\
      (forall a, a p = b ->
         (svalue c = Some true -> cnf_true a (raws s)) /\
         (svalue c = Some false -> ~ cnf_true a (raws s)) /\
         (svalue c = None -> (cnf_true a (raws s) <-> cnf_true a (raws c)))) /\
      evaluated_vars c = dset Z.eqb po b (evaluated_vars s) /\
      (forall v, In v (fvars (raws c)) -> exists x, original_of s v = Ok x /\
                                                    dget Z.eqb v (original_values c) = Some x).
Proof.
  intros s E p. destruct (evaluate_spec s E) as (l & r & po & Ev & Hp & Ho & C1 & C2).
  exists l, r, po. split; auto. split; auto. split; auto.
  intros b c Hbc. assert (C : child_of s p po b c) by (destruct Hbc as [[-> ->]|[-> ->]]; auto). clear C1 C2 Hbc Ev.
  split; [apply (ch_raws _ _ _ _ _ C)|]. pose proof (ch_value _ _ _ _ _ C) as Hv.
  rewrite In_nil_existsb. destruct (existsb (fun d => negb (nonempty d)) (restrict p b (raws s))) eqn:Ex.
  - split; [tauto|]. split; [split; intros H; [congruence|rewrite H in Ex; discriminate]|].
    split; [intros H; apply (child_vars _ _ _ _ _ C) in H; tauto|].
    split; [|split; [apply (ch_evaluated _ _ _ _ _ C)|apply (ch_orig _ _ _ _ _ C)]].
    intros a Ha. split; [|split]; intros H; [eapply child_true|eapply child_false|eapply child_none]; eauto.
  - split; [split; intros H; [rewrite H in Hv; destruct (restrict p b (raws s)); discriminate|discriminate]|].
    split; [split; intros H; destruct (restrict p b (raws s)); congruence|].
    split; [intros H; apply (child_vars _ _ _ _ _ C) in H; tauto|].
    split; [|split; [apply (ch_evaluated _ _ _ _ _ C)|apply (ch_orig _ _ _ _ _ C)]].
    intros a Ha. split; [|split]; intros H; [eapply child_true|eapply child_false|eapply child_none]; eauto.
Qed.

(*EX
Example C11_example : exists r, prepare_root (fun t => t) 50 default_opts sample = Ok r /\ eval_ready r.
Proof.
  eexists; split; [vm_compute; reflexivity|]. split; [|split; [|split; [discriminate|]]].
  - repeat constructor; simpl; try lia; intros H; repeat destruct H as [H|H]; lia || destruct H.
  - intros c H. vm_compute in H. repeat (destruct H as [<-|H]; [discriminate|]). destruct H.
  - intros v H. vm_compute in H. repeat (destruct H as [<-|H]; [eexists; vm_compute; reflexivity|]). destruct H.
Qed.
EX*)

(* C12: substitution computes the restriction *)
Lemma p_C12_substitution_restricts : forall (s : cset) (d : list (Z * bool)),
  NoDup (dkeys d) -> (forall c l, In c (raws s) -> In l c -> l <> 0) ->
  let s' := substitute_vars s d in
  raws s' = restrict_all d (raws s) /\
  (forall a, extends a d -> (cnf_true a (raws s) <-> cnf_true a (raws s'))) /\
  Forall2 (fun c c' => raw c' = filter (fun l => negb (assigned_by d l)) (raw c) /\
                       (raw c' = [] -> raw c <> [] -> cvalue c' = Some false) /\
                       (raw c' = raw c -> c' = c))
    (filter (fun c => negb (existsb (satisfied_by d) (raw c))) (clauses s)) (clauses s') /\
  svalue s' = svalue s /\ evaluated_vars s' = evaluated_vars s.
Proof.
  intros s d N H0 s'. assert (Z0 : Forall (fun l => l <> 0) (concat (raws s))).
  { apply Forall_forall. intros l Hl. apply in_concat in Hl as (c & Hc & Hl). eauto. }
  assert (Er : raws s' = restrict_all d (raws s)) by (apply substitute_raws; auto).
  split; auto. split; [intros a Ha; rewrite Er; apply restrict_all_true; auto|].
  split; [|auto]. pose proof (substitute_spec s d N Z0) as F2. revert F2. apply Forall2_impl_in.
  intros c c' _ _ (A1 & A2 & A3 & A4). split; auto. split.
  - intros E1 E2. rewrite A4, E1. destruct (raw c); [congruence|reflexivity].
  - intros E. rewrite E in A4. destruct c as [r v sb i], c' as [r' v' sb' i']; simpl in *.
    assert (Ev : v' = v) by (destruct r; exact A4). congruence.
Qed.
(* C12, literal 0 (accepted by the single-line format): it is removed even when variable 0 is set to
   True, so the restriction property fails there *)
Lemma p_C12_literal_zero_refuted : exists (s : cset) (d : list (Z * bool)) a,
  NoDup (dkeys d) /\ extends a d /\ cnf_true a (raws s) /\ ~ cnf_true a (raws (substitute_vars s d)).
Proof.
  exists (set_of_text (txt "0")), [(0, true)], (fun _ => true).
  split; [repeat constructor; simpl; tauto|]. split; [intros v b [E|[]]; inv E; auto|].
  split.
  - intros c [<-|[]]. exists 0. split; [left; auto|reflexivity].
  - intros H. destruct (H []) as (l & [] & _). vm_compute. auto.
Qed.
(*EX
Example C12_example : raws (substitute_vars sample [(3, false); (8, true)]) = [[-5; 6]; [2; 5; -7]].
Proof. reflexivity. Qed.
EX*)

(* C13: node identity *)
Lemma p_C13_equal_text_iff_equal_formula : forall s t : cset,
  svalue s = None -> clauses s <> [] -> nonempty_clauses (raws s) ->
  svalue t = None -> clauses t <> [] -> nonempty_clauses (raws t) ->
  exists x y, to_text s = Ok x /\ to_text t = Ok y /\ (x = y <-> raws s = raws t).
Proof.
  intros s t A1 A2 A3 B1 B2 B3. exists (formula_text (raws s)), (formula_text (raws t)).
  rewrite !to_text_eq by auto. split; auto. split; auto. split; [|congruence].
  apply formula_text_inj; auto; intros E; apply raws_nil in E; auto.
Qed.
Lemma p_C13_undecided_text_not_constant : forall s : cset,
  svalue s = None -> clauses s <> [] -> nonempty_clauses (raws s) ->
  exists x, to_text s = Ok x /\ forall t b, svalue t = Some b -> to_text t <> Ok x.
Proof.
  intros s A1 A2 A3. exists (formula_text (raws s)). rewrite to_text_eq by auto. split; auto.
  intros t b Hb E. destruct (formula_text_not_const (raws s)) as [H1 H2]; auto.
  { intros E0; apply raws_nil in E0; auto. }
  unfold to_text in E. rewrite Hb in E. destruct b; injection E as E; symmetry in E; auto.
Qed.
(*EX
Example C13_example : to_text sample = Ok (txt "3|-5|6&1|3|8&2|5|-7&1|4|8&3|8|9").
Proof. reflexivity. Qed.
EX*)

(* C14: parsing a printed set gives the set back *)
Lemma p_C14_parse_printed : forall (s : cset) (t : text),
  svalue s = None -> clauses s <> [] -> nonempty_clauses (raws s) ->
  (forall c, In c (raws s) -> distinct_vars c /\ sorted_clause c) ->
  to_text s = Ok t ->
  raws (set_of_text t) = raws s /\
  map initial_index (clauses (set_of_text t)) = one_to (List.length (clauses s)) /\
  (forall c, In c (clauses (set_of_text t)) -> cvalue c = None /\ substituted c = false) /\
  svalue (set_of_text t) = None.
Proof.
  intros s t A1 A2 A3 A4 H. rewrite to_text_eq in H by auto. injection H as <-.
  assert (Hne : raws s <> []) by (intros E; apply raws_nil in E; auto).
  rewrite set_of_formula_text by auto. cbn [clauses set_clauses svalue empty_set].
  split; [unfold raws; simpl; apply plain_raw|]. split.
  - replace (List.length (clauses s)) with (List.length (raws s)) by apply map_length.
    unfold one_to. generalize (raws s). intros F.
    enough (G : forall k, map initial_index (plain (Z.of_nat k) F) = map Z.of_nat (seq k (List.length F))) by apply (G 1%nat).
    induction F as [|c F IH]; intros k; simpl; auto. f_equal. rewrite <- IH. f_equal. f_equal. lia.
  - split; auto. intros c. generalize (raws s) 1. clear. intros F.
    induction F as [|d F IH]; intros i; [intros []|].
    cbn [plain]. intros [<-|Hc]; auto. eapply IH; eauto.
Qed.
(*EX
Example C14_example : to_text (set_of_text (txt "3|-5|6&1|3|8")) = Ok (txt "3|-5|6&1|3|8") /\
  forall c, In c (raws (set_of_text (txt "3|-5|6&1|3|8"))) -> distinct_vars c /\ sorted_clause c.
Proof.
  split; [reflexivity|]. intros c H. vm_compute in H.
  repeat (destruct H as [<-|H]; [split; [repeat constructor; simpl; lia|repeat constructor; simpl; lia]|]). destruct H.
Qed.
EX*)

(* C15: saved node properties survive the database round trip *)
Lemma p_C15_properties_round_trip : forall (s0 s : cset),
  NoDup (dkeys (evaluated_vars s)) -> (forall v, In v (dkeys (evaluated_vars s)) -> 0 <= v) ->
  NoDup (dkeys (original_values s)) ->
  exists x, deserialize_properties s0 (serialize_properties s) = Ok x /\
    (forall v, dget Z.eqb v (evaluated_vars x) = dget Z.eqb v (evaluated_vars s)) /\
    Permutation (evaluated_vars x) (evaluated_vars s) /\
    original_values x = original_values s /\ final_names_map x = final_names_map s /\
    clauses x = clauses s0 /\ svalue x = svalue s0.
Proof.
  intros s0 s A1 A2 A3. eexists. split; [apply deserialize_serialize; repeat split; auto|]. simpl.
  split; [|split; [symmetry; apply reordered_Perm|auto]].
  intros v. pose proof (reordered_Perm (evaluated_vars s)) as P. pose proof (reordered_nodup _ A1) as N.
  destruct (dget Z.eqb v (evaluated_vars s)) as [b|] eqn:E.
  - apply (dget_In _ zspec) in E. apply (Permutation_in _ P) in E. apply (dget_In_NoDup _ zspec); auto.
  - destruct (dget Z.eqb v (reordered (evaluated_vars s))) as [b|] eqn:E'; auto.
    apply (dget_In _ zspec) in E'. apply (Permutation_in _ (Permutation_sym P)) in E'.
    apply (dget_In_NoDup _ zspec) in E'; auto. congruence.
Qed.
(*EX
Example C15_example : exists s : cset, evaluated_vars s = [(4, false); (2, true); (9, false)] /\
  serialize_properties s = txt "2-4,9|{1: 3, 2: 7}|[2, 1]".
Proof. exists (mkSet [] None [] None [2; 1] [(4, false); (2, true); (9, false)] [(1, 3); (2, 7)] 1). split; reflexivity. Qed.
EX*)
