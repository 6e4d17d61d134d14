(* PP6.v -- factoring and multiplication (C41-C43): statements and proofs. *)
From Coq Require Import String Ascii ZArith List Bool Lia Permutation Sorted.
From Verif Require Import Spec PyBase MSet MText MQueue MDb MSolver MMain SpecInput SpecRun PLib PClause
  PRename PLo PNorm PEval PText PQueue PNode PStep PRun PStats PSolver PSolve PSearch PGraph PReader PMain
  PArith PP1 PP2 PP4 PP5.
Import ListNotations.
Open Scope Z_scope.

Lemma vm_facts us (F : list (list Z)) : (forall u, In u us -> u <> 0) -> forall d, d = set_units us [] ->
  NoDup (dkeys d) /\ (forall v, In v (dkeys d) <-> In v (map Z.abs us)) /\
  (forall v b, In (v, b) d -> exists u, In u us /\ v = Z.abs u /\ b = (0 <? u)).
Proof.
  intros Hu d ->. split; [apply set_units_NoDup; constructor|].
  assert (K : forall v b, In (v, b) (set_units us []) -> exists u, In u us /\ v = Z.abs u /\ b = (0 <? u)).
  { intros v b H. apply set_units_in in H as [[]|H]; auto. }
  split; auto. intros v. rewrite set_units_keys. cbn [dkeys map app].
  rewrite filter_all_id by (intros; reflexivity). rewrite first_occurrences_dedup, dedup_In. tauto.
Qed.

(* C41: on a set whose first clause has three literals [x; y; z] the factoring preprocessor reads off the
   number (signs of the unit clauses, least significant first), the variables of the unit clauses and the
   lengths of the two factors; the set it leaves is the restriction of the input by the values it fixes:
   those of the unit clauses and, for an odd number, true for variables 1 and y; exactly the models of
   input and forced values are kept *)
Lemma p_C41_factorizer : forall s x y z rest,
  raws s = [x; y; z] :: rest -> 0 < y -> (forall c l, In c (raws s) -> In l c -> l <> 0) ->
  let units := unit_literals (raws s) in
  let number := bits_value (map (Z.ltb 0) units) in
  let forced := if Z.odd number then [[1]; [y]] else [] in
  exists info s', factorize s = Some (info, s') /\
    f_number info = number /\ f_num_bits info = first_occurrences (map Z.abs units) /\
    f1_len info = y - 1 /\ f2_len info = Z.abs z - y /\
    let d := evaluated_vars s' in
    NoDup (dkeys d) /\ (forall v, In v (dkeys d) <-> In v (map Z.abs (units ++ concat forced))) /\
    raws s' = restrict_all d (raws s) /\
    (forall asg, extends asg d -> (cnf_true asg (raws s) <-> cnf_true asg (raws s'))) /\
    (forall asg, cnf_true asg (raws s ++ forced) -> extends asg d) /\
    (satisfiable (raws s') <-> satisfiable (raws s ++ forced)).
Proof.
  intros s x y z rest E Hy Hz units number forced.
  eexists _, _. split; [apply (factorize_spec s x y z rest E Hy Hz)|]. cbn [f_number f_num_bits f1_len f2_len].
  fold units. fold number. fold forced. do 4 (split; [reflexivity|]).
  set (us := units ++ concat forced). set (d := set_units us []).
  assert (Hu : forall u, In u us -> u <> 0 /\ In [u] (raws s ++ forced)).
  { intros u Hu. apply in_app_iff in Hu as [Hu|Hu].
    - apply unit_literals_in in Hu. split; [apply (Hz [u]); auto; left; auto|apply in_app_iff; auto].
    - unfold forced in *. destruct (Z.odd number); [|destruct Hu]. cbn [concat app] in Hu.
      destruct Hu as [<-|[<-|[]]]; (split; [lia|apply in_app_iff; right; simpl; auto]). }
  destruct (vm_facts us (raws s) (fun u H => proj1 (Hu u H)) d eq_refl) as (N & K & D).
  change (evaluated_vars (substitute_vars (set_evaluated s d) d)) with d.
  destruct (p_C12_substitution_restricts (set_evaluated s d) d N Hz) as (R1 & R2 & _).
  change (raws (set_evaluated s d)) with (raws s) in R1, R2.
  assert (X : forall asg, cnf_true asg (raws s ++ forced) -> extends asg d).
  { intros asg Ha v b Hv. destruct (D v b Hv) as (u & U1 & -> & ->). destruct (Hu u U1) as [U2 U3].
    apply lit_true_sign; auto. apply unit_true. apply Ha; auto. }
  split; auto. split; auto. split; auto. split; auto. split; auto. split.
  - intros (m & Hm). exists (override d m). set (asg := override d m).
    assert (Ea : extends asg d) by (apply override_extends; auto).
    assert (Hs : cnf_true asg (raws s)) by (apply R2; auto; rewrite R1 in *; apply override_restrict; auto).
    intros c Hc. apply in_app_iff in Hc as [Hc|Hc]; [apply Hs; auto|].
    unfold forced in Hc. destruct (Z.odd number) eqn:Eo; [|destruct Hc].
    assert (Hall : forall u, u = 1 \/ u = y -> asg u = true).
    { intros u Hu1. assert (Hk : In u (dkeys d)).
      { apply K. apply in_map_iff. exists u. split; [lia|]. apply in_app_iff. right. unfold forced. rewrite ?Eo. simpl. intuition. }
      apply in_map_iff in Hk as ([w b] & Ew & Hw). cbn in Ew. subst w. rewrite (Ea u b Hw).
      assert (Ed : d = dset Z.eqb y true (dset Z.eqb 1 true (set_units units []))).
      { unfold d, us, forced. rewrite ?Eo. unfold set_units. rewrite fold_left_app. cbn [concat app fold_left].
        rewrite (Z.abs_eq y) by lia. rewrite (proj2 (Z.ltb_lt 0 y)) by lia. auto. }
      apply (dget_In_NoDup _ zspec _ _ _ N) in Hw. rewrite Ed in Hw. destruct (Z.eq_dec y u) as [<-|Hn].
      - rewrite (dget_dset_same _ zspec) in Hw. congruence.
      - rewrite (dget_dset_other _ zspec) in Hw by auto. destruct Hu1 as [->|]; [|congruence].
        rewrite (dget_dset_same _ zspec) in Hw. congruence. }
    apply unit_true || idtac. destruct Hc as [<-|[<-|[]]]; apply unit_true; unfold lit_true.
    + rewrite (proj2 (Z.ltb_ge 1 0)) by lia. apply Hall; auto.
    + rewrite (proj2 (Z.ltb_ge y 0)) by lia. apply Hall; auto.
  - intros (m & Hm). exists m. apply R2; [apply X; auto|]. intros c Hc. apply Hm. apply in_app_iff; auto.
Qed.
(* C41: otherwise the set is left alone *)
Lemma p_C41_other_sets_skipped : forall s,
  (forall x y z rest, raws s <> [x; y; z] :: rest) <-> factorize s = None.
Proof.
  intros s. unfold factorize, sabry_head, raws. split.
  - intros H. destruct (clauses s) as [|c cs]; auto. cbn [map] in H.
    destruct (raw c) as [|x [|y [|z [|w r]]]]; auto. edestruct H; eauto.
  - intros H x y z rest E. destruct (clauses s) as [|c cs]; [discriminate|]. injection E as E _. rewrite E in H.
    destruct (unit_scan _ _ _ _). discriminate.
Qed.

(* C42: decoding is right for a solution (sorted by variable, all variables positive) that assigns all of
   1..f1+f2, with at least f1+f2 distinct unit-clause variables *)
Lemma p_C42_decoding : forall info sol asg,
  0 < f1_len info -> 0 < f2_len info ->
  f1_len info + f2_len info <= Z.of_nat (List.length (f_num_bits info)) ->
  StronglySorted Z.lt (dkeys sol) -> (forall v, In v (dkeys sol) -> 1 <= v) ->
  (forall v, 1 <= v <= f1_len info + f2_len info -> In v (dkeys sol)) -> extends asg sol ->
  decode_factors info sol =
    Ok (value_of asg (next_vars 0 (f1_len info)), value_of asg (next_vars (f1_len info) (f2_len info))).
Proof.
  intros info sol asg H1 H2 H3 S L I E. apply decode_factors_spec; auto.
  intros v Hv. apply I. apply next_vars_in in Hv. lia.
Qed.
(* C42: with -fact, on a formula whose models all encode factors of the number read off the unit clauses,
   the program prints correct factors, encoded by every completion of the solution, or 'prime' (when it
   finds no solution); never the 'something is wrong' line and no exception, provided the preprocessing
   leaves at least one clause and empties none *)
Lemma p_C42_factoring_run : forall hash insert_fails o a i db root x y z rest info s',
  get_cnf_set i = Ok root -> root_ok root -> raws root = [x; y; z] :: rest ->
  (forall c l, In c (raws root) -> In l c -> l <> 0) ->
  fresh_db o insert_fails db -> a_factorize a = true -> a_multiply a = None ->
  let f1 := y - 1 in let f2 := Z.abs z - y in
  let units := unit_literals (raws root) in
  let number := bits_value (map (Z.ltb 0) units) in
  0 < f1 -> 0 < f2 -> 0 < number -> f1 + f2 <= Z.of_nat (List.length (first_occurrences (map Z.abs units))) ->
  (forall asg, cnf_true asg (raws root) ->
     value_of asg (next_vars 0 f1) * value_of asg (next_vars f1 f2) = number) ->
  factorize root = Some (info, s') -> raws s' <> [] -> ~ In [] (raws s') ->
  exists out lines file ver,
    program_answers hash insert_fails o a i db (Report out lines file ver) /\
    (out_sat out = true -> exists sol, out_solution out = Some sol /\ NoDup (dkeys sol) /\
       forall asg, extends asg sol -> cnf_true asg (raws root) /\
         exists p q, lines = [LFactors number p q] /\ number = p * q /\
           p = value_of asg (next_vars 0 f1) /\ q = value_of asg (next_vars f1 f2)) /\
    (out_sat out = false -> lines = [LPrime number]) /\
    (collision_free hash o s' -> (out_sat out = true <-> satisfiable (raws root))).
Proof.
  intros hash ifl o a i db root x y z rest info s' Hg RO E Hz FD Hf Hm f1 f2 units number P1 P2 Pn Hlen Hprod Hfac Hne Hemp.
  assert (Hy : 0 < y) by (unfold f1 in P1; lia).
  destruct (p_C41_factorizer root x y z rest E Hy Hz) as (info' & s'' & Hfac' & I1 & I2 & I3 & I4 & N & K & R1 & R2 & R3 & R4).
  rewrite Hfac in Hfac'. injection Hfac' as <- <-. fold units in I1, I2, K, R3, R4. fold number in I1, K, R3, R4.
  set (forced := if Z.odd number then [[1]; [y]] else []) in *. set (d := evaluated_vars s') in *.
  assert (Hforced : forall asg, cnf_true asg (raws root) -> cnf_true asg forced).
  { intros asg Ha c Hc. unfold forced in Hc. destruct (Z.odd number) eqn:Eo; [|destruct Hc].
    rewrite <- (Hprod asg Ha), Z.odd_mul in Eo. apply andb_true_iff in Eo as [O1 O2].
    replace f1 with (1 + (f1 - 1)) in O1 by lia. rewrite next_vars_app in O1 by lia.
    replace f2 with (1 + (f2 - 1)) in O2 by lia. rewrite (next_vars_app f1) in O2 by lia.
    change (next_vars 0 1) with [1] in O1. change (next_vars f1 1) with [f1 + 1] in O2. cbn [app] in O1, O2.
    rewrite value_odd in O1, O2. replace (f1 + 1) with y in O2 by (unfold f1; lia).
    destruct Hc as [<-|[<-|[]]]; apply unit_true; unfold lit_true.
    - rewrite (proj2 (Z.ltb_ge 1 0)) by lia. auto.
    - rewrite (proj2 (Z.ltb_ge y 0)) by lia. auto. }
  assert (Hkp : forall v, In v (dkeys d) -> 1 <= v).
  { intros v Hv. apply K in Hv. rewrite map_app in Hv. apply in_app_iff in Hv as [Hv|Hv].
    - apply in_map_iff in Hv as (u & <- & Hu). apply unit_literals_in in Hu. pose proof (Hz _ _ Hu (or_introl eq_refl)). lia.
    - unfold forced in Hv. destruct (Z.odd number); cbn in Hv; [|tauto]. destruct Hv as [<-|[<-|[]]]; lia. }
  assert (RO' : root_ok s').
  { pose proof (factorize_spec root x y z rest E Hy Hz) as Hs. cbv zeta in Hs. rewrite Hfac in Hs. injection Hs as _ Hs.
    assert (Ed : d = set_units (unit_literals (raws root) ++ concat forced) []).
    { unfold d. rewrite Hs. reflexivity. }
    rewrite Hs. apply (preprocessed_ok root root); try apply incl_refl; auto; fold units; fold number; fold forced; fold units in Ed; rewrite <- Ed; auto.
    + intros v Hv. specialize (Hkp v Hv). lia.
    + intros E0. apply Hne. rewrite Hs. fold units; fold number; fold forced. rewrite <- Ed. auto.
    + intros E0. apply Hemp. rewrite Hs. fold units; fold number; fold forced. rewrite <- Ed. auto. }
  destruct (p_C23_solver_terminates hash ifl o s' db RO' FD) as (out & HE).
  destruct (run_solver_ends hash ifl o a s' (Some info) None db out (ro_ne s' RO') HE) as (M & HM).
  destruct (p_C21_sat_verdict_sound hash ifl o s' db out RO' FD HE) as [S1 S2].
  assert (SAT : satisfiable (raws s') <-> satisfiable (raws root)).
  { rewrite R4. split; intros (m & Hm'); exists m.
    - intros c Hc. apply Hm'. apply in_app_iff; auto.
    - intros c Hc. apply in_app_iff in Hc as [Hc|Hc]; [auto|]. apply (Hforced m Hm'); auto. }
  assert (CF : collision_free hash o s' -> (out_sat out = true <-> satisfiable (raws root))).
  { intros CF. rewrite <- SAT. apply (p_C22_verdict_exact hash ifl o s' db out RO' FD CF HE). }
  assert (ANS : forall lines file ver, report a s' (Some info) None out = Ok (Report out lines file ver) ->
     program_answers hash ifl o a i db (Report out lines file ver)).
  { intros lines file ver Hr. exists M. intros fuel lf L1 L2. unfold main_run, main_with. rewrite Hg. cbn [bind]. unfold preprocess, preprocess_with. fold (run_solver hash ifl fuel lf o a).
    rewrite Hf, Hfac, Hm, HM, Hr by auto. reflexivity. }
  destruct (out_sat out) eqn:Eo.
  - destruct (S1 eq_refl) as (_ & sol & Es & Hsn & Nd & Srt & Hsol & Hinc & Hk).
    assert (HF : forall asg, extends asg sol -> cnf_true asg (raws root)).
    { intros asg Ha. apply R2; [intros v b Hv; apply Ha, Hinc; auto|auto]. }
    assert (Hpos : forall v, In v (dkeys sol) -> 1 <= v).
    { intros v Hv. destruct (Hk v Hv) as [Hv'|Hv']; [|apply Hkp; auto]. rewrite R1 in Hv'.
      apply restrict_all_vars in Hv' as [_ Hv']. apply in_fvars in Hv' as (c & Hc & Hv').
      apply in_map_iff in Hv' as (l & <- & Hl). specialize (Hz c l Hc Hl). lia. }
    assert (Hall : forall v, 1 <= v <= f1_len info + f2_len info -> In v (dkeys sol)).
    { intros v Hv. rewrite I3, I4 in Hv. fold f1 f2 in Hv. destruct (Z_le_gt_dec v f1).
      - apply (factors_determined sol (raws root) (next_vars 0 f1) (next_vars f1 f2) number); auto.
        + intros w Hw1 Hw2. apply next_vars_in in Hw1, Hw2. lia.
        + apply next_vars_in. lia.
      - apply (factors_determined sol (raws root) (next_vars f1 f2) (next_vars 0 f1) number); auto.
        + intros w Hw1 Hw2. apply next_vars_in in Hw1, Hw2. lia.
        + intros asg Ha. rewrite Z.mul_comm. auto.
        + apply next_vars_in. lia. }
    assert (Dec : forall asg, extends asg sol -> decode_factors info sol =
                    Ok (value_of asg (next_vars 0 f1), value_of asg (next_vars f1 f2))).
    { intros asg Ha. pose proof (p_C42_decoding info sol asg) as Q. rewrite I2, I3, I4 in *. apply Q; auto. }
    set (m := override sol (fun _ => false)). assert (Em : extends m sol) by (apply override_extends; auto).
    exists out, [LFactors number (value_of m (next_vars 0 f1)) (value_of m (next_vars f1 f2))].
    eexists _, _. split; [|split; [|split]]; auto; try discriminate.
    + apply ANS. unfold report. rewrite Es. unfold fact_lines. destruct sol as [|kv sol']; [congruence|].
      rewrite (Dec m Em). cbn [bind]. rewrite I1, (Hprod m (HF m Em)), Z.eqb_refl. reflexivity.
    + intros _. exists sol. split; auto. split; auto. intros asg Ha. split; auto.
      eexists _, _. split; [reflexivity|]. pose proof (Dec asg Ha) as D2. rewrite (Dec m Em) in D2. injection D2 as D3 D4.
      rewrite D3, D4. rewrite (Hprod asg (HF asg Ha)). auto.
    + congruence.
    + rewrite Eo. auto.
  - exists out, [LPrime number]. eexists _, _. split; [|split; [|split]]; auto; try congruence.
    + apply ANS. unfold report. rewrite (S2 eq_refl). cbn. rewrite I1. reflexivity.
    + rewrite Eo. auto.
Qed.

(* C42: a factor that gets no bit -- its length is 0, or no more than the length of the first many variables have values, or
   there are no more unit clauses than that -- makes the program fail with ValueError after the search: no factors are printed *)
Lemma p_C42_no_bits : forall info sol, sol <> [] -> 0 <= f1_len info -> 0 <= f2_len info ->
  f1_len info = 0 \/ f2_len info = 0 \/ Z.of_nat (List.length sol) <= f1_len info \/ Z.of_nat (List.length (f_num_bits info)) <= f1_len info ->
  fact_lines (Some info) (Some sol) = Err ValueError.
Proof.
  intros i sol N A B H.
  assert (D : decode_factors i sol = Err ValueError).
  { unfold decode_factors. rewrite (py_slice_eq (map snd sol)) by lia. change (Z.to_nat 0) with O. cbn [skipn]. rewrite Z.sub_0_r, Nat2Z.id.
    set (fb := firstn (List.length (f_num_bits i)) (map snd sol)). rewrite !py_slice_eq by lia. change (Z.to_nat 0) with O. cbn [skipn]. rewrite Z.sub_0_r.
    replace (f1_len i + f2_len i - f1_len i) with (f2_len i) by lia.
    destruct (firstn (Z.to_nat (f1_len i)) fb) as [|x l] eqn:E; [reflexivity|]. unfold int_bits at 1. cbn [bind].
    assert (S : firstn (Z.to_nat (f2_len i)) (skipn (Z.to_nat (f1_len i)) fb) = []).
    { assert (L : (List.length fb <= List.length (f_num_bits i))%nat /\ (List.length fb <= List.length sol)%nat)
        by (unfold fb; rewrite firstn_length, map_length; lia).
      destruct H as [H|[H|H]]; [rewrite H in E; discriminate|rewrite H; reflexivity|]. rewrite skipn_all2 by lia. apply firstn_nil. }
    rewrite S. reflexivity. }
  unfold fact_lines. destruct sol as [|kv d]; [congruence|]. cbv iota. rewrite D. reflexivity.
Qed.

(* C42: whatever the formula, printed factors multiply to the number read, and 'prime' is only printed when
   no solution was found *)
Lemma p_C42_printed_factors_multiply : forall info sol lines,
  fact_lines (Some info) sol = Ok lines ->
  (forall n p q, In (LFactors n p q) lines -> n = f_number info /\ n = p * q) /\
  (forall n, In (LPrime n) lines -> n = f_number info /\ (sol = None \/ sol = Some [])).
Proof.
  intros info sol lines H. cbn in H. destruct sol as [[|kv d]|].
  - injection H as <-. split; [intros n p q [E|[]]; discriminate|intros n [E|[]]; injection E as <-; auto].
  - apply bind_ok in H as ([p q] & E & H). injection H as <-. split.
    + intros n p' q' [K|[]]. destruct (Z.eqb_spec (f_number info) (p * q)); [|discriminate]. injection K as <- <- <-. auto.
    + intros n [K|[]]. destruct (_ =? _); discriminate.
  - injection H as <-. split; [intros n p q [E|[]]; discriminate|intros n [E|[]]; injection E as <-; auto].
Qed.

(* C43: the multiplication preprocessor, for factors greater than 1 (the command line rejects others): it
   refuses exactly when the larger factor does not fit f1 bits or the smaller f2 bits; otherwise it fixes
   variables 1..f1 to the larger and f1+1..f1+f2 to the smaller factor, removes exactly the unit clauses,
   remembers their variables, and restricts the other clauses *)
Lemma p_C43_multiplier : forall s x y z rest a b,
  raws s = [x; y; z] :: rest -> (forall c l, In c (raws s) -> In l c -> l <> 0) -> 1 < a -> 1 < b ->
  let f1 := y - 1 in let f2 := Z.abs z - y in
  (multiply s a b = None <-> ~ (Z.max a b < 2 ^ f1 /\ Z.min a b < 2 ^ f2)) /\
  (forall result_bits l1 l2 s', multiply s a b = Some (result_bits, l1, l2, s') ->
     result_bits = map Z.abs (unit_literals (raws s)) /\ l1 = f1 /\ l2 = f2 /\
     let d := evaluated_vars s' in
     dkeys d = next_vars 0 (f1 + f2) /\
     raws s' = restrict_all d (non_units (raws s)) /\
     (forall asg, extends asg d <->
        value_of asg (next_vars 0 f1) = Z.max a b /\ value_of asg (next_vars f1 f2) = Z.min a b) /\
     (forall asg, extends asg d -> (cnf_true asg (non_units (raws s)) <-> cnf_true asg (raws s')))).
Proof.
  intros s x y z rest a b E Hz Ha Hb f1 f2. pose proof (multiply_spec s x y z rest a b E Ha Hb) as M. cbv zeta in M.
  fold f1 f2 in M. set (hi := Z.max a b) in *. set (lo := Z.min a b) in *. split.
  - rewrite M. destruct (Z.ltb_spec hi (2 ^ f1)), (Z.ltb_spec lo (2 ^ f2)); cbn [andb]; split; intros K; try discriminate; try tauto; lia.
  - intros rb l1 l2 s' Em. rewrite Em in M. destruct (Z.ltb_spec hi (2 ^ f1)) as [F1|]; [|discriminate].
    destruct (Z.ltb_spec lo (2 ^ f2)) as [F2|]; [|discriminate]. cbn [andb] in M. injection M as M1 M2 M3 M4.
    split; auto. split; auto. split; auto. intros d.
    assert (H1 : 0 < hi) by lia. assert (H2 : 0 < lo) by lia.
    pose proof (pad_bits_length hi f1 H1 F1) as L1. pose proof (pad_bits_length lo f2 H2 F2) as L2.
    set (vm := combine (next_vars 0 (f1 + f2)) (pad_bits hi f1 ++ pad_bits lo f2)) in *.
    set (s1 := set_clauses s (filter (fun c => negb (is_unit c)) (clauses s))) in *.
    assert (Ed : d = vm) by (unfold d; rewrite M4; auto).
    assert (Hl : List.length (next_vars 0 (f1 + f2)) = List.length (pad_bits hi f1 ++ pad_bits lo f2)).
    { rewrite next_vars_length, app_length. lia. }
    assert (Hk : dkeys vm = next_vars 0 (f1 + f2)) by (apply combine_keys; auto).
    assert (N : NoDup (dkeys vm)) by (rewrite Hk; apply next_vars_NoDup).
    assert (Hr : raws s1 = non_units (raws s)) by (apply non_units_eq).
    assert (Hz1 : forall c l, In c (raws (set_evaluated s1 vm)) -> In l c -> l <> 0).
    { intros c l Hc Hl0. change (raws (set_evaluated s1 vm)) with (raws s1) in Hc. rewrite Hr in Hc.
      unfold non_units in Hc. apply filter_In in Hc as [Hc _]. apply (Hz c l Hc Hl0). }
    destruct (p_C12_substitution_restricts (set_evaluated s1 vm) vm N Hz1) as (R1 & R2 & _).
    change (raws (set_evaluated s1 vm)) with (raws s1) in R1, R2. rewrite Hr in R1, R2. rewrite <- M4 in R1, R2.
    rewrite <- Ed in *. split; auto. split; auto. split; auto. intros asg. rewrite Ed. unfold vm. rewrite extends_combine by auto.
    rewrite next_vars_app, map_app by lia. cbn [Z.add].
    assert (G1 : List.length (map asg (next_vars 0 f1)) = List.length (pad_bits hi f1)) by (rewrite map_length, next_vars_length; lia).
    assert (G2 : List.length (map asg (next_vars f1 f2)) = List.length (pad_bits lo f2)) by (rewrite map_length, next_vars_length; lia).
    split.
    + intros Q. apply app_eq_split in Q as [Q1 Q2]; auto. unfold value_of. rewrite Q1, Q2, !pad_bits_value by auto. auto.
    + intros [Q1 Q2]. f_equal; apply bits_value_inj; auto.
      * rewrite pad_bits_value by auto. apply Q1.
      * rewrite pad_bits_value by auto. apply Q2.
Qed.
Lemma multiply_shape s a b rb l1 l2 s' : multiply s a b = Some (rb, l1, l2, s') ->
  exists d, s' = substitute_vars (set_evaluated (set_clauses s (filter (fun c => negb (is_unit c)) (clauses s))) d) d.
Proof.
  unfold multiply. destruct (sabry_head s) as [[[x y] z]|]; [|discriminate].
  destruct (if a <? b then (b, a) else (a, b)) as [hi lo]. destruct (_ || _); [discriminate|].
  intros E. injection E as <- <- <- <-. eexists. reflexivity.
Qed.
(* C43: with -mult, on a formula whose non-unit clauses compute the product of the numbers in variables
   1..f1 and f1+1..f1+f2 into the variables of the unit clauses, the program prints the right product, or
   'can't be multiplied' when it finds no solution; never a wrong product and no exception, provided the
   preprocessing leaves at least one clause and empties none *)
Lemma p_C43_multiplication_run : forall hash insert_fails o a i db root x y z rest p q rb l1 l2 s',
  get_cnf_set i = Ok root -> root_ok root -> raws root = [x; y; z] :: rest ->
  (forall c l, In c (raws root) -> In l c -> l <> 0) ->
  fresh_db o insert_fails db -> a_factorize a = false -> a_multiply a = Some (p, q) -> 1 < p -> 1 < q ->
  let f1 := y - 1 in let f2 := Z.abs z - y in
  (forall asg, cnf_true asg (non_units (raws root)) ->
     value_of asg (next_vars 0 f1) * value_of asg (next_vars f1 f2) =
     value_of asg (map Z.abs (unit_literals (raws root)))) ->
  multiply root p q = Some (rb, l1, l2, s') -> raws s' <> [] -> ~ In [] (raws s') ->
  exists out lines file ver,
    program_answers hash insert_fails o a i db (Report out lines file ver) /\
    (out_sat out = true -> lines = [LProduct p q (p * q)]) /\
    (out_sat out = false -> lines = [LNoProduct p q]) /\
    (collision_free hash o s' -> (out_sat out = true <->
       exists asg, cnf_true asg (non_units (raws root)) /\
         value_of asg (next_vars 0 f1) = Z.max p q /\ value_of asg (next_vars f1 f2) = Z.min p q)).
Proof.
  intros hash ifl o a i db root x y z rest p q rb l1 l2 s' Hg RO E Hz FD Hf Hm Hp Hq f1 f2 Hprod Hmul Hne Hemp.
  destruct (p_C43_multiplier root x y z rest p q E Hz Hp Hq) as [_ M]. fold f1 f2 in M.
  destruct (M _ _ _ _ Hmul) as (Erb & _ & _ & K1 & K2 & K3 & K4). set (d := evaluated_vars s') in *.
  assert (Fpos : 0 < f1 /\ 0 < f2).
  { destruct (p_C43_multiplier root x y z rest p q E Hz Hp Hq) as [M0 _]. fold f1 f2 in M0.
    destruct (Z_lt_le_dec 0 f1); destruct (Z_lt_le_dec 0 f2); auto; exfalso;
      (rewrite (proj2 M0) in Hmul; [discriminate|]); intros [Q1 Q2].
    - assert (2 ^ f2 <= 2 ^ 0) by (apply Z.pow_le_mono_r; lia). change (2 ^ 0) with 1 in *. lia.
    - assert (2 ^ f1 <= 2 ^ 0) by (apply Z.pow_le_mono_r; lia). change (2 ^ 0) with 1 in *. lia.
    - assert (2 ^ f1 <= 2 ^ 0) by (apply Z.pow_le_mono_r; lia). change (2 ^ 0) with 1 in *. lia. }
  destruct (multiply_shape _ _ _ _ _ _ _ Hmul) as (d0 & Es').
  assert (Ed : d0 = d) by (unfold d; rewrite Es'; reflexivity). rewrite Ed in Es'. clear d0 Ed.
  assert (N : NoDup (dkeys d)) by (rewrite K1; apply next_vars_NoDup).
  assert (Hpos : forall v, In v (dkeys d) -> 0 <= v).
  { intros v Hv. rewrite K1 in Hv. apply next_vars_in in Hv. lia. }
  assert (RO' : root_ok s').
  { rewrite Es'. apply (preprocessed_ok root); auto; try (rewrite <- Es'; auto).
    intros c Hc. cbn [clauses set_clauses] in Hc. apply filter_In in Hc as [Hc _]. auto. }
  destruct (p_C23_solver_terminates hash ifl o s' db RO' FD) as (out & HE).
  destruct (run_solver_ends hash ifl o a s' None (Some (rb, p, q)) db out (ro_ne s' RO') HE) as (T & HT).
  destruct (p_C21_sat_verdict_sound hash ifl o s' db out RO' FD HE) as [S1 S2].
  assert (ANS : forall lines file ver, report a s' None (Some (rb, p, q)) out = Ok (Report out lines file ver) ->
     program_answers hash ifl o a i db (Report out lines file ver)).
  { intros lines file ver Hr. exists T. intros fuel lf L1 L2. unfold main_run, main_with. rewrite Hg. cbn [bind]. unfold preprocess, preprocess_with. fold (run_solver hash ifl fuel lf o a).
    rewrite Hf, Hm, Hmul.
    assert (Ex : existsb (fun c => match cvalue c with Some false => true | _ => false end) (clauses s') = false).
    { apply existsb_false. intros c Hc. rewrite (ro_undec s' RO' c Hc). auto. }
    rewrite Ex. cbn [option_map]. rewrite HT, Hr by auto. reflexivity. }
  assert (CF : collision_free hash o s' -> (out_sat out = true <->
       exists asg, cnf_true asg (non_units (raws root)) /\
         value_of asg (next_vars 0 f1) = Z.max p q /\ value_of asg (next_vars f1 f2) = Z.min p q)).
  { intros CF. rewrite (p_C22_verdict_exact hash ifl o s' db out RO' FD CF HE). split.
    - intros (m & Hm'). exists (override d m). assert (Ea : extends (override d m) d) by (apply override_extends; auto).
      split; [|apply K3; auto]. apply K4; auto. rewrite K2 in *. apply override_restrict; auto.
    - intros (asg & H1 & H2). exists asg. apply K3 in H2. apply K4; auto. }
  destruct (out_sat out) eqn:Eo.
  - destruct (S1 eq_refl) as (_ & sol & Es & Hsn & Nd & Srt & Hsol & Hinc & Hk).
    assert (HF : forall asg, extends asg sol -> extends asg d /\ cnf_true asg (non_units (raws root))).
    { intros asg Ha. assert (extends asg d) by (intros v b Hv; apply Ha, Hinc; auto). split; auto. apply K4; auto. }
    assert (Hall : forall v, In v rb -> In v (dkeys sol)).
    { intros v Hv. destruct (in_dec Z.eq_dec v (dkeys d)) as [Hi|Hi].
      - apply in_map_iff in Hi as ([w b] & Ew & Hi). cbn in Ew. subst w. apply in_map_iff. exists (v, b). auto.
      - apply (determined sol (restrict_all d (non_units (raws root)) ++ map (fun kv : Z * bool => [if snd kv then fst kv else - fst kv]) d) rb
          (fun asg => value_of asg (next_vars 0 f1) * value_of asg (next_vars f1 f2))); auto.
        + intros asg Ha. destruct (HF asg Ha) as [Hd Hc]. rewrite <- K2. intros c Hc0. apply in_app_iff in Hc0 as [Hc0|Hc0].
          * revert c Hc0. apply K4; auto.
          * apply in_map_iff in Hc0 as ([w b] & <- & Hw). apply unit_true. cbn [fst snd].
            assert (0 < w). { assert (Hx : In w (dkeys d)) by (apply in_map_iff; exists (w, b); auto). rewrite K1 in Hx. apply next_vars_in in Hx. lia. }
            unfold lit_true. specialize (Hd w b Hw). destruct b.
            -- rewrite (proj2 (Z.ltb_ge w 0)) by lia. auto.
            -- rewrite (proj2 (Z.ltb_lt (- w) 0)) by lia. rewrite Z.opp_involutive, Hd. auto.
        + intros asg Ha. rewrite Erb. symmetry. apply Hprod. apply K4.
          * intros w b Hw. assert (0 < w). { assert (Hx : In w (dkeys d)) by (apply in_map_iff; exists (w, b); auto). rewrite K1 in Hx. apply next_vars_in in Hx. lia. }
            assert (Hc : clause_true asg [if b then w else - w]).
            { apply Ha. apply in_app_iff. right. apply in_map_iff. exists (w, b). auto. }
            apply unit_true in Hc. apply lit_true_sign in Hc; [|destruct b; lia].
            destruct b; rewrite ?Z.abs_opp, Z.abs_eq in Hc by lia; rewrite Hc; destruct (Z.ltb_spec 0 w), (Z.ltb_spec 0 (- w)); auto; lia.
          * rewrite K2. intros c Hc. apply Ha. apply in_app_iff. auto.
        + intros asg b. rewrite !value_upd_notin; auto; intros Hx; apply Hi; rewrite K1; apply next_vars_in in Hx; apply next_vars_in.
          * lia.
          * lia. }
    set (m := override sol (fun _ => false)). assert (Em : extends m sol) by (apply override_extends; auto).
    destruct (HF m Em) as [Hd Hc]. apply K3 in Hd as [V1 V2].
    assert (Vr : value_of m rb = p * q). { rewrite Erb, <- Hprod by auto. rewrite V1, V2. lia. }
    assert (Dec : decode_product rb sol = Ok (p * q)).
    { unfold decode_product. assert (Em2 : mapM (fun v => of_option KeyError (dget Z.eqb v sol)) rb = Ok (map m rb)).
      { clear -Hall. induction rb as [|v rb IH]; cbn [mapM map]; auto. rewrite IH by (intros; apply Hall; right; auto).
        specialize (Hall v (or_introl eq_refl)). unfold m, override at 2.
        destruct (dget Z.eqb v sol) eqn:Eg; [reflexivity|]. apply (dget_None _ zspec) in Eg. tauto. }
      rewrite Em2. cbn [bind]. rewrite int_bits_value.
      - f_equal. apply Vr.
      - intros E0. unfold value_of in Vr. rewrite E0 in Vr. cbn in Vr. nia. }
    exists out, [LProduct p q (p * q)]. eexists _, _. split; [|split; [|split]]; auto; try congruence.
    + apply ANS. unfold report. rewrite Es. unfold mult_lines. destruct sol as [|kv sol']; [congruence|].
      rewrite Dec. cbn [bind fact_lines]. rewrite Z.eqb_refl. reflexivity.
    + rewrite Eo. auto.
  - exists out, [LNoProduct p q]. eexists _, _. split; [|split; [|split]]; auto; try congruence.
    + apply ANS. unfold report. rewrite (S2 eq_refl). reflexivity.
    + rewrite Eo. auto.
Qed.
(* C43: the other ways -mult can end: factors that do not fit are refused; if a clause is emptied the
   program says that the factors cannot be multiplied, rightly; if no clause is left it says nothing *)
Lemma p_C43_other_endings : forall hash insert_fails fuel lf o a i db root x y z rest p q,
  get_cnf_set i = Ok root -> root_ok root -> raws root = [x; y; z] :: rest ->
  (forall c l, In c (raws root) -> In l c -> l <> 0) ->
  a_factorize a = false -> a_multiply a = Some (p, q) -> 1 < p -> 1 < q ->
  let f1 := y - 1 in let f2 := Z.abs z - y in
  (~ (Z.max p q < 2 ^ f1 /\ Z.min p q < 2 ^ f2) ->
     main_run hash insert_fails fuel lf o a i db = Ok Refused) /\
  (forall rb l1 l2 s', multiply root p q = Some (rb, l1, l2, s') ->
     (In [] (raws s') -> main_run hash insert_fails fuel lf o a i db = Ok FactorsExcluded /\
        forall asg, cnf_true asg (non_units (raws root)) ->
          ~ (value_of asg (next_vars 0 f1) = Z.max p q /\ value_of asg (next_vars f1 f2) = Z.min p q)) /\
     (raws s' = [] -> main_run hash insert_fails fuel lf o a i db = Ok NoAnswer)).
Proof.
  intros hash ifl fuel lf o a i db root x y z rest p q Hg RO E Hz Hf Hm Hp Hq f1 f2.
  destruct (p_C43_multiplier root x y z rest p q E Hz Hp Hq) as [M0 M]. fold f1 f2 in M, M0.
  unfold main_run, main_with. rewrite Hg. cbn [bind]. unfold preprocess, preprocess_with. rewrite Hf, Hm. split.
  - intros H. apply M0 in H. rewrite H. reflexivity.
  - intros rb l1 l2 s' Hmul. rewrite Hmul. destruct (M _ _ _ _ Hmul) as (_ & _ & _ & K1 & K2 & K3 & K4).
    destruct (multiply_shape _ _ _ _ _ _ _ Hmul) as (d & Es').
    assert (Ed : evaluated_vars s' = d) by (rewrite Es'; reflexivity). rewrite Ed in *.
    assert (N : NoDup (dkeys d)) by (rewrite K1; apply next_vars_NoDup).
    split; intros Hr.
    + split.
      * assert (Ex : existsb (fun c => match cvalue c with Some false => true | _ => false end) (clauses s') = true).
        { apply existsb_exists. unfold raws in Hr. apply in_map_iff in Hr as (c' & Hc1 & Hc2). exists c'. split; auto.
          set (s1 := set_evaluated (set_clauses root (filter (fun c => negb (is_unit c)) (clauses root))) d) in *.
          assert (Hz1 : forall c l, In c (raws s1) -> In l c -> l <> 0).
          { intros c l Hc Hl. apply (Hz c l); auto. unfold raws, s1 in Hc. cbn [clauses set_evaluated set_clauses] in Hc.
            apply in_map_iff in Hc as (k & <- & Hk). apply filter_In in Hk as [Hk _]. apply in_map; auto. }
          destruct (p_C12_substitution_restricts s1 d N Hz1) as (_ & _ & F2 & _). rewrite <- Es' in F2.
          assert (Hne : forall c, In c (filter (fun c => negb (existsb (satisfied_by d) (raw c))) (clauses s1)) -> raw c <> []).
          { intros c Hc. apply filter_In in Hc as [Hc _]. unfold s1 in Hc. cbn [clauses set_evaluated set_clauses] in Hc.
            apply filter_In in Hc as [Hc _]. apply (ro_nonempty root RO). apply in_map; auto. }
          clear -F2 Hc1 Hc2 Hne. revert F2 Hne. generalize (filter (fun c => negb (existsb (satisfied_by d) (raw c))) (clauses s1)).
          intros l F2 Hne. induction F2 as [|c c2 l l' H F2 IH]; [destruct Hc2|]. destruct Hc2 as [->|Hc2].
          - destruct H as (_ & H & _). rewrite H; auto. apply Hne. left; auto.
          - apply IH; auto. intros k Hk. apply Hne. right; auto. }
        rewrite Ex. reflexivity.
      * intros asg Ha Hv. apply K3 in Hv. apply (K4 asg Hv) in Ha. destruct (Ha [] Hr) as (l & [] & _).
    + assert (Ec : clauses s' = []) by (unfold raws in Hr; apply map_eq_nil in Hr; auto).
      rewrite Ec. cbn [existsb]. unfold run_solver, run_with. rewrite Ec.
      assert (Ev : svalue s' = None) by (rewrite Es'; apply (ro_value root RO)). rewrite Ev. reflexivity.
Qed.
Ltac concrete_root_ok := split; try reflexivity; try discriminate;
  [ let c := fresh in let H := fresh in intros c H; vm_compute in H; repeat (destruct H as [<-|H]; [discriminate|]); destruct H
  | let c := fresh in let H := fresh in intros c H; vm_compute in H; repeat (destruct H as [<-|H]; [repeat constructor; simpl; lia|]); destruct H
  | let c := fresh in let H := fresh in intros c H; vm_compute in H; repeat (destruct H as [<-|H]; [reflexivity|]); destruct H
  | constructor | intros ? [] | intros ? [] ].
Lemma cnf_true_b asg F : cnf_true asg F -> forallb (existsb (lit_true asg)) F = true.
Proof.
  intros H. apply forallb_forall. intros c Hc. apply existsb_exists. destruct (H c Hc) as (l & Hl & Ht). eauto.
Qed.
(* C42, the solution must assign all factor variables: here it leaves variable 1 open (any value is
   correct), the decoder reads the bits one position too low and reports a bug *)
Lemma p_C42_shifted_bits_refuted : exists i root s' info out sol,
  get_cnf_set i = Ok root /\ root_ok root /\ factorize root = Some (info, s') /\ root_ok s' /\
  program_answers (fun t => t) no_fail default_opts (mkMain true None false false) i []
    (Report out [LFactorsWrong 2 1 0] None None) /\
  out_solution out = Some sol /\ (forall asg, extends asg sol -> cnf_true asg (raws root)).
Proof.
  exists (InSLF (txt "1|2|-3&2|3&-3&4")). do 5 eexists.
  split; [vm_compute; reflexivity|]. split; [concrete_root_ok|].
  split; [vm_compute; reflexivity|]. split.
  { split; try reflexivity; try discriminate.
    - intros c H. vm_compute in H. repeat (destruct H as [<-|H]; [discriminate|]). destruct H.
    - intros c H. vm_compute in H. repeat (destruct H as [<-|H]; [repeat constructor; simpl; lia|]). destruct H.
    - intros c H. vm_compute in H. repeat (destruct H as [<-|H]; [reflexivity|]). destruct H.
    - repeat constructor; simpl; lia.
    - intros v H. vm_compute in H. lia.
    - intros v H. vm_compute in H. vm_compute. lia. }
  split.
  { exists 40%nat. intros fuel lf H1 H2. apply (main_report_mono _ _ _ _ _ _ 40 fuel 40 lf); [vm_compute; reflexivity|auto|auto]. }
  split; [vm_compute; reflexivity|].
  intros asg H. assert (H2 : asg 2 = true) by (apply H; vm_compute; tauto).
  assert (H3 : asg 3 = false) by (apply H; vm_compute; tauto). assert (H4 : asg 4 = true) by (apply H; vm_compute; tauto).
  intros c Hc. vm_compute in Hc. repeat (destruct Hc as [<-|Hc]; [solve [exists 2; split; [simpl; auto|exact H2]|exists 4; split; [simpl; auto|exact H4]|exists (-3); split; [simpl; auto|cbn; rewrite H3; auto]]|]). destruct Hc.
Qed.
(* C42, an emptied clause (here -1 | -4 by the forced lowest bit and the unit clause 4) makes the program
   fail instead of reporting that there is no factorisation *)
Lemma p_C42_emptied_clause_refuted : exists i root,
  get_cnf_set i = Ok root /\ root_ok root /\ ~ satisfiable (raws root ++ [[1]]) /\
  forall hash insert_fails fuel lf o db,
    main_run hash insert_fails fuel lf o (mkMain true None false false) i db = Ok (Failed ValueError).
Proof.
  exists (InSLF (txt "1|2|-3&3&-1|-4&4")). eexists. split; [vm_compute; reflexivity|]. split; [concrete_root_ok|]. split.
  - intros (asg & H). apply cnf_true_b in H. cbn in H. destruct (asg 1), (asg 4); cbn in H; rewrite ?andb_false_r in H; discriminate.
  - intros hash ifl fuel lf o db. set (x := factorize (set_of_text (txt "1|2|-3&3&-1|-4&4"))).
    vm_compute in x. unfold main_run, main_with.
    change (get_cnf_set (InSLF (txt "1|2|-3&3&-1|-4&4"))) with (Ok (set_of_text (txt "1|2|-3&3&-1|-4&4"))). cbn [bind].
    unfold preprocess, preprocess_with. cbn [a_factorize a_multiply].
    change (factorize (set_of_text (txt "1|2|-3&3&-1|-4&4"))) with x. unfold x. cbn [run_with clauses andb].
    unfold run_solver, run_with. cbn [clauses andb]. unfold get_hash. cbn [computed_hash]. unfold to_text. cbn [svalue clauses bind].
    unfold solve_set, to_pretty. cbn [svalue clauses set_hash bind]. unfold prepare_root, to_lo_condition. cbn [o_thief].
    destruct (o_thief o), (_ || o_sort_by_size o); reflexivity.
Qed.

Lemma non_units_in F c : In c (non_units F) -> In c F.
Proof. intros H. apply filter_In in H. tauto. Qed.
(*EX
(* a two-bit multiplier: variables 1,2 and 3,4 are the factors, 5..8 the product, 9 and 10 auxiliary *)
Definition circuit : string := "1|3|-5&-5|1&-5|3&5|-1|-3&-8|5&-8|2&-8|4&8|-5|-2|-4&-7|2&-7|4&-7|-5&7|-2|-4|5&-9|2&-9|3&9|-2|-3&-10|1&-10|4&10|-1|-4&-6|9|10&-6|-9|-10&6|-9|10&6|9|-10".
(* the product is 6 *)
Definition six : input := InSLF (txt (circuit ++ "&-5&6&7&-8")).
Definition six_root : cset := Eval vm_compute in set_of_text (txt (circuit ++ "&-5&6&7&-8")).
Lemma circuit_computes asg : cnf_true asg (non_units (raws six_root)) ->
  value_of asg (next_vars 0 2) * value_of asg (next_vars 2 2) = value_of asg [5; 6; 7; 8].
Proof.
  intros H. apply cnf_true_b in H. vm_compute in H.
  change (value_of asg (next_vars 0 2)) with (bits_value [asg 1; asg 2]).
  change (value_of asg (next_vars 2 2)) with (bits_value [asg 3; asg 4]).
  change (value_of asg [5; 6; 7; 8]) with (bits_value [asg 5; asg 6; asg 7; asg 8]).
  destruct (asg 1), (asg 2), (asg 3), (asg 4), (asg 5), (asg 6), (asg 7), (asg 8), (asg 9), (asg 10);
    try discriminate; reflexivity.
Qed.
Example six_read : get_cnf_set six = Ok six_root /\ root_ok six_root /\
  raws six_root = [1; 3; -5] :: tl (raws six_root) /\ unit_literals (raws six_root) = [-5; 6; 7; -8] /\
  fresh_db default_opts no_fail [].
Proof.
  split; [vm_compute; reflexivity|]. split; [concrete_root_ok|]. split; [reflexivity|]. split; [reflexivity|].
  split; discriminate.
Qed.
Example six_nonzero : forall c l, In c (raws six_root) -> In l c -> l <> 0.
Proof.
  intros c l Hc Hl E. assert (K : forallb (fun c => forallb (fun l => negb (l =? 0)) c) (raws six_root) = true) by reflexivity.
  rewrite forallb_forall in K. specialize (K c Hc). rewrite forallb_forall in K. specialize (K l Hl). subst l. discriminate.
Qed.
Example six_product : forall asg, cnf_true asg (raws six_root) ->
  value_of asg (next_vars 0 2) * value_of asg (next_vars 2 2) = 6.
Proof.
  intros asg H. rewrite circuit_computes by (intros c Hc; apply H, non_units_in; exact Hc).
  assert (K : forall l, In l [-5; 6; 7; -8] -> asg (Z.abs l) = (0 <? l)).
  { intros l Hl. apply lit_true_sign; [simpl in Hl; lia|]. apply unit_true. apply H. apply unit_literals_in.
    destruct six_read as (_ & _ & _ & -> & _). exact Hl. }
  assert (H5 : asg 5 = false) by (apply (K (-5)); simpl; auto). assert (H6 : asg 6 = true) by (apply (K 6); simpl; auto).
  assert (H7 : asg 7 = true) by (apply (K 7); simpl; auto). assert (H8 : asg 8 = false) by (apply (K (-8)); simpl; auto).
  unfold value_of. cbn [map]. rewrite H5, H6, H7, H8. reflexivity.
Qed.
Example six_preprocessed : exists info s' rb l1 l2 s2,
  factorize six_root = Some (info, s') /\ raws s' <> [] /\ ~ In [] (raws s') /\
  multiply six_root 3 2 = Some (rb, l1, l2, s2) /\ raws s2 <> [] /\ ~ In [] (raws s2) /\
  multiply six_root 5 2 = None.
Proof.
  do 6 eexists. split; [vm_compute; reflexivity|]. split; [vm_compute; discriminate|]. split; [vm_compute; intuition discriminate|].
  split; [vm_compute; reflexivity|]. split; [vm_compute; discriminate|]. split; [vm_compute; intuition discriminate|].
  vm_compute. reflexivity.
Qed.
Example six_factored : exists out, program_answers (fun t => t) no_fail default_opts (mkMain true None false false) six []
  (Report out [LFactors 6 3 2] None None).
Proof.
  eexists. exists 60%nat. intros fuel lf H1 H2. apply (main_report_mono _ _ _ _ _ _ 60 fuel 60 lf); [vm_compute; reflexivity|auto|auto].
Qed.
Example six_multiplied : exists out,
  program_answers (fun t => t) no_fail default_opts (mkMain false (Some (3, 2)) false true) six []
     (Report out [LProduct 3 2 6] None (Some true)).
Proof.
  eexists. exists 60%nat. intros fuel lf H1 H2. apply (main_report_mono _ _ _ _ _ _ 60 fuel 60 lf); [vm_compute; reflexivity|auto|auto].
Qed.
(* the second factor gets no bit: only the first variable has a value, or its length is 0 *)
Example C42_no_bits_applies : fact_lines (Some (mkFact 6 [1; 2; 3] 1 2)) (Some [(1, true)]) = Err ValueError /\
  fact_lines (Some (mkFact 6 [1; 2; 3] 2 0)) (Some [(1, true); (2, false); (3, true)]) = Err ValueError /\
  fact_lines (Some (mkFact 6 [1; 2; 3; 4] 2 2)) (Some [(1, false); (2, true); (3, true); (4, true)]) = Ok [LFactors 6 2 3].
Proof. repeat split; vm_compute; reflexivity. Qed.
EX*)
