(* PProg2.v -- the program around any solver that ends with right outcomes. *)
From Coq Require Import String Ascii ZArith List Bool Lia Permutation Sorted.
From Verif Require Import Spec PyBase MSet MText MQueue MDb MSolver MMain SpecInput SpecRun PLib PClause
  PRename PLo PNorm PEval PText PQueue PNode PStep PRun PStats PSolver PSolve PSearch PGraph PReader PMain
  PArith PP1 PP2 PP4 PP5 PP6 PProg.
Import ListNotations.
Open Scope Z_scope.

(* what is right about an outcome *)
Definition good (hash : text -> digest) (o : opts) (root : cset) (out : outcome) : Prop :=
  (out_sat out = true ->
     satisfiable (raws root) /\
     exists sol, out_solution out = Some sol /\ sol <> [] /\ NoDup (dkeys sol) /\ StronglySorted Z.lt (dkeys sol) /\
       (forall a, extends a sol -> cnf_true a (raws root)) /\
       incl (evaluated_vars root) sol /\
       (forall v, In v (dkeys sol) -> In v (fvars (raws root)) \/ In v (dkeys (evaluated_vars root)))) /\
  (out_sat out = false -> out_solution out = None) /\
  (collision_free hash o root -> (out_sat out = true <-> satisfiable (raws root))).

Lemma solution_verifies root sol : (forall c, In c (raws root) -> distinct_vars c) -> (forall v, In v (fvars (raws root)) -> v <> 0) -> NoDup (dkeys sol) ->
  (forall a, extends a sol -> cnf_true a (raws root)) -> verify_solution root sol = true.
Proof.
  intros Hd Hz Nd Hsol. apply p_C25_verifier_exact. intros c Hc.
  destruct (existsb (fun l => ((0 <? l) && existsb (fun kv => (fst kv =? l) && snd kv) sol) ||
                      ((l <? 0) && existsb (fun kv => (fst kv =? - l) && negb (snd kv)) sol)) c) eqn:Ex.
  - apply existsb_exists in Ex as (l & Hl & H). exists l. split; auto.
    apply orb_true_iff in H as [H|H]; apply andb_true_iff in H as [H1 H2];
      apply existsb_exists in H2 as ((k & b) & Hk & Hb); simpl in Hb; apply andb_true_iff in Hb as [Hb1 Hb2];
      apply Z.eqb_eq in Hb1; subst k; destruct b; try discriminate; [left|right]; split; auto; lia.
  - exfalso.
    set (a := fun v => match dget Z.eqb v sol with Some b => b | None => negb (zmem v c) end).
    assert (Ha : extends a sol).
    { intros v b H. unfold a. rewrite (dget_In_NoDup _ zspec _ _ _ Nd H). auto. }
    destruct (Hsol a Ha c Hc) as (l & Hl & Ht).
    assert (Hnz : Z.abs l <> 0). { apply Hz, in_fvars. exists c; split; auto. apply in_map; auto. }
    assert (Hl' : ((0 <? l) && existsb (fun kv => (fst kv =? l) && snd kv) sol) ||
                  ((l <? 0) && existsb (fun kv => (fst kv =? - l) && negb (snd kv)) sol) = false).
    { destruct (_ || _) eqn:El; auto. rewrite (existsb_true _ c l Hl El) in Ex. discriminate. }
    apply orb_false_iff in Hl' as [F1 F2]. unfold lit_true, a in Ht.
    destruct (Z.ltb_spec l 0).
    + replace (l <? 0) with true in F2 by (symmetry; apply Z.ltb_lt; auto). simpl in F2.
      destruct (dget Z.eqb (- l) sol) as [b|] eqn:Ed.
      * apply (dget_In _ zspec) in Ed. destruct b; [discriminate|].
        rewrite (existsb_true _ sol _ Ed) in F2; [discriminate|]. simpl. rewrite Z.eqb_refl. auto.
      * rewrite negb_involutive in Ht. apply zmem_In in Ht.
        pose proof (Hd c Hc) as Dc. pose proof (distinct_unique c l (- l) Dc Hl Ht ltac:(lia)). lia.
    + replace (0 <? l) with true in F1 by (symmetry; apply Z.ltb_lt; lia). simpl in F1.
      destruct (dget Z.eqb l sol) as [b|] eqn:Ed.
      * apply (dget_In _ zspec) in Ed. destruct b; [|discriminate].
        rewrite (existsb_true _ sol _ Ed) in F1; [discriminate|]. simpl. rewrite Z.eqb_refl. auto.
      * apply negb_true_iff in Ht. enough (zmem l c = true) by congruence. apply zmem_In; auto.
Qed.

Section AnySolver.
  Variable hash : text -> digest.
  Variable o : opts.
  Variable a : main_opts.
  Variable solve : nat -> nat -> cset -> table -> result outcome.
  Variable db : table.
  Hypothesis Hh : forall fuel lf s h, solve fuel lf (set_hash s h) db = solve fuel lf s db.
  Hypothesis Hsolve : forall root, root_ok root -> exists out,
    (exists N, forall fuel lf, (N <= fuel)%nat -> (N <= lf)%nat -> solve fuel lf root db = Ok out) /\ good hash o root out.

  Definition answers (i : input) (ans : answer) : Prop :=
    exists N, forall fuel lf, (N <= fuel)%nat -> (N <= lf)%nat -> main_with hash (solve fuel lf) a i db = Ok ans.

  Lemma run_ends cnf fi mi out : clauses cnf <> [] ->
    (exists N, forall fuel lf, (N <= fuel)%nat -> (N <= lf)%nat -> solve fuel lf cnf db = Ok out) ->
    exists N, forall fuel lf, (N <= fuel)%nat -> (N <= lf)%nat ->
      run_with hash (solve fuel lf) a cnf fi mi db = report a cnf fi mi out.
  Proof.
    intros Hc [N HN]. exists N. intros fuel lf H1 H2. rewrite run_with_eq by auto. rewrite HN by auto. auto.
  Qed.
Lemma g_verdict : forall i F,
  represents i F -> (exists c, In c F /\ ~ complementary c) ->
  a_factorize a = false -> a_multiply a = None ->
  exists root out file ver,
    get_cnf_set i = Ok root /\
    answers i (Report out [] file ver) /\
    (out_sat out = true -> satisfiable F /\
       exists sol, out_solution out = Some sol /\ NoDup (dkeys sol) /\
         (forall asg, extends asg sol -> cnf_true asg F) /\
         (forall v, In v (dkeys sol) -> In v (fvars F)) /\
         file = (if a_solution_file a then Some (format_solution sol) else None) /\
         exists b, ver = (if a_verify a then Some b else None) /\ (~ In 0 (fvars F) -> b = true)) /\
    (out_sat out = false -> out_solution out = None /\ file = None /\ ver = None) /\
    (collision_free hash o root -> (out_sat out = true <-> satisfiable F)).
Proof.
  intros i F HR HT Hf Hm.
  destruct (represents_read i F HR) as (s & A & B & C & D & E & _ & G & I & J).
  assert (HF : F <> []) by (destruct HT as (c & Hc & _); intros ->; destruct Hc).
  assert (RO : root_ok s) by (eapply read_root_ok; eauto).
  destruct (Hsolve s RO) as (out & HE & S1 & S2 & SX).
  pose proof (ro_ne s RO) as Hne.
  destruct (run_ends s None None out Hne HE) as (N & HN).
    set (file := match out_solution out with
           | Some (kv :: d) => if a_solution_file a then Some (format_solution (kv :: d)) else None
           | _ => None end).
  set (ver := match out_solution out with
           | Some (kv :: d) => if a_verify a then Some (verify_solution s (kv :: d)) else None
           | _ => None end).
  assert (Hvars : forall v, In v (fvars (raws s)) -> In v (fvars F)).
  { intros v Hv. apply in_fvars in Hv as (c & Hc & Hv). unfold raws in Hc. apply in_map_iff in Hc as (k & <- & Hk).
    destruct (reads_in _ _ _ C (initial_index k) (raw k)) as (d & D1 & _ & D2 & _).
    { apply in_map_iff. exists k; auto. }
    apply in_fvars. exists d. split; auto. unfold cvars in *. apply in_map_iff in Hv as (l & <- & Hl).
    apply in_map. apply D2; auto. }
  exists s, out, file, ver. split; auto. split; [|split; [|split]].
  - exists N. intros fuel lf H1 H2. unfold main_with. rewrite A. cbn [bind]. unfold preprocess_with.
    rewrite Hf, Hm. rewrite HN by auto. unfold report. reflexivity.
  - intros Hs. destruct (S1 Hs) as ((asg & Hasg) & sol & Es & Hsn & Nd & _ & Hsol & _ & Hk).
    split; [exists asg; apply B; auto|]. exists sol. split; auto. split; auto.
    split; [intros x Hx; apply B; auto|]. split.
    { intros v Hv. destruct (Hk v Hv) as [H|H]; auto. rewrite G in H. destruct H. }
    unfold file, ver. rewrite Es. destruct sol as [|kv d]; [congruence|]. split; auto.
    exists (verify_solution s (kv :: d)). split; auto. intros Hz.
    apply solution_verifies; auto; [apply (ro_distinct s RO)|].
    intros v Hv ->. apply Hz, Hvars; auto.
  - intros Hs. unfold file, ver. rewrite (S2 Hs). auto.
  - intros CF. rewrite (SX CF).
    split; intros (asg & Hasg); exists asg; apply B; auto.
Qed.

Lemma g_factoring : forall i root x y z rest info s',
  get_cnf_set i = Ok root -> root_ok root -> raws root = [x; y; z] :: rest ->
  (forall c l, In c (raws root) -> In l c -> l <> 0) ->
  a_factorize a = true -> a_multiply a = None ->
  let f1 := y - 1 in let f2 := Z.abs z - y in
  let units := unit_literals (raws root) in
  let number := bits_value (map (Z.ltb 0) units) in
  0 < f1 -> 0 < f2 -> 0 < number -> f1 + f2 <= Z.of_nat (List.length (first_occurrences (map Z.abs units))) ->
  (forall asg, cnf_true asg (raws root) ->
     value_of asg (next_vars 0 f1) * value_of asg (next_vars f1 f2) = number) ->
  factorize root = Some (info, s') -> raws s' <> [] -> ~ In [] (raws s') ->
  exists out lines file ver,
    answers i (Report out lines file ver) /\
    (out_sat out = true -> exists sol, out_solution out = Some sol /\ NoDup (dkeys sol) /\
       forall asg, extends asg sol -> cnf_true asg (raws root) /\
         exists p q, lines = [LFactors number p q] /\ number = p * q /\
           p = value_of asg (next_vars 0 f1) /\ q = value_of asg (next_vars f1 f2)) /\
    (out_sat out = false -> lines = [LPrime number]) /\
    (collision_free hash o s' -> (out_sat out = true <-> satisfiable (raws root))).
Proof.
  intros i root x y z rest info s' Hg RO E Hz Hf Hm f1 f2 units number P1 P2 Pn Hlen Hprod Hfac Hne Hemp.
  assert (Hy : 0 < y) by (unfold f1 in P1; lia).
  destruct (p_C41_factorizer root x y z rest E Hy Hz) as (info' & s'' & Hfac' & I1 & I2 & I3 & I4 & N & K & R1 & R2 & R3 & R4).
  rewrite Hfac in Hfac'. injection Hfac' as <- <-. fold units in I1, I2, K, R3, R4. fold number in I1, K, R3, R4.
  set (forced := if Z.odd number then [[1]; [y]] else []) in *. set (d := evaluated_vars s') in *.
  assert (Hforced : forall asg, cnf_true asg (raws root) -> cnf_true asg forced).
  { intros asg Ha c Hc. unfold forced in Hc. destruct (Z.odd number) eqn:Eo; [|destruct Hc].
    rewrite <- (Hprod asg Ha), Z.odd_mul in Eo. apply andb_true_iff in Eo as [O1 O2].
    replace f1 with (1 + (f1 - 1)) in O1 by lia. rewrite next_vars_app in O1 by lia.
    replace f2 with (1 + (f2 - 1)) in O2 by lia. rewrite (next_vars_app f1) in O2 by lia.
    change (next_vars 0 1) with [1] in O1. change (next_vars f1 1) with [f1 + 1] in O2. cbn [app] in O1, O2.
    rewrite value_odd in O1, O2. replace (f1 + 1) with y in O2 by (unfold f1; lia).
    destruct Hc as [<-|[<-|[]]]; apply unit_true; unfold lit_true.
    - rewrite (proj2 (Z.ltb_ge 1 0)) by lia. auto.
    - rewrite (proj2 (Z.ltb_ge y 0)) by lia. auto. }
  assert (Hkp : forall v, In v (dkeys d) -> 1 <= v).
  { intros v Hv. apply K in Hv. rewrite map_app in Hv. apply in_app_iff in Hv as [Hv|Hv].
    - apply in_map_iff in Hv as (u & <- & Hu). apply unit_literals_in in Hu. pose proof (Hz _ _ Hu (or_introl eq_refl)). lia.
    - unfold forced in Hv. destruct (Z.odd number); cbn in Hv; [|tauto]. destruct Hv as [<-|[<-|[]]]; lia. }
  assert (RO' : root_ok s').
  { pose proof (factorize_spec root x y z rest E Hy Hz) as Hs. cbv zeta in Hs. rewrite Hfac in Hs. injection Hs as _ Hs.
    assert (Ed : d = set_units (unit_literals (raws root) ++ concat forced) []).
    { unfold d. rewrite Hs. reflexivity. }
    rewrite Hs. apply (preprocessed_ok root root); try apply incl_refl; auto; fold units; fold number; fold forced; fold units in Ed; rewrite <- Ed; auto.
    + intros v Hv. specialize (Hkp v Hv). lia.
    + intros E0. apply Hne. rewrite Hs. fold units; fold number; fold forced. rewrite <- Ed. auto.
    + intros E0. apply Hemp. rewrite Hs. fold units; fold number; fold forced. rewrite <- Ed. auto. }
  destruct (Hsolve s' RO') as (out & HE & S1 & S2 & SX).
  destruct (run_ends s' (Some info) None out (ro_ne s' RO') HE) as (M & HM).
    assert (SAT : satisfiable (raws s') <-> satisfiable (raws root)).
  { rewrite R4. split; intros (m & Hm'); exists m.
    - intros c Hc. apply Hm'. apply in_app_iff; auto.
    - intros c Hc. apply in_app_iff in Hc as [Hc|Hc]; [auto|]. apply (Hforced m Hm'); auto. }
  assert (CF : collision_free hash o s' -> (out_sat out = true <-> satisfiable (raws root))).
  { intros CF. rewrite <- SAT. apply (SX CF). }
  assert (ANS : forall lines file ver, report a s' (Some info) None out = Ok (Report out lines file ver) ->
     answers i (Report out lines file ver)).
  { intros lines file ver Hr. exists M. intros fuel lf L1 L2. unfold main_with. rewrite Hg. cbn [bind]. unfold preprocess_with.
    rewrite Hf, Hfac, Hm, HM, Hr by auto. reflexivity. }
  destruct (out_sat out) eqn:Eo.
  - destruct (S1 eq_refl) as (_ & sol & Es & Hsn & Nd & Srt & Hsol & Hinc & Hk).
    assert (HF : forall asg, extends asg sol -> cnf_true asg (raws root)).
    { intros asg Ha. apply R2; [intros v b Hv; apply Ha, Hinc; auto|auto]. }
    assert (Hpos : forall v, In v (dkeys sol) -> 1 <= v).
    { intros v Hv. destruct (Hk v Hv) as [Hv'|Hv']; [|apply Hkp; auto]. rewrite R1 in Hv'.
      apply restrict_all_vars in Hv' as [_ Hv']. apply in_fvars in Hv' as (c & Hc & Hv').
      apply in_map_iff in Hv' as (l & <- & Hl). specialize (Hz c l Hc Hl). lia. }
    assert (Hall : forall v, 1 <= v <= f1_len info + f2_len info -> In v (dkeys sol)).
    { intros v Hv. rewrite I3, I4 in Hv. fold f1 f2 in Hv. destruct (Z_le_gt_dec v f1).
      - apply (factors_determined sol (raws root) (next_vars 0 f1) (next_vars f1 f2) number); auto.
        + intros w Hw1 Hw2. apply next_vars_in in Hw1, Hw2. lia.
        + apply next_vars_in. lia.
      - apply (factors_determined sol (raws root) (next_vars f1 f2) (next_vars 0 f1) number); auto.
        + intros w Hw1 Hw2. apply next_vars_in in Hw1, Hw2. lia.
        + intros asg Ha. rewrite Z.mul_comm. auto.
        + apply next_vars_in. lia. }
    assert (Dec : forall asg, extends asg sol -> decode_factors info sol =
                    Ok (value_of asg (next_vars 0 f1), value_of asg (next_vars f1 f2))).
    { intros asg Ha. pose proof (p_C42_decoding info sol asg) as Q. rewrite I2, I3, I4 in *. apply Q; auto. }
    set (m := override sol (fun _ => false)). assert (Em : extends m sol) by (apply override_extends; auto).
    exists out, [LFactors number (value_of m (next_vars 0 f1)) (value_of m (next_vars f1 f2))].
    eexists _, _. split; [|split; [|split]]; auto; try discriminate.
    + apply ANS. unfold report. rewrite Es. unfold fact_lines. destruct sol as [|kv sol']; [congruence|].
      rewrite (Dec m Em). cbn [bind]. rewrite I1, (Hprod m (HF m Em)), Z.eqb_refl. reflexivity.
    + intros _. exists sol. split; auto. split; auto. intros asg Ha. split; auto.
      eexists _, _. split; [reflexivity|]. pose proof (Dec asg Ha) as D2. rewrite (Dec m Em) in D2. injection D2 as D3 D4.
      rewrite D3, D4. rewrite (Hprod asg (HF asg Ha)). auto.
    + congruence.
    + rewrite Eo. auto.
  - exists out, [LPrime number]. eexists _, _. split; [|split; [|split]]; auto; try congruence.
    + apply ANS. unfold report. rewrite (S2 eq_refl). cbn. rewrite I1. reflexivity.
    + rewrite Eo. auto.
Qed.

Lemma g_multiplication : forall i root x y z rest p q rb l1 l2 s',
  get_cnf_set i = Ok root -> root_ok root -> raws root = [x; y; z] :: rest ->
  (forall c l, In c (raws root) -> In l c -> l <> 0) ->
  a_factorize a = false -> a_multiply a = Some (p, q) -> 1 < p -> 1 < q ->
  let f1 := y - 1 in let f2 := Z.abs z - y in
  (forall asg, cnf_true asg (non_units (raws root)) ->
     value_of asg (next_vars 0 f1) * value_of asg (next_vars f1 f2) =
     value_of asg (map Z.abs (unit_literals (raws root)))) ->
  multiply root p q = Some (rb, l1, l2, s') -> raws s' <> [] -> ~ In [] (raws s') ->
  exists out lines file ver,
    answers i (Report out lines file ver) /\
    (out_sat out = true -> lines = [LProduct p q (p * q)]) /\
    (out_sat out = false -> lines = [LNoProduct p q]) /\
    (collision_free hash o s' -> (out_sat out = true <->
       exists asg, cnf_true asg (non_units (raws root)) /\
         value_of asg (next_vars 0 f1) = Z.max p q /\ value_of asg (next_vars f1 f2) = Z.min p q)).
Proof.
  intros i root x y z rest p q rb l1 l2 s' Hg RO E Hz Hf Hm Hp Hq f1 f2 Hprod Hmul Hne Hemp.
  destruct (p_C43_multiplier root x y z rest p q E Hz Hp Hq) as [_ M]. fold f1 f2 in M.
  destruct (M _ _ _ _ Hmul) as (Erb & _ & _ & K1 & K2 & K3 & K4). set (d := evaluated_vars s') in *.
  assert (Fpos : 0 < f1 /\ 0 < f2).
  { destruct (p_C43_multiplier root x y z rest p q E Hz Hp Hq) as [M0 _]. fold f1 f2 in M0.
    destruct (Z_lt_le_dec 0 f1); destruct (Z_lt_le_dec 0 f2); auto; exfalso;
      (rewrite (proj2 M0) in Hmul; [discriminate|]); intros [Q1 Q2].
    - assert (2 ^ f2 <= 2 ^ 0) by (apply Z.pow_le_mono_r; lia). change (2 ^ 0) with 1 in *. lia.
    - assert (2 ^ f1 <= 2 ^ 0) by (apply Z.pow_le_mono_r; lia). change (2 ^ 0) with 1 in *. lia.
    - assert (2 ^ f1 <= 2 ^ 0) by (apply Z.pow_le_mono_r; lia). change (2 ^ 0) with 1 in *. lia. }
  destruct (multiply_shape _ _ _ _ _ _ _ Hmul) as (d0 & Es').
  assert (Ed : d0 = d) by (unfold d; rewrite Es'; reflexivity). rewrite Ed in Es'. clear d0 Ed.
  assert (N : NoDup (dkeys d)) by (rewrite K1; apply next_vars_NoDup).
  assert (Hpos : forall v, In v (dkeys d) -> 0 <= v).
  { intros v Hv. rewrite K1 in Hv. apply next_vars_in in Hv. lia. }
  assert (RO' : root_ok s').
  { rewrite Es'. apply (preprocessed_ok root); auto; try (rewrite <- Es'; auto).
    intros c Hc. cbn [clauses set_clauses] in Hc. apply filter_In in Hc as [Hc _]. auto. }
  destruct (Hsolve s' RO') as (out & HE & S1 & S2 & SX).
  destruct (run_ends s' None (Some (rb, p, q)) out (ro_ne s' RO') HE) as (T & HT).
    assert (ANS : forall lines file ver, report a s' None (Some (rb, p, q)) out = Ok (Report out lines file ver) ->
     answers i (Report out lines file ver)).
  { intros lines file ver Hr. exists T. intros fuel lf L1 L2. unfold main_with. rewrite Hg. cbn [bind]. unfold preprocess_with.
    rewrite Hf, Hm, Hmul.
    assert (Ex : existsb (fun c => match cvalue c with Some false => true | _ => false end) (clauses s') = false).
    { apply existsb_false. intros c Hc. rewrite (ro_undec s' RO' c Hc). auto. }
    rewrite Ex. cbn [option_map]. rewrite HT, Hr by auto. reflexivity. }
  assert (CF : collision_free hash o s' -> (out_sat out = true <->
       exists asg, cnf_true asg (non_units (raws root)) /\
         value_of asg (next_vars 0 f1) = Z.max p q /\ value_of asg (next_vars f1 f2) = Z.min p q)).
  { intros CF. rewrite (SX CF). split.
    - intros (m & Hm'). exists (override d m). assert (Ea : extends (override d m) d) by (apply override_extends; auto).
      split; [|apply K3; auto]. apply K4; auto. rewrite K2 in *. apply override_restrict; auto.
    - intros (asg & H1 & H2). exists asg. apply K3 in H2. apply K4; auto. }
  destruct (out_sat out) eqn:Eo.
  - destruct (S1 eq_refl) as (_ & sol & Es & Hsn & Nd & Srt & Hsol & Hinc & Hk).
    assert (HF : forall asg, extends asg sol -> extends asg d /\ cnf_true asg (non_units (raws root))).
    { intros asg Ha. assert (extends asg d) by (intros v b Hv; apply Ha, Hinc; auto). split; auto. apply K4; auto. }
    assert (Hall : forall v, In v rb -> In v (dkeys sol)).
    { intros v Hv. destruct (in_dec Z.eq_dec v (dkeys d)) as [Hi|Hi].
      - apply in_map_iff in Hi as ([w b] & Ew & Hi). cbn in Ew. subst w. apply in_map_iff. exists (v, b). auto.
      - apply (determined sol (restrict_all d (non_units (raws root)) ++ map (fun kv : Z * bool => [if snd kv then fst kv else - fst kv]) d) rb
          (fun asg => value_of asg (next_vars 0 f1) * value_of asg (next_vars f1 f2))); auto.
        + intros asg Ha. destruct (HF asg Ha) as [Hd Hc]. rewrite <- K2. intros c Hc0. apply in_app_iff in Hc0 as [Hc0|Hc0].
          * revert c Hc0. apply K4; auto.
          * apply in_map_iff in Hc0 as ([w b] & <- & Hw). apply unit_true. cbn [fst snd].
            assert (0 < w). { assert (Hx : In w (dkeys d)) by (apply in_map_iff; exists (w, b); auto). rewrite K1 in Hx. apply next_vars_in in Hx. lia. }
            unfold lit_true. specialize (Hd w b Hw). destruct b.
            -- rewrite (proj2 (Z.ltb_ge w 0)) by lia. auto.
            -- rewrite (proj2 (Z.ltb_lt (- w) 0)) by lia. rewrite Z.opp_involutive, Hd. auto.
        + intros asg Ha. rewrite Erb. symmetry. apply Hprod. apply K4.
          * intros w b Hw. assert (0 < w). { assert (Hx : In w (dkeys d)) by (apply in_map_iff; exists (w, b); auto). rewrite K1 in Hx. apply next_vars_in in Hx. lia. }
            assert (Hc : clause_true asg [if b then w else - w]).
            { apply Ha. apply in_app_iff. right. apply in_map_iff. exists (w, b). auto. }
            apply unit_true in Hc. apply lit_true_sign in Hc; [|destruct b; lia].
            destruct b; rewrite ?Z.abs_opp, Z.abs_eq in Hc by lia; rewrite Hc; destruct (Z.ltb_spec 0 w), (Z.ltb_spec 0 (- w)); auto; lia.
          * rewrite K2. intros c Hc. apply Ha. apply in_app_iff. auto.
        + intros asg b. rewrite !value_upd_notin; auto; intros Hx; apply Hi; rewrite K1; apply next_vars_in in Hx; apply next_vars_in.
          * lia.
          * lia. }
    set (m := override sol (fun _ => false)). assert (Em : extends m sol) by (apply override_extends; auto).
    destruct (HF m Em) as [Hd Hc]. apply K3 in Hd as [V1 V2].
    assert (Vr : value_of m rb = p * q). { rewrite Erb, <- Hprod by auto. rewrite V1, V2. lia. }
    assert (Dec : decode_product rb sol = Ok (p * q)).
    { unfold decode_product. assert (Em2 : mapM (fun v => of_option KeyError (dget Z.eqb v sol)) rb = Ok (map m rb)).
      { clear -Hall. induction rb as [|v rb IH]; cbn [mapM map]; auto. rewrite IH by (intros; apply Hall; right; auto).
        specialize (Hall v (or_introl eq_refl)). unfold m, override at 2.
        destruct (dget Z.eqb v sol) eqn:Eg; [reflexivity|]. apply (dget_None _ zspec) in Eg. tauto. }
      rewrite Em2. cbn [bind]. rewrite int_bits_value.
      - f_equal. apply Vr.
      - intros E0. unfold value_of in Vr. rewrite E0 in Vr. cbn in Vr. nia. }
    exists out, [LProduct p q (p * q)]. eexists _, _. split; [|split; [|split]]; auto; try congruence.
    + apply ANS. unfold report. rewrite Es. unfold mult_lines. destruct sol as [|kv sol']; [congruence|].
      rewrite Dec. cbn [bind fact_lines]. rewrite Z.eqb_refl. reflexivity.
    + rewrite Eo. auto.
  - exists out, [LNoProduct p q]. eexists _, _. split; [|split; [|split]]; auto; try congruence.
    + apply ANS. unfold report. rewrite (S2 eq_refl). reflexivity.
    + rewrite Eo. auto.
Qed.

End AnySolver.
