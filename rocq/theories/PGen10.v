(* PGen10.v -- the solver's view of a generated file. *)
From Coq Require Import String Ascii ZArith List Bool Lia Arith Sorted.
From Verif Require Import Spec SpecInput SpecRun PyBase MSet MText MDb MSolver MMain PLib PArith PMain PP5 PP6
  MGen SpecGen PGen5 PGen6 PGen7 PGen8 PGen9.
Import ListNotations.
Open Scope Z_scope.

Lemma array_bound m n : 4 <= n -> array_sized m n -> array_multiplier m (PGen4.n1 n) (PGen4.n2 n).
Proof.
  intros Hn H. destruct m; cbn; auto. specialize (H eq_refl). destruct (PGen4.size_facts n Hn) as (S1 & S2 & _).
  pose proof (n1_Z n Hn). pose proof (n2_Z n Hn). destruct H as [H|[He H]].
  - left. unfold first_bits in *. unfold bound. lia.
  - right. pose proof (PGen3.div2_bounds (PGen4.n1 n)) as D. apply Z.even_spec in He as (j & Ej).
    assert (second_bits n = j). { unfold second_bits. rewrite Ej. rewrite Z.mul_comm, Z.div_add_l by lia. cbn. lia. }
    unfold first_bits, bound in *. lia.
Qed.
Definition formula (n : Z) (cs' : list bit) (ds : list gate) : list (list Z) :=
  ints (clauses_of (ds ++ PGen4.assert_gates (filter keepBitVar cs') (map bit_value (int2bits n)))).
Lemma not_comp_first f1 f2 : 0 < f1 -> 0 < f2 -> ~ complementary [1; 1 + f1; - (1 + f1 + f2)].
Proof. intros H1 H2 (v & Hv & A & B). destruct A as [A|[A|[A|[]]]], B as [B|[B|[B|[]]]]; lia. Qed.
Lemma gen_root a m n t : 4 <= n -> array_sized m n -> gen_main a m n = Some t ->
  exists cs' v1 ds root rest, gen_run a m n cs' v1 ds /\ array_multiplier m (PGen4.n1 n) (PGen4.n2 n) /\
    get_cnf_set (InDimacs t) = Ok root /\ root_ok root /\
    raws root = [1; 1 + first_bits n; - (1 + first_bits n + second_bits n)] :: rest /\
    (forall c l, In c (raws root) -> In l c -> l <> 0) /\
    (forall asg, cnf_true asg (raws root) <-> cnf_true asg (formula n cs' ds)) /\
    unit_literals (raws root) = unit_literals (formula n cs' ds) /\
    (forall asg, cnf_true asg (non_units (raws root)) <-> cnf_true asg (non_units (formula n cs' ds))) /\
    (forall d, In d (raws root) -> exists c, In c (formula n cs' ds) /\ (forall l, In l d <-> In l c)).
Proof.
  intros Hn Hm Ht. pose proof (array_bound m n Hn Hm) as arr. destruct (gen_run_exists a m n Hn) as (cs' & v1 & ds & GR).
  exists cs', v1, ds. unfold gen_main in Ht. rewrite (proj2 (Z.leb_gt n 1)) in Ht by lia. rewrite (gr_gen _ _ _ _ _ _ GR) in Ht.
  apply (f_equal (fun o => match o with Some x => x | None => t end)) in Ht. cbv beta iota in Ht. rewrite <- Ht. clear Ht.
  match goal with |- context [gen_lines a m n ?G] => set (g := G) end. set (F := formula n cs' ds).
  assert (Hz : forall c l, In c F -> In l c -> 1 <= Z.abs l) by (intros c l H1 H2; pose proof (gen_vars a m n cs' v1 ds GR c l H1 H2); lia).
  assert (R : represents (InDimacs (join (txt "
") (gen_lines a m n g ++ [[]]))) F).
  { apply text_represents; [symmetry; apply (gen_literals a m n cs' v1 ds GR)|]. intros c Hc.
    destruct (gen_sizes n cs' ds c Hc) as [L|L]; (split; [intros ->; discriminate|split; [|lia]]); intros H0; apply (Hz c 0) in H0; auto; lia. }
  destruct (represents_read _ _ R) as (s & A & B & D & E & G & _ & I1 & I2 & I3).
  destruct (F_first a m n cs' v1 ds Hn GR arr) as (F' & EF). destruct (PGen4.size_facts n Hn) as (S1 & S2 & _).
  assert (NCF : ~ complementary [1; 1 + first_bits n; - (1 + first_bits n + second_bits n)]) by (apply not_comp_first; lia).
  assert (FC : In [1; 1 + first_bits n; - (1 + first_bits n + second_bits n)] F) by (unfold F, formula; rewrite EF; left; auto).
  assert (RO : root_ok s).
  { eapply read_root_ok; eauto. apply G. intros E0. rewrite E0 in FC. destruct FC. }
  assert (ER : map snd (map (fun c => (initial_index c, raw c)) (clauses s)) = raws s) by (rewrite map_map; reflexivity).
  assert (FIRST : exists rest, raws s = [1; 1 + first_bits n; - (1 + first_bits n + second_bits n)] :: rest).
  { rewrite <- ER. unfold F, formula in D. rewrite EF in D. eapply reads_first; eauto.
    - unfold distinct_vars. cbn [cvars map].
      repeat (apply NoDup_cons; [intros X; repeat (destruct X as [X|X]; [lia|]); destruct X|]). apply NoDup_nil.
    - unfold sorted_clause. cbn [cvars map]. repeat (apply SSorted_cons; [|repeat (apply Forall_cons; [lia|]); apply Forall_nil]). apply SSorted_nil. }
  destruct FIRST as (rest & ER1). destruct (reads_split 1 F _ D) as (U1 & U2 & U3 & U4).
  { intros c Hc. apply (F_clauses a m n cs' v1 ds Hn GR arr c Hc). }
  rewrite ER in U1, U2, U3, U4. exists s, rest. repeat (split; [assumption|]). split.
  { intros c l Hc Hl. destruct (U2 c Hc) as (c0 & Hc0 & _ & X). apply X in Hl. specialize (Hz c0 l Hc0 Hl). lia. }
  split; [exact B|]. split; [exact U1|]. split; [exact U4|]. intros d Hd. destruct (U2 d Hd) as (c & P1 & _ & P3). eauto.
Qed.

(* what factorize leaves *)
Lemma factorize_values s x y z rest info s' : raws s = [x; y; z] :: rest -> 0 < y ->
  (forall c l, In c (raws s) -> In l c -> l <> 0) -> factorize s = Some (info, s') ->
  let units := unit_literals (raws s) in let number := bits_value (map (Z.ltb 0) units) in
  let us := units ++ (if Z.odd number then [1; y] else []) in
  NoDup (dkeys (evaluated_vars s')) /\ (forall v, In v (dkeys (evaluated_vars s')) <-> In v (map Z.abs us)) /\
  (forall v b, In (v, b) (evaluated_vars s') -> exists u, In u us /\ v = Z.abs u /\ b = (0 <? u)) /\
  raws s' = restrict_all (evaluated_vars s') (raws s).
Proof.
  intros E Hy Hz Hf units number us. destruct (p_C41_factorizer s x y z rest E Hy Hz) as (info' & s'' & Hf' & _ & _ & _ & _ & N & K & R & _).
  rewrite Hf in Hf'. injection Hf' as <- <-. rewrite (factorize_spec s x y z rest E Hy Hz) in Hf. injection Hf as _ Es.
  fold units in K, Es. fold number in K, Es. cbv zeta in Es. fold units number in Es.
  split; auto. split; [|split; auto].
  - intros v. rewrite K. unfold us. destruct (Z.odd number); reflexivity.
  - rewrite <- Es. cbn [evaluated_vars]. change (evaluated_vars (substitute_vars (set_evaluated s ?d) ?d)) with d.
    assert (Hu : forall u, In u us -> u <> 0).
    { intros u Hu. apply in_app_iff in Hu as [Hu|Hu]; [apply unit_literals_in in Hu; apply (Hz [u]); auto; left; auto|].
      destruct (Z.odd number); [|destruct Hu]. destruct Hu as [<-|[<-|[]]]; lia. }
    destruct (vm_facts us (raws s) Hu _ eq_refl) as (_ & _ & D). intros v b Hvb. apply D. revert Hvb.
    match goal with |- In _ ?p -> In _ ?q => replace q with p; auto end.
    unfold us. destruct (Z.odd number); reflexivity.
Qed.
Lemma empty_restricted d F : In [] (restrict_all d F) -> NoDup (dkeys d) -> exists c, In c F /\ (forall l, In l c -> In (Z.abs l) (dkeys d)) /\
  forall f, extends f d -> (forall l, In l c -> l <> 0) -> ~ clause_true f c.
Proof.
  intros H N. unfold restrict_all in H. apply in_map_iff in H as (c & E & Hc). apply filter_In in Hc as [Hc Hs]. exists c. split; auto.
  assert (A : forall l, In l c -> assigned_by d l = true).
  { intros l Hl. destruct (assigned_by d l) eqn:Ea; auto. exfalso. assert (X : In l (filter (fun l => negb (assigned_by d l)) c)) by (apply filter_In; rewrite Ea; auto). rewrite E in X. destruct X. }
  split.
  - intros l Hl. apply A in Hl. unfold assigned_by in Hl. apply existsb_exists in Hl as ([v b] & H1 & H2). cbn in H2. apply Z.eqb_eq in H2. subst v.
    apply (in_map fst) in H1. exact H1.
  - intros f Hf Hnz (l & Hl & T). apply negb_true_iff in Hs. assert (X : existsb (satisfied_by d) c = true); [|congruence].
    apply existsb_exists. exists l. split; auto. pose proof (A l Hl) as Ha. unfold assigned_by in Ha. apply existsb_exists in Ha as ([v b] & H1 & H2).
    cbn in H2. unfold satisfied_by. apply existsb_exists. exists (v, b). split; auto. cbn [fst snd]. rewrite H2. cbn [andb]. apply Z.eqb_eq in H2. subst v.
    specialize (Hnz l Hl). pose proof (Hf _ _ H1) as Eb. unfold lit_true in T. destruct (Z.ltb_spec l 0).
    + rewrite Z.abs_neq in Eb by lia. rewrite Eb in T. destruct b; [discriminate|]. rewrite (proj2 (Z.ltb_ge 0 l)) by lia. auto.
    + rewrite Z.abs_eq in Eb by lia. rewrite Eb in T. rewrite T. rewrite (proj2 (Z.ltb_lt 0 l)) by lia. auto.
Qed.
Lemma all_satisfied d F : restrict_all d F = [] -> forall f, extends f d -> (forall c l, In c F -> In l c -> l <> 0) -> cnf_true f F.
Proof.
  intros H f Hf Hnz c Hc. destruct (existsb (satisfied_by d) c) eqn:E.
  - apply existsb_exists in E as (l & Hl & Hs). unfold satisfied_by in Hs. apply existsb_exists in Hs as ([v b] & H1 & H2). cbn [fst snd] in H2.
    apply andb_prop in H2 as [H2 H3]. apply Z.eqb_eq in H2. subst v. apply eqb_prop in H3. specialize (Hnz c l Hc Hl). exists l. split; auto.
    pose proof (Hf _ _ H1) as Eb. unfold lit_true. destruct (Z.ltb_spec l 0).
    + rewrite Z.abs_neq in Eb by lia. rewrite Eb, H3, (proj2 (Z.ltb_ge 0 l)) by lia. auto.
    + rewrite Z.abs_eq in Eb by lia. rewrite Eb, H3, (proj2 (Z.ltb_lt 0 l)) by lia. auto.
  - exfalso. assert (X : In (filter (fun l => negb (assigned_by d l)) c) (restrict_all d F)).
    { unfold restrict_all. apply in_map. apply filter_In. rewrite E. auto. }
    rewrite H in X. destruct X.
Qed.
Lemma value_flip f v xs : In v xs -> value_of (upd f v (negb (f v))) xs <> value_of f xs.
Proof.
  intros Hv. pose proof (value_upd_lt f v xs Hv) as L.
  assert (E : value_of f xs = value_of (upd f v (f v)) xs). { apply value_of_ext. intros w _. unfold upd. destruct (Z.eqb_spec w v) as [->|]; auto. }
  rewrite E. destruct (f v); cbn [negb]; lia.
Qed.
Lemma lit_of_notBit b : lit_of (notBit b) = - lit_of b.
Proof. destruct b; cbn; lia. Qed.
(* the factoring preprocessor on a generated file: at least one clause is left and none is emptied *)
Lemma factorize_generated a m n t root info s' : 4 <= n -> array_sized m n -> gen_main a m n = Some t ->
  get_cnf_set (InDimacs t) = Ok root -> factorize root = Some (info, s') -> raws s' <> [] /\ ~ In [] (raws s').
Proof.
  intros Hn Hm Ht Hg Hf. destruct (gen_root a m n t Hn Hm Ht) as (cs' & v1 & ds & root' & rest & GR & arr & Hg' & RO & ER & Hz & B & U & NU & SUB).
  rewrite Hg in Hg'. injection Hg' as <-. destruct (PGen4.size_facts n Hn) as (S1 & S2 & _).
  destruct (factorize_values root _ _ _ rest info s' ER ltac:(lia) Hz Hf) as (N & KK & VV & RR). rewrite U in KK, VV. unfold formula in KK, VV.
  rewrite (F_number a m n cs' v1 ds Hn GR arr) in KK, VV.
  set (d := evaluated_vars s') in *. split.
  - intros E0. rewrite RR in E0. pose proof (all_satisfied d (raws root) E0) as AS.
    set (f := override d (fun _ => false)). assert (Ef : extends f d) by (apply override_extends; auto).
    set (f' := upd f 2 (negb (f 2))).
    destruct (fixed_right a m n cs' v1 ds Hn GR arr d f KK VV Ef) as [_ FX].
    assert (N2 : ~ In 2 (map fst d)).
    { intros H. apply FX in H. destruct H as [(i & Hi & E)|(_ & [E|E])]; try lia. pose proof (out_not_input a m n cs' v1 ds Hn GR arr i Hi). lia. }
    assert (Ef' : extends f' d). { intros v b Hvb. unfold f', upd. destruct (Z.eqb_spec v 2) as [->|]; [exfalso; apply N2; apply (in_map fst) in Hvb; auto|]. apply Ef; auto. }
    pose proof (proj1 (B f) (AS f Ef Hz)) as M1. pose proof (proj1 (B f') (AS f' Ef' Hz)) as M2.
    apply (model_iff a m n cs' v1 ds Hn GR) in M1 as [_ M1]. apply (model_iff a m n cs' v1 ds Hn GR) in M2 as [_ M2].
    rewrite first_value, second_value in M1, M2.
    assert (E2 : value_of f' (next_vars (first_bits n) (second_bits n)) = value_of f (next_vars (first_bits n) (second_bits n))).
    { apply value_of_ext. intros v Hv. apply next_vars_in in Hv. unfold f', upd. rewrite (proj2 (Z.eqb_neq v 2)) by lia. auto. }
    rewrite E2 in M2. assert (X : value_of f' (next_vars 0 (first_bits n)) <> value_of f (next_vars 0 (first_bits n))).
    { apply value_flip. apply next_vars_in. lia. }
    apply X. apply (Z.mul_reg_r _ _ (value_of f (next_vars (first_bits n) (second_bits n)))); [|congruence].
    intros E3. rewrite E3 in M1. lia.
  - intros H0. rewrite RR in H0. destruct (empty_restricted d (raws root) H0 N) as (c & Hc & Hk & Hfalse).
    set (f := override d (fun _ => false)). assert (Ef : extends f d) by (apply override_extends; auto).
    destruct (fixed_right a m n cs' v1 ds Hn GR arr d f KK VV Ef) as [RF FX].
    apply (Hfalse f Ef); [intros l Hl; apply (Hz c l Hc Hl)|]. destruct (SUB c Hc) as (c0 & Hc0 & EQ).
    assert (T : clause_true f c0); [|destruct T as (l & Hl & T); exists l; split; auto; apply EQ; auto].
    unfold formula in Hc0. rewrite (F_split n cs' ds) in Hc0. apply in_app_iff in Hc0 as [Hc0|Hc0].
    + unfold ints in Hc0. apply in_map_iff in Hc0 as (cb & <- & Hcb).
      assert (V : Forall (isvar v1) cb).
      { pose proof (core_gates_vars a m n cs' v1 ds GR) as G. unfold clauses_of in Hcb. apply in_flat_map in Hcb as (g & Hg1 & Hcb).
        rewrite Forall_forall in G. eapply clause_bits_vars; eauto. }
      apply (clause_true_ints v1 f cb V). rewrite Forall_forall in V.
      apply (all_survive a m n cs' v1 ds f cb Hn (gr_core _ _ _ _ _ _ GR) RF Hcb). intros b Hb. destruct (V b Hb) as [VB VC]. split; auto.
      apply FX. replace (var_of b) with (Z.abs (lit_of b)). { apply Hk. apply EQ. apply in_map; auto. }
      destruct b; cbn in *; [exfalso; apply VC; auto|lia|lia].
    + apply in_map_iff in Hc0 as (u & <- & Hu). exists u. split; [left; auto|].
      assert (HinF : In u (unit_literals (formula n cs' ds))) by (unfold formula; rewrite (F_units a m n cs' v1 ds Hn GR arr); auto).
      pose proof (F_units a m n cs' v1 ds Hn GR arr) as FU. 
      apply In_nth_error in Hu as (j & Hj). assert (Lj : (j < List.length (filter keepBitVar cs'))%nat).
      { rewrite <- (asserted_length _ (map bit_value (int2bits n))). apply nth_error_Some. congruence. }
      destruct (asserted_signs _ (map bit_value (int2bits n)) j (cs_posvar a m n cs' v1 ds GR arr) Lj) as (u' & Eu & A1 & A2).
      rewrite Hj in Eu. injection Eu as <-. destruct (idx1 a m n cs' v1 ds Hn GR j Lj) as (i & I1 & I2 & I3).
      destruct RF as [RF _]. specialize (RF i I2). destruct (out_var a m n cs' v1 ds GR arr i I2) as (v & Ev & Hv). rewrite Ev in *. rewrite <- I1 in A1. cbn [var_of PGen1.bval] in *.
      rewrite I3, <- A2 in RF. unfold lit_true. destruct (Z.ltb_spec u 0).
      * replace (- u) with v by lia. rewrite RF. rewrite (proj2 (Z.ltb_ge 0 u)) by lia. auto.
      * replace u with v by lia. rewrite RF. apply Z.ltb_lt. lia.
Qed.
