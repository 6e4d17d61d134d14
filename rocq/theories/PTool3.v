(* PTool3.v -- what transformations mean for the numbers *)
From Coq Require Import String Ascii ZArith List Bool Lia Arith Permutation Sorted.
From Verif Require Import Spec PyBase MSet MText MCnf MFam MFam2 MTrans MFile MTool SpecCnf SpecFam SpecTrans SpecTool PText PLib PCnf1 PCnf2 PFam1 PFam2 PFam3 PFam4 PFam5 PFam6 PFam7 PFam8 PFam12 PFam13 PP16 PTrans1 PTrans2 PTrans3 PTrans4 PTrans5 PTrans6 PTrans7 PFile1 PFile2 PTool1 PTool2.
Import ListNotations.
Open Scope Z_scope.

Lemma nth_blocks {A B} (f : A -> list B) (k : nat) vs d v0 : (forall v, List.length (f v) = k) -> forall j i, (j < List.length vs)%nat -> (i < k)%nat ->
  nth (k * j + i) (flat_map f vs) d = nth i (f (nth j vs v0)) d.
Proof.
  intros L. induction vs as [|v vs IH]; intros j i Hj Hi; cbn [List.length] in Hj; [lia|]. cbn [flat_map]. destruct j as [|j].
  - rewrite Nat.mul_0_r. cbn [plus nth]. rewrite app_nth1; auto. rewrite L. auto.
  - rewrite app_nth2 by (rewrite L; nia). rewrite L. replace (k * S j + i - k)%nat with (k * j + i)%nat by nia. cbn [nth]. apply IH; auto. lia.
Qed.
Lemma blocks_length {A B} (f : A -> list B) (k : nat) vs : (forall v, List.length (f v) = k) -> List.length (flat_map f vs) = (k * List.length vs)%nat.
Proof. intros L. induction vs as [|v vs IH]; cbn [flat_map List.length]; [lia|]. rewrite app_length, IH, L. nia. Qed.
Lemma nth_decimals n v : 1 <= v <= n -> nth (Z.to_nat (v - 1)) (decimals n) [] = str_Z v.
Proof.
  intros H. unfold decimals. rewrite (nth_indep _ [] (str_Z 0)) by (rewrite map_length, range_length; lia). rewrite map_nth. f_equal.
  unfold range. rewrite (nth_indep _ 0 (1 + Z.of_nat 0)) by (rewrite map_length, seq_length; lia). change (1 + Z.of_nat 0) with ((fun j => 1 + Z.of_nat j) 0%nat). rewrite map_nth, seq_nth by lia. lia.
Qed.
Lemma decimals_max n : decimals (Z.max 0 n) = decimals n.
Proof. unfold decimals, range. do 3 f_equal. lia. Qed.
Lemma decimal_position n v : 1 <= v <= n -> position (str_Z v) (decimals n) 1 = Some v.
Proof.
  intros H. rewrite <- (nth_decimals n v H), position_nth; [f_equal; lia|apply decimals_NoDup|]. pose proof (decimals_length n ltac:(lia)). lia.
Qed.
(* the number of the i-th name of the block of v *)
Lemma block_position (f : text -> list text) k n v i w : 0 <= k -> (forall v, Z.of_nat (List.length (f v)) = k) -> NoDup (flat_map f (decimals n)) -> 1 <= v <= n -> 0 <= i < k ->
  nth (Z.to_nat i) (f (str_Z v)) [] = w -> position w (flat_map f (decimals n)) 1 = Some (part k v i).
Proof.
  intros K L N Hv Hi E. pose proof (decimals_length n ltac:(lia)) as LD.
  assert (LF : forall u, List.length (f u) = Z.to_nat k) by (intros u; specialize (L u); lia).
  assert (X : nth (Z.to_nat k * Z.to_nat (v - 1) + Z.to_nat i) (flat_map f (decimals n)) [] = w).
  { rewrite (nth_blocks f (Z.to_nat k) (decimals n) [] [] LF) by lia. rewrite nth_decimals by auto. exact E. }
  rewrite <- X, position_nth; auto.
  - f_equal. unfold part. nia.
  - rewrite (blocks_length f (Z.to_nat k)) by auto. nia.
Qed.
Definition by_numbers (names : list text) (a : assignment) (w : text) : bool := match position w names 1 with Some k => a k | None => false end.
Lemma nth_block p k v i : 0 <= i < k -> nth (Z.to_nat i) (block p k v) [] = new_variable p v i.
Proof.
  intros H. unfold block. rewrite (nth_indep _ [] (block_name p v 0)) by (rewrite map_length, range_length; lia). rewrite map_nth. change block_name with new_variable. f_equal.
  unfold range. rewrite (nth_indep _ 0 (0 + Z.of_nat 0)) by (rewrite map_length, seq_length; lia). change (0 + Z.of_nat 0) with ((fun j => 0 + Z.of_nat j) 0%nat). rewrite map_nth, seq_nth by lia. lia.
Qed.
Section Substituted.
  Variables (n : Z) (F0 : list (list Z)).
  Hypothesis n_pos : 0 <= n.
  Hypothesis range0 : over n F0.
  Let c := mkCnf (decimals n) F0.
  Lemma input_well : well c.
  Proof. split; [apply decimals_NoDup|]. intros cl l Hc Hl. cbn [c cn_names]. rewrite decimals_length by auto. eapply range0; eauto. Qed.
  Lemma input_made : made c.
  Proof. apply made_of_numbers; apply input_well. Qed.
  Lemma input_true b : cnf_true b F0 <-> all_hold (by_numbers (decimals n) b) (cnf_clauses c).
  Proof. exact (names_numbers c b input_well). Qed.
  Lemma input_value b v : 1 <= v <= n -> by_numbers (decimals n) b (str_Z v) = b v.
  Proof. intros H. unfold by_numbers. rewrite decimal_position by auto. reflexivity. Qed.
  Lemma input_name w : In w (cn_names c) -> exists v, 1 <= v <= n /\ w = str_Z v.
  Proof. cbn [c cn_names]. unfold decimals. intros H. apply in_map_iff in H as (v & <- & Hv). apply range_In in Hv. exists v. split; auto. lia. Qed.
  Lemma replaced_numbers prefix k (P : (Z -> bool) -> Prop) F : 1 <= k -> replaced_by c prefix k P F -> faithful c prefix k F -> cn_names F = flat_map (block prefix k) (cn_names c) ->
    (forall x y, (forall i, 0 <= i < k -> x i = y i) -> P x -> P y) ->
    Z.of_nat (List.length (cn_names F)) = k * n /\ (satisfiable (cn_clauses F) <-> satisfiable F0) /\
    forall a b, (forall v, 1 <= v <= n -> (b v = true <-> P (fun i => a (part k v i)))) -> (cnf_true a (cn_clauses F) <-> cnf_true b F0).
  Proof.
    intros K [MF NM ME] [FN FC FM] ON PE. pose proof (made_well F MF) as WF. split; [rewrite FC; cbn [c cn_names]; rewrite decimals_length by auto; reflexivity|]. split.
    - rewrite (same_satisfiable F WF), FM. symmetry. exact (same_satisfiable c input_well).
    - intros a b H. rewrite (input_true b). change (cnf_true a (cn_clauses F) <-> all_hold (by_numbers (decimals n) b) (cnf_clauses c)).
      etransitivity; [exact (names_numbers F a WF)|]. apply ME. intros w Hw. apply input_name in Hw as (v & Hv & ->). rewrite input_value by auto. rewrite (H v Hv).
      assert (Q : forall i, 0 <= i < k -> match position (new_variable prefix (str_Z v) i) (cn_names F) 1 with Some j => a j | None => false end = a (part k v i)).
      { intros i Hi. rewrite ON. cbn [c cn_names]. rewrite (block_position (block prefix k) k n v i); auto; try lia.
        - intros u. apply block_length. lia.
        - change (decimals n) with (cn_names c). rewrite <- ON. apply WF.
        - apply nth_block. auto. }
      split; apply PE; intros i Hi; [symmetry|]; apply Q; auto.
  Qed.
End Substituted.
Section Lifted.
  Variables (n k : Z) (F0 : list (list Z)).
  Hypothesis n_pos : 0 <= n.
  Hypothesis range0 : over n F0.
  Hypothesis k_pos : 1 <= k.
  Let c := mkCnf (decimals n) F0.
  Lemma lift_length v : Z.of_nat (List.length (lift_block k v)) = 2 * k.
  Proof. unfold lift_block. rewrite app_length. pose proof (block_length (txt "Y_") k v). pose proof (block_length (txt "X_") k v). lia. Qed.
  Lemma nth_selector v i : 0 <= i < k -> nth (Z.to_nat i) (lift_block k v) [] = new_variable (txt "Y_") v i.
  Proof. intros H. unfold lift_block. rewrite app_nth1; [apply nth_block; auto|]. pose proof (block_length (txt "Y_") k v). lia. Qed.
  Lemma nth_value v i : 0 <= i < k -> nth (Z.to_nat (k + i)) (lift_block k v) [] = new_variable (txt "X_") v i.
  Proof.
    intros H. unfold lift_block. pose proof (block_length (txt "Y_") k v) as L. rewrite app_nth2 by lia. replace (Z.to_nat (k + i) - List.length (block (txt "Y_") k v))%nat with (Z.to_nat i) by lia. apply nth_block; auto.
  Qed.
  Lemma lifted_numbers : exists F, FormulaLifting c k = Ok F /\ well F /\ Z.of_nat (List.length (cn_names F)) = 2 * k * n /\ (satisfiable (cn_clauses F) <-> satisfiable F0) /\
    forall a b, (forall v, 1 <= v <= n -> (b v = true <-> exists s, selected a k v s /\ a (part (2 * k) v (k + s)) = true)) ->
      (cnf_true a (cn_clauses F) <-> (forall v, 1 <= v <= n -> exists s, selected a k v s) /\ cnf_true b F0).
  Proof.
    pose proof (input_made n F0 n_pos range0) as M. fold c in M. destruct (lift_all c k M) as (F & E & MF & NF & ME & SF). pose proof (made_well F MF) as WF. pose proof (lift_order c k F M k_pos E) as ON.
    exists F. split; auto. split; auto. split; [|split].
    - rewrite ON. rewrite (blocks_length (lift_block k) (Z.to_nat (2 * k))) by (intros v; pose proof (lift_length v); lia). cbn [c cn_names]. pose proof (decimals_length n n_pos). nia.
    - rewrite (same_satisfiable F WF), (SF k_pos). symmetry. exact (same_satisfiable c (input_well n F0 n_pos range0)).
    - intros a b H. set (a' := fun w => match position w (cn_names F) 1 with Some j => a j | None => false end).
      assert (ND : NoDup (flat_map (lift_block k) (decimals n))) by (change (decimals n) with (cn_names c); rewrite <- ON; apply WF).
      assert (YS : forall v i, 1 <= v <= n -> 0 <= i < k -> a' (new_variable (txt "Y_") (str_Z v) i) = a (part (2 * k) v i)).
      { intros v i Hv Hi. unfold a'. rewrite ON. cbn [c cn_names]. rewrite (block_position (lift_block k) (2 * k) n v i); auto; try lia; [apply lift_length|apply nth_selector; auto]. }
      assert (XS : forall v i, 1 <= v <= n -> 0 <= i < k -> a' (new_variable (txt "X_") (str_Z v) i) = a (part (2 * k) v (k + i))).
      { intros v i Hv Hi. unfold a'. rewrite ON. cbn [c cn_names]. rewrite (block_position (lift_block k) (2 * k) n v (k + i)); auto; try lia; [apply lift_length|apply nth_value; auto]. }
      assert (SE : forall v s, 1 <= v <= n -> (selects a' k (str_Z v) s <-> selected a k v s)).
      { intros v s Hv. unfold selects, selected. split; intros [B G]; (split; [exact B|]); intros i Hi; specialize (G i Hi); rewrite YS in * by auto; exact G. }
      assert (UN : forall v s s', selected a k v s -> selected a k v s' -> s = s').
      { intros v s s' [B G] [B' G']. apply (G' s B). apply (G s B). auto. }
      assert (VAL : forall v s, 1 <= v <= n -> selected a k v s -> b v = a' (new_variable (txt "X_") (str_Z v) s)).
      { intros v s Hv Hs. rewrite XS by (auto; apply Hs). apply eq_true_iff_eq. rewrite (H v Hv). split; [intros (s' & Hs' & K)|eauto]. rewrite (UN v s s'); auto. }
      etransitivity; [exact (names_numbers F a WF)|]. fold a'. rewrite (ME a'). split.
      + intros (s & Hs & K). split.
        * intros v Hv. exists (s (str_Z v)). apply SE; auto. apply Hs. cbn [c cn_names]. unfold decimals. apply in_map. apply range_In. lia.
        * apply (input_true n F0 n_pos range0). intros cl Hc. specialize (K cl Hc). revert K. apply clause_holds_ext. intros p w Hw.
          assert (W : In w (cn_names c)) by (eapply made_names; eauto). destruct (input_name n F0 w W) as (v & Hv & ->). rewrite input_value by auto.
          symmetry. apply VAL; auto. apply SE; auto.
      + intros [A K]. destruct (choose_values (cn_names c) (fun w s => selects a' k w s) 0) as (s & Hs).
        { intros w W. destruct (input_name n F0 w W) as (v & Hv & ->). destruct (A v Hv) as (s & Hs). exists s. apply SE; auto. }
        exists s. split; auto. pose proof (proj1 (input_true n F0 n_pos range0 b) K) as K'. intros cl Hc. specialize (K' cl Hc). revert K'. apply clause_holds_ext. intros p w Hw.
        assert (W : In w (cn_names c)) by (eapply made_names; eauto). destruct (input_name n F0 w W) as (v & Hv & ->). rewrite input_value by auto. apply VAL; auto. apply SE; auto.
  Qed.
End Lifted.
Section Compressed.
  Variables (n : Z) (F0 : list (list Z)) (b : bipartite) (majority : bool).
  Hypothesis n_pos : 0 <= n.
  Hypothesis range0 : over n F0.
  Hypothesis graph_b : bipartite_graph b.
  Hypothesis size_b : Z.of_nat (List.length (b_right b)) = n.
  Let c := mkCnf (decimals n) F0.
  Lemma places us : (forall u, In u us -> In u (b_left b)) -> exists ks, Forall2 (fun u k => place u (b_left b) k) us ks.
  Proof.
    induction us as [|u us IH]; intros H; [exists []; constructor|]. destruct IH as (ks & K); [intros; apply H; right; auto|]. destruct (In_nth_error _ _ (H u (or_introl eq_refl))) as (i & Hi).
    exists (1 + Z.of_nat i :: ks). constructor; auto. exists i. auto.
  Qed.
  Lemma places_value a us ks : Forall2 (fun u k => place u (b_left b) k) us ks ->
    how_many a ks = how_many (fun u => match position (compressed_variable u) (map compressed_variable (b_left b)) 1 with Some j => a j | None => false end) us /\ List.length ks = List.length us.
  Proof.
    assert (ND : NoDup (map compressed_variable (b_left b))). { apply NoDup_map_in; [apply (bg_left b graph_b)|]. intros x y _ _ K. rewrite <- !compressed_name in K. apply name1_inj in K. auto. }
    induction 1 as [|u k us ks (i & Hi & ->) K IH]; [split; reflexivity|]. destruct IH as [IH1 IH2]. split; [|cbn; congruence].
    assert (P : position (compressed_variable u) (map compressed_variable (b_left b)) 1 = Some (1 + Z.of_nat i)).
    { rewrite <- (nth_error_nth _ _ [] (map_nth_error compressed_variable _ _ Hi)). apply position_nth; auto. rewrite map_length. eapply nth_error_Some_length; eauto. }
    unfold how_many in *. cbn [filter]. rewrite P. destruct (a (1 + Z.of_nat i)); cbn [List.length]; lia.
  Qed.
  Lemma compressed_same a v : 1 <= v <= n ->
    (compressed_value majority b a v <-> compressed_true majority b (fun w => match position w (map compressed_variable (b_left b)) 1 with Some j => a j | None => false end) (nth (Z.to_nat (v - 1)) (b_right b) 0)).
  Proof.
    intros Hv. unfold compressed_value, compressed_true. cbv zeta. fold (around b v). split.
    - intros (ks & K & G). destruct (places_value a _ _ K) as [E1 E2]. rewrite E1, E2 in G. exact G.
    - intros G. destruct (places (around b v)) as (ks & K).
      { intros u Hu. unfold around in Hu. apply in_map_iff in Hu as ([x y] & <- & Hu). apply filter_In in Hu as [Hu _]. apply (bg_ends b graph_b) in Hu. tauto. }
      exists ks. split; auto. destruct (places_value a _ _ K) as [E1 E2]. rewrite E1, E2. exact G.
  Qed.
  Lemma compressed_numbers : exists F, VariableCompression c b (if majority then txt "maj" else txt "xor") = Ok F /\ well F /\ Z.of_nat (List.length (cn_names F)) = Z.of_nat (List.length (b_left b)) /\
    forall a f, (forall v, 1 <= v <= n -> (f v = true <-> compressed_value majority b a v)) -> (cnf_true a (cn_clauses F) <-> cnf_true f F0).
  Proof.
    pose proof (input_made n F0 n_pos range0) as M. fold c in M. pose proof (decimals_length n n_pos) as LD.
    destruct (compress_all_ok c b (if majority then txt "maj" else txt "xor") M graph_b) as (F & E & MF & NF & ME); [cbn [c cn_names]; lia|destruct majority; auto|].
    replace (negb (text_eqb (if majority then txt "maj" else txt "xor") (txt "xor"))) with majority in ME by (destruct majority; reflexivity).
    pose proof (made_well F MF) as WF. exists F. split; auto. split; auto. split; [rewrite NF, map_length; reflexivity|].
    intros a f H. etransitivity; [exact (names_numbers F a WF)|]. rewrite (input_true n F0 n_pos range0 f). apply ME. intros i w r Hw Hr. rewrite NF.
    assert (Li : (i < List.length (decimals n))%nat) by (eapply nth_error_Some_length; eauto). cbn [c cn_names] in Hw.
    assert (Ew : w = str_Z (Z.of_nat i + 1)). { rewrite <- (nth_decimals n (Z.of_nat i + 1)) by lia. replace (Z.to_nat (Z.of_nat i + 1 - 1)) with i by lia. symmetry. apply nth_error_nth. auto. }
    rewrite Ew, input_value by lia. rewrite H by lia. rewrite compressed_same by lia. replace (Z.to_nat (Z.of_nat i + 1 - 1)) with i by lia. rewrite (nth_error_nth _ _ 0 Hr). tauto.
  Qed.
End Compressed.
(* a transformation that is not a shuffle *)
Lemma transform_numbers t n F0 : 0 <= n -> over n F0 -> proper t n -> ~ is_shuffle t ->
  exists F, transform t (mkCnf (decimals n) F0) = Ok F /\ well F /\ Z.of_nat (List.length (cn_names F)) = new_size t n /\
    (~ compresses t -> (satisfiable (cn_clauses F) <-> satisfiable F0)) /\
    forall a b, (forall v, 1 <= v <= n -> (b v = true <-> value_of t a v)) -> (cnf_true a (cn_clauses F) <-> admissible t n a /\ cnf_true b F0).
Proof.
  intros N O P NS. set (c := mkCnf (decimals n) F0). pose proof (input_made n F0 N O) as M. fold c in M.
  assert (COMMON : forall prefix k Q F, transform t c = Ok F -> 1 <= k -> replaced_by c prefix k Q F -> faithful c prefix k F -> cn_names F = flat_map (block prefix k) (cn_names c) ->
    (forall x y, (forall i, 0 <= i < k -> x i = y i) -> Q x -> Q y) -> new_size t n = k * n -> (forall a v, value_of t a v <-> Q (fun i => a (part k v i))) -> (forall a, admissible t n a) ->
    exists F, transform t c = Ok F /\ well F /\ Z.of_nat (List.length (cn_names F)) = new_size t n /\
    (~ compresses t -> (satisfiable (cn_clauses F) <-> satisfiable F0)) /\
    forall a b, (forall v, 1 <= v <= n -> (b v = true <-> value_of t a v)) -> (cnf_true a (cn_clauses F) <-> admissible t n a /\ cnf_true b F0)).
  { intros prefix k Q F E K R FA ON EX SZ VA AD. exists F. split; auto. split; [apply made_well; apply R|]. destruct (replaced_numbers n F0 N O prefix k Q F K R FA ON EX) as (L & S1 & ME).
    split; [lia|]. split; auto. intros a b H. rewrite (ME a b); [specialize (AD a); tauto|]. intros v Hv. rewrite <- VA. apply H; auto. }
  assert (TE : forall k x y, (forall i, 0 <= i < k -> x i = y i) -> trues k x = trues k y) by (intros; apply trues_ext; auto).
  destruct t as [|k|k|k|k|k| |k|k| |b|b|s]; cbn [proper] in P.
  - exists c. split; [reflexivity|]. split; [apply made_well; auto|]. split; [cbn [c cn_names new_size]; apply decimals_length; auto|]. split; [intros _; reflexivity|]. intros a b H. cbn [value_of admissible] in *.
    assert (E : forall x y, (forall v, 1 <= v <= n -> (x v = true <-> y v = true)) -> cnf_true x F0 -> cnf_true y F0).
    { intros x y K T cl Hc. destruct (T cl Hc) as (l & Hl & E). exists l. split; auto. specialize (O cl l Hc Hl). rewrite <- E. unfold lit_true. destruct (Z.ltb_spec l 0); [f_equal|]; apply eq_true_iff_eq; symmetry; apply K; lia. }
    split; [intros T; split; auto; revert T|intros [_ T]; revert T]; apply E; intros v Hv; rewrite (H v Hv); tauto.
  - destruct (or_all c k M) as (F & E & R & FA). eapply (COMMON [] k); [exact E|auto|exact R|auto|apply or_order; auto| |reflexivity|intros; cbn [value_of]; reflexivity|cbn; auto].
    intros x y H (i & Hi & K). exists i. rewrite <- H; auto.
  - destruct (xor_all c k M) as (F & E & R & FA). eapply (COMMON [] k); [exact E|auto|exact R|auto|apply xor_order; auto| |reflexivity|intros; cbn [value_of]; reflexivity|cbn; auto].
    intros x y H K. cbv beta in *. rewrite <- (TE k x y H). auto.
  - destruct (eq_all c k M) as (F & E & R & FA). eapply (COMMON [] k); [exact E|lia|exact R|auto|apply eq_order; auto| |reflexivity|intros; cbn [value_of]; reflexivity|cbn; auto].
    cbv beta. intros x y H K i j Hi Hj. rewrite <- !H; auto.
  - destruct (neq_all c k M) as (F & E & R & FA). eapply (COMMON [] k); [exact E|lia|exact R|auto|apply neq_order; auto| |reflexivity|intros; cbn [value_of]; reflexivity|cbn; auto].
    intros x y H (i & j & Hi & Hj & K). exists i, j. rewrite <- !H; auto.
  - destruct (maj_all c k M) as (F & E & R & FA). eapply (COMMON [] k); [exact E|auto|exact R|auto|apply maj_order; auto| |reflexivity|intros; cbn [value_of]; reflexivity|cbn; auto].
    intros x y H K. cbv beta in *. rewrite <- (TE k x y H). auto.
  - destruct (ite_all c M) as (F & E & R & FA). eapply (COMMON [] 3); [exact E|lia|exact R|auto|apply ite_order; auto| |reflexivity|intros; cbn [value_of]; reflexivity|cbn; auto].
    intros x y H K. cbv beta in *. rewrite <- !H by lia. exact K.
  - destruct (one_all c k M) as (F & E & R & FA). eapply (COMMON (txt "X_") k); [exact E|auto|exact R|auto|apply one_order; auto| |reflexivity|intros; cbn [value_of]; reflexivity|cbn; auto].
    intros x y H K. cbv beta in *. rewrite <- (TE k x y H). auto.
  - destruct (lifted_numbers n k F0 N O P) as (F & E & W & L & S1 & ME). exists F. split; auto.
  - destruct (flip_all c M) as (F & E & MF & NF & CF). pose proof (made_well F MF) as WF. exists F. split; auto. split; auto. split; [rewrite NF; cbn [c cn_names new_size]; apply decimals_length; auto|].
    assert (ME : forall a b, (forall v, 1 <= v <= n -> (b v = true <-> a v = false)) -> (cnf_true a (cn_clauses F) <-> cnf_true b F0)).
    { intros a b H. etransitivity; [exact (names_numbers F a WF)|]. rewrite (input_true n F0 N O b). fold c. rewrite NF, CF. cbn [c cn_names].
      assert (V : forall w, In w (cn_names c) -> by_numbers (decimals n) b w = negb (by_numbers (decimals n) a w)).
      { intros w W. destruct (input_name n F0 w W) as (v & Hv & ->). rewrite !input_value by auto. specialize (H v Hv). destruct (a v), (b v); cbn; auto; destruct H as [H1 H2]; [specialize (H1 eq_refl); discriminate|specialize (H2 eq_refl); discriminate]. }
      fold (by_numbers (decimals n) a). split.
      - intros K cl Hc. destruct (K (map (fun l => (negb (fst l), snd l)) cl)) as (p & w & Hw & T); [apply in_map; auto|]. apply in_map_iff in Hw as ([q u] & Eq & Hw). cbn in Eq. injection Eq as <- <-. exists q, u. split; auto.
        rewrite V by (eapply made_names; eauto). change (by_numbers (decimals n) a u = negb q) in T. rewrite T. apply negb_involutive.
      - intros K cl' Hc. apply in_map_iff in Hc as (cl & <- & Hc). destruct (K cl Hc) as (q & u & Hw & T). exists (negb q), u. split; [apply in_map_iff; exists (q, u); auto|].
        rewrite V in T by (eapply made_names; eauto). change (by_numbers (decimals n) a u = negb q). rewrite <- T. symmetry. apply negb_involutive. }
    split; [|intros a b H; rewrite (ME a b H); cbn [admissible]; tauto]. intros _. split.
    + intros (a & K). exists (fun v => negb (a v)). apply (ME a); auto. intros v Hv. destruct (a v); cbn; split; auto; discriminate.
    + intros (a & K). exists (fun v => negb (a v)). apply (ME _ a); auto. intros v Hv. destruct (a v); cbn; split; auto; discriminate.
  - destruct P as [B L]. destruct (compressed_numbers n F0 b false N O B L) as (F & E & W & LF & ME). exists F. split; [cbn [transform]; unfold c; rewrite E; reflexivity|]. split; auto. split; auto. split; [intros C; exfalso; apply C; exists b; auto|].
    intros a f H. rewrite (ME a f H). cbn [admissible]. tauto.
  - destruct P as [B L]. destruct (compressed_numbers n F0 b true N O B L) as (F & E & W & LF & ME). exists F. split; [cbn [transform]; unfold c; rewrite E; reflexivity|]. split; auto. split; auto. split; [intros C; exfalso; apply C; exists b; auto|].
    intros a f H. rewrite (ME a f H). cbn [admissible]. tauto.
  - exfalso. apply NS. exists s. auto.
Qed.
