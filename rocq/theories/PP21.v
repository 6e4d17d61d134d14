(* PP21.v -- random formulas and transformations of the bundled generator (C78-C80): statements and proofs. *)
From Coq Require Import String Ascii ZArith List Bool Lia Sorted Permutation.
From Verif Require Import Spec PyBase MSet MText MCnf MFam MTrans SpecCnf SpecFam SpecTrans PLib PCnf1 PCnf2 PFam1 PFam2 PFam4 PTrans1 PTrans2 PTrans3 PTrans4 PTrans5 PTrans6 PTrans7.
Import ListNotations.
Open Scope Z_scope.

(* C78: RandomKCNF(k, n, m, planted_assignments) refuses negative numbers and clauses wider than the variables *)
Lemma p_C78_arguments : forall R k n m planted, n < 0 \/ m < 0 \/ k < 0 \/ n < k -> RandomKCNF R k n m planted = Err ValueError.
Proof.
  intros R k n m planted H. unfold RandomKCNF. destruct ((n <? 0) || (m <? 0) || (k <? 0)) eqn:E; auto. apply orb_false_iff in E as [E E3]. apply orb_false_iff in E as [E1 E2]. apply Z.ltb_ge in E1, E2, E3.
  replace (n <? k) with true; auto. symmetry. apply Z.ltb_lt. lia.
Qed.
(* C78: whatever is drawn, it returns a formula over x_1 .. x_n with m different clauses of k literals, every one made true
   by every planted assignment; it gives up with ValueError only if there are not so many such clauses *)
Lemma p_C78_random_formula : forall R k n m planted, lawful R -> 0 <= k <= n -> 0 <= m ->
  (exists c, RandomKCNF R k n m planted = Ok c /\ made c /\ cn_names c = map (fun i => txt "x_" ++ str_Z i) (range 1 (n + 1)) /\
     NoDup (cnf_clauses c) /\ Z.of_nat (List.length (cnf_clauses c)) = m /\ (forall cl, In cl (cnf_clauses c) -> k_clause k n planted cl)) \/
  (RandomKCNF R k n m planted = Err ValueError /\
     forall L, NoDup L -> (forall cl, In cl L -> k_clause k n planted cl) -> Z.of_nat (List.length L) < m).
Proof.
  intros R k n m planted W Hk Hm. unfold RandomKCNF.
  replace ((n <? 0) || (m <? 0) || (k <? 0)) with false by (symmetry; rewrite !orb_false_iff; repeat split; apply Z.ltb_ge; lia).
  replace (n <? k) with false by (symmetry; apply Z.ltb_ge; lia). cbv zeta.
  destruct (sample_ok R (Z.to_nat k) n (Z.to_nat m) planted W) as [[LT E]|(GE & L & E & LL & NL & H)]; [lia| |]; rewrite E.
  - right. split; auto. intros L NL HL. assert (I : incl L (all_clauses (Z.to_nat k) (range 1 (n + 1)) planted)).
    { intros cl Hc. apply all_clauses_In. apply k_clause_shape; [lia|auto]. }
    pose proof (NoDup_incl_length NL I). lia.
  - left. destruct (random_built (Z.to_nat k) n L) as (c & EC & MC & NC & CC); [intros x Hx; apply H; auto|]. rewrite EC. exists c. split; auto. split; auto. split; auto. rewrite CC. split; auto. split; [lia|].
    intros cl Hc. apply k_clause_shape; [lia|auto].
Qed.
(* C78: without planted assignments: it succeeds exactly when m is at most the number of choices of k variables times 2^k *)
Lemma p_C78_how_many : forall R k n m, lawful R -> 0 <= k <= n -> 0 <= m ->
  ((exists c, RandomKCNF R k n m [] = Ok c) <-> m <= binomial (Z.to_nat n) (Z.to_nat k) * 2 ^ k).
Proof.
  intros R k n m W Hk Hm. pose proof (all_clauses_count (Z.to_nat k) n ltac:(lia)) as A. rewrite Z2Nat.id in A by lia. rewrite <- A.
  assert (AC : forall cl, In cl (all_clauses (Z.to_nat k) (range 1 (n + 1)) []) <-> k_clause k n [] cl) by (intros cl; rewrite all_clauses_In, k_clause_shape by lia; tauto).
  destruct (p_C78_random_formula R k n m [] W Hk Hm) as [(c & E & M & N & ND & LN & H)|(E & H)]; rewrite E.
  - split; eauto. intros _. rewrite <- LN. apply Nat2Z.inj_le. apply NoDup_incl_length; auto. intros cl Hc. apply AC. auto.
  - split; [intros (c & K); discriminate|]. intros K. exfalso. specialize (H _ (all_clauses_NoDup (Z.to_nat k) n []) (fun cl Hc => proj1 (AC cl) Hc)). lia.
Qed.
(* C78: every such list of clauses can be drawn *)
Lemma p_C78_every_outcome : forall k n L planted, 0 <= k <= n -> NoDup L -> (forall cl, In cl L -> k_clause k n planted cl) ->
  exists R c, lawful R /\ RandomKCNF R k n (Z.of_nat (List.length L)) planted = Ok c /\ cnf_clauses c = L.
Proof.
  intros k n L planted Hk NL HL. destruct (forced_sample (Z.to_nat k) n L planted NL) as (R & W & E); [intros x Hx; apply k_clause_shape; [lia|auto]|].
  destruct (random_built (Z.to_nat k) n L) as (c & EC & MC & NC & CC); [intros x Hx; apply (k_clause_shape k n planted x); [lia|auto]|].
  exists R, c. split; auto. split; auto. unfold RandomKCNF.
  replace ((n <? 0) || (Z.of_nat (List.length L) <? 0) || (k <? 0)) with false by (symmetry; rewrite !orb_false_iff; repeat split; apply Z.ltb_ge; lia).
  replace (n <? k) with false by (symmetry; apply Z.ltb_ge; lia). cbv zeta. rewrite Nat2Z.id, E, EC. auto.
Qed.
(* C78: a planted assignment, however it is completed, satisfies the formula *)
Lemma p_C78_planted : forall R k n m planted c asg a, lawful R -> RandomKCNF R k n m planted = Ok c ->
  In asg planted -> (forall v b, asg v = Some b -> a v = b) -> all_hold a (cnf_clauses c).
Proof.
  intros R k n m planted c asg a W E Ha Hx.
  assert (D : 0 <= k <= n /\ 0 <= m).
  { destruct (Z_lt_dec n 0), (Z_lt_dec m 0), (Z_lt_dec k 0), (Z_lt_dec n k); try (rewrite p_C78_arguments in E by lia; discriminate). lia. }
  destruct (p_C78_random_formula R k n m planted W (proj1 D) (proj2 D)) as [(c' & E' & _ & _ & _ & _ & H)|(E' & _)]; [|congruence]. rewrite E in E'. injection E' as <-.
  intros cl Hc. destruct (kc_planted _ _ _ _ (H cl Hc) asg Ha) as (p & v & Hl & K). exists p, v. auto.
Qed.
(*EX
(* two clauses over x_1, x_2, both satisfied by x_1 = true, x_2 = false *)
Definition drawn : list (list (bool * text)) := [[(true, txt "x_1"); (true, txt "x_2")]; [(false, txt "x_1"); (false, txt "x_2")]].
Definition plan : partial := fun v => if text_eqb v (txt "x_1") then Some true else if text_eqb v (txt "x_2") then Some false else None.
Lemma drawn_clauses : NoDup drawn /\ forall cl, In cl drawn -> k_clause 2 2 [plan] cl.
Proof.
  split; [unfold drawn; constructor; [intros [H|[]]; discriminate H|constructor; [intros []|constructor]]|].
  intros cl H. split.
  - exists [1; 2]. split; [repeat constructor; lia|]. split; [intros i [<-|[<-|[]]]; lia|]. split; [reflexivity|]. destruct H as [<-|[<-|[]]]; reflexivity.
  - intros asg [<-|[]]. destruct H as [<-|[<-|[]]].
    + exists true, (txt "x_1"). split; [left; reflexivity|reflexivity].
    + exists false, (txt "x_2"). split; [right; left; reflexivity|reflexivity].
Qed.
Example C78_applies :
  (exists R c, lawful R /\ RandomKCNF R 2 2 2 [plan] = Ok c /\ cnf_clauses c = drawn) /\
  (forall R, lawful R -> (exists c, RandomKCNF R 2 3 12 [] = Ok c) /\ RandomKCNF R 2 3 13 [] = Err ValueError).
Proof.
  split; [apply (C78_every_outcome 2 2 drawn [plan] ltac:(lia) (proj1 drawn_clauses) (proj2 drawn_clauses))|]. intros R W. split.
  - apply (C78_how_many R 2 3 12 W ltac:(lia) ltac:(lia)). vm_compute. discriminate.
  - destruct (C78_random_formula R 2 3 13 [] W ltac:(lia) ltac:(lia)) as [(c & E & _)|(E & _)]; auto. exfalso.
    pose proof (proj1 (C78_how_many R 2 3 13 W ltac:(lia) ltac:(lia)) (ex_intro _ c E)) as K. vm_compute in K. auto.
Qed.
EX*)

(* C79: the substitutions: OR, loose majority, XOR, "all equal", "not all equal", "exactly one", if-then-else *)
Lemma p_C79_or : forall c rank, made c -> exists F, OrSubstitution c rank = Ok F /\
  replaced_by c [] rank (fun x => exists i, 0 <= i < rank /\ x i = true) F /\ (1 <= rank -> faithful c [] rank F).
Proof. exact or_all. Qed.
(* C79: at least half of the variables *)
Lemma p_C79_majority : forall c rank, made c -> exists F, MajoritySubstitution c rank = Ok F /\
  replaced_by c [] rank (fun x => rank <= 2 * trues rank x) F /\ (1 <= rank -> faithful c [] rank F).
Proof. exact maj_all. Qed.
(* C79: an odd number of the variables *)
Lemma p_C79_xor : forall c rank, made c -> exists F, XorSubstitution c rank = Ok F /\
  replaced_by c [] rank (fun x => Z.Odd (trues rank x)) F /\ (1 <= rank -> faithful c [] rank F).
Proof. exact xor_all. Qed.
(* C79: all the variables have the same value *)
Lemma p_C79_all_equal : forall c rank, made c -> exists F, AllEqualSubstitution c rank = Ok F /\
  replaced_by c [] rank (fun x => forall i j, 0 <= i < rank -> 0 <= j < rank -> x i = x j) F /\ (2 <= rank -> faithful c [] rank F).
Proof. exact eq_all. Qed.
(* C79: two of the variables differ *)
Lemma p_C79_not_all_equal : forall c rank, made c -> exists F, NotAllEqualSubstitution c rank = Ok F /\
  replaced_by c [] rank (fun x => exists i j, 0 <= i < rank /\ 0 <= j < rank /\ x i <> x j) F /\ (2 <= rank -> faithful c [] rank F).
Proof. exact neq_all. Qed.
(* C79: exactly one of the variables X_{v}^i is true *)
Lemma p_C79_exactly_one : forall c rank, made c -> exists F, ExactlyOneSubstitution c rank = Ok F /\
  replaced_by c (txt "X_") rank (fun x => trues rank x = 1) F /\ (1 <= rank -> faithful c (txt "X_") rank F).
Proof. exact one_all. Qed.
(* C79: if {v}^0 then {v}^1 else {v}^2 *)
Lemma p_C79_if_then_else : forall c, made c -> exists F, IfThenElseSubstitution c = Ok F /\
  replaced_by c [] 3 (fun x => if x 0 then x 1 = true else x 2 = true) F /\ faithful c [] 3 F.
Proof. exact ite_all. Qed.
(* C79: FlipPolarity keeps the variables and negates every literal *)
Lemma p_C79_flip : forall c, made c -> exists F, FlipPolarity c = Ok F /\ made F /\ cn_names F = cn_names c /\
  cnf_clauses F = map (map (fun l => (negb (fst l), snd l))) (cnf_clauses c).
Proof. exact flip_all. Qed.
(* C79: FormulaLifting: exactly one selector Y_{v}^s is true, and v has the value of X_{v}^s *)
Lemma p_C79_lifting : forall c rank, made c -> exists F, FormulaLifting c rank = Ok F /\ made F /\
  (forall w, In w (cn_names F) <-> exists v i, In v (cn_names c) /\ 0 <= i < rank /\ (w = new_variable (txt "X_") v i \/ w = new_variable (txt "Y_") v i)) /\
  (forall a, all_hold a (cnf_clauses F) <->
     exists s, (forall v, In v (cn_names c) -> selects a rank v (s v)) /\ all_hold (fun v => a (new_variable (txt "X_") v (s v))) (cnf_clauses c)) /\
  (1 <= rank -> (has_model (cnf_clauses F) <-> has_model (cnf_clauses c))).
Proof. exact lift_all. Qed.
(* C79: VariableCompression by a bipartite graph, XOR or majority; anything else is a ValueError *)
Lemma p_C79_compression : forall c b function, made c -> bipartite_graph b ->
  (function <> txt "xor" /\ function <> txt "maj" -> VariableCompression c b function = Err ValueError) /\
  (List.length (b_right b) <> List.length (cn_names c) -> VariableCompression c b function = Err ValueError) /\
  (forall majority : bool, function = (if majority then txt "maj" else txt "xor") -> List.length (b_right b) = List.length (cn_names c) ->
    exists F, VariableCompression c b function = Ok F /\ made F /\ cn_names F = map compressed_variable (b_left b) /\
      forall a f, (forall i v r, nth_error (cn_names c) i = Some v -> nth_error (b_right b) i = Some r -> (f v = true <-> compressed_true majority b a r)) ->
        (all_hold a (cnf_clauses F) <-> all_hold f (cnf_clauses c))).
Proof.
  intros c b function M B. split; [|split].
  - intros [H1 H2]. unfold VariableCompression. destruct (text_eqb_spec function (txt "xor")); [contradiction|]. destruct (text_eqb_spec function (txt "maj")); [contradiction|]. reflexivity.
  - intros H. unfold VariableCompression. destruct (negb _); auto. apply Nat.eqb_neq in H. rewrite H. reflexivity.
  - intros mj E LN. destruct (compress_all_ok c b function M B LN) as (F & EF & MF & NF & H); [destruct mj; auto|]. exists F. split; auto. split; auto. split; auto.
    replace (negb (text_eqb function (txt "xor"))) with mj in H by (subst function; destruct mj; reflexivity). exact H.
Qed.
(*EX
(* (x or y) and not x *)
Definition small : cnf := mkCnf [txt "x"; txt "y"] [[1; 2]; [-1]].
Lemma small_made : made small.
Proof.
  assert (E : exists c1, add_clause_strict [(true, txt "x"); (true, txt "y")] (add_variable (txt "y") (add_variable (txt "x") empty_cnf)) = Ok c1 /\ add_clause_strict [(false, txt "x")] c1 = Ok small)
    by (eexists; split; reflexivity).
  destruct E as (c1 & E1 & E2). eapply made_clause; [|exact E2]. eapply made_clause; [|exact E1]. repeat constructor.
Qed.
Lemma small_model : has_model (cnf_clauses small).
Proof. exists (text_eqb (txt "y")). intros cl [<-|[<-|[]]]; [exists true, (txt "y")|exists false, (txt "x")]; cbn; auto. Qed.
Lemma small_graph : bipartite_graph (mkBipartite [1; 2] [3; 4] [(1, 3); (2, 3); (2, 4)]).
Proof.
  constructor; cbn [b_left b_right b_edges].
  - repeat (constructor; [cbn; intuition lia|]); constructor.
  - repeat (constructor; [cbn; intuition lia|]); constructor.
  - repeat (constructor; [cbn; intuition congruence|]); constructor.
  - intros u v H; cbn in H |- *; intuition congruence.
  - intros v H K. cbn in H, K. intuition congruence.
Qed.
Example C79_applies :
  (exists F, OrSubstitution small 2 = Ok F /\ cnf_clauses F = [[(true, txt "{x}^0"); (true, txt "{x}^1"); (true, txt "{y}^0"); (true, txt "{y}^1")]; [(false, txt "{x}^0")]; [(false, txt "{x}^1")]]) /\
  (exists F, MajoritySubstitution small 3 = Ok F /\ has_model (cnf_clauses F)) /\
  (exists F, FormulaLifting small 2 = Ok F /\ has_model (cnf_clauses F)) /\
  (exists F, VariableCompression small (mkBipartite [1; 2] [3; 4] [(1, 3); (2, 3); (2, 4)]) (txt "xor") = Ok F /\ cn_names F = [txt "Y_{1}"; txt "Y_{2}"]).
Proof.
  split; [|split; [|split]].
  - eexists. split; reflexivity.
  - destruct (C79_majority small 3 small_made) as (F & E & _ & H). exists F. split; auto. apply (fa_models _ _ _ _ (H ltac:(lia))). apply small_model.
  - destruct (C79_lifting small 2 small_made) as (F & E & _ & _ & _ & H). exists F. split; auto. apply (H ltac:(lia)). apply small_model.
  - destruct (proj2 (proj2 (C79_compression small _ (txt "xor") small_made small_graph)) false eq_refl eq_refl) as (F & E & _ & N & _). exists F. split; auto.
Qed.
EX*)

(* C80: Shuffle with a permutation of the variables, of the clause numbers, and a vector of 1 and -1: the variables are
   renumbered (each keeps its name), the k-th clause goes where the permutation says, with its literals flipped *)
Lemma p_C80_shuffle : forall c variables clauses flip, made c -> Permutation variables (cn_names c) ->
  List.length flip = List.length (cn_names c) -> (forall x, In x flip -> x = 1 \/ x = -1) ->
  Permutation clauses (range 0 (Z.of_nat (List.length (cnf_clauses c)))) ->
  exists F, Shuffle c variables clauses flip = Ok F /\ made F /\ cn_names F = variables /\ List.length (cnf_clauses F) = List.length (cnf_clauses c) /\
    (forall k i cl, nth_error clauses k = Some i -> nth_error (cnf_clauses c) k = Some cl ->
       exists cl', nth_error (cnf_clauses F) (Z.to_nat i) = Some cl' /\ Forall2 (flipped c flip) cl cl') /\
    (has_model (cnf_clauses F) <-> has_model (cnf_clauses c)).
Proof.
  intros c vs cp pf M PV LP PM PC. replace (List.length (cnf_clauses c)) with (List.length (cn_clauses c)) in PC by (unfold cnf_clauses; rewrite map_length; auto).
  destruct (shuffle_ok c vs cp pf M PV LP PM PC) as (F & E & MF & NF & LF & H). exists F. split; auto. split; auto. split; auto. split; auto. split; auto. apply (shuffle_models c F cp pf); auto.
  unfold cnf_clauses. rewrite map_length. auto.
Qed.
(* C80: vectors of the wrong length are refused, and a variable without a place is a KeyError *)
Lemma p_C80_refused : forall c variables clauses flip,
  (List.length variables <> List.length (cn_names c) \/ List.length flip <> List.length (cn_names c) -> Shuffle c variables clauses flip = Err AssertionError) /\
  (List.length variables = List.length (cn_names c) -> List.length flip = List.length (cn_names c) ->
   forall v, In v (cn_names c) -> ~ In v variables -> Shuffle c variables clauses flip = Err KeyError).
Proof.
  intros c vs cp pf. split.
  - intros H. unfold Shuffle. cbv zeta. destruct (Nat.eqb_spec (List.length vs) (List.length (cn_names c))); cbn [negb]; auto. destruct (Nat.eqb_spec (List.length pf) (List.length (cn_names c))); cbn [negb]; auto. lia.
  - intros L1 L2 v Hv NI. unfold Shuffle. cbv zeta. rewrite L1, L2, Nat.eqb_refl. cbn [negb]. rewrite add_variables_names. cbn [empty_cnf cn_names].
    assert (K : mapM (fun v => of_option KeyError (position v (with_new [] vs) 1)) (cn_names c) = Err KeyError); [|rewrite K; reflexivity].
    assert (NW : ~ In v (with_new [] vs)) by (rewrite with_new_In; intros [[]|K]; auto).
    clear L1 L2. revert Hv. induction (cn_names c) as [|w l IH]; intros Hv; [destruct Hv|]. cbn [mapM]. destruct (position w (with_new [] vs) 1) as [p|] eqn:E; cbn [of_option bind]; auto.
    destruct Hv as [->|Hv]; [apply (position_None v (with_new [] vs) 1) in NW; congruence|]. assert (KM := IH Hv). clear IH. rewrite KM. reflexivity.
Qed.
(*EX
Example C80_applies :
  Shuffle small [txt "y"; txt "x"] [1; 0] [1; -1] = Ok (mkCnf [txt "y"; txt "x"] [[-2]; [2; -1]]) /\
  (Permutation [txt "y"; txt "x"] (cn_names small) /\ Permutation [1; 0] (range 0 (Z.of_nat (List.length (cnf_clauses small))))) /\
  Shuffle small [txt "y"; txt "x"] [1; 0] [1] = Err AssertionError /\ Shuffle small [txt "y"; txt "z"] [1; 0] [1; 1] = Err KeyError.
Proof. split; [reflexivity|]. split; [split; [apply perm_swap|apply perm_swap]|]. split; reflexivity. Qed.
EX*)
