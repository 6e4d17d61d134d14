(* PFam8.v -- dominating sets *)
From Coq Require Import String Ascii ZArith List Bool Lia Arith Permutation Sorted.
From Verif Require Import Spec PyBase MSet MText MCnf MFam SpecCnf SpecFam PText PLib PCnf1 PCnf2 PFam1 PFam2 PFam3 PFam4 PFam5 PFam6 PFam7.
Import ListNotations.
Open Scope Z_scope.

Lemma D_inj u v : dom_D u = dom_D v -> u = v.
Proof. apply name1_inj. Qed.
Lemma M_inj u i v j : dom_M u i = dom_M v j -> u = v /\ i = j.
Proof. apply name2_inj. Qed.
Lemma D_not_M u v i : dom_D u <> dom_M v i.
Proof. intros E. discriminate E. Qed.
Lemma set_of_In x l : In x (set_of l) <-> In x l.
Proof.
  induction l as [|y l IH]; [tauto|]. cbn [set_of In]. rewrite filter_In, IH, negb_true_iff. unfold list_zeqb. destruct (list_eq_dec Z.eq_dec y x) as [->|N]; intuition congruence.
Qed.
Lemma replacement_In (l : list Z) i j : StronglySorted Z.lt l -> (In (i, j) (pairs_with_replacement l) <-> In i l /\ In j l /\ i <= j).
Proof.
  induction 1 as [|x l S IH F]; cbn [pairs_with_replacement]; [split; [intros []|intros ([] & _)]|]. rewrite Forall_forall in F.
  change (map (pair x) (x :: l)) with ((x, x) :: map (pair x) l). cbn [app In]. rewrite in_app_iff, in_map_iff, IH. split.
  - intros [E|[(y & E & Hy)|(A & B & C)]]; [injection E as <- <-; split; auto; split; auto; lia| |auto].
    injection E as <- <-. specialize (F y Hy). split; auto. split; auto. lia.
  - intros ([->|A] & [->|B] & C); auto.
    + right. left. eauto.
    + specialize (F i A). lia.
Qed.
Definition dom_clauses (g : graph) (d : Z) (alternative : bool) : list (list (bool * text)) :=
  let V := g_nodes g in let I := range 1 (d + 1) in
    (if alternative
      then flat_map (fun uv => map (fun i => [(false, dom_D (fst uv)); (false, dom_D (snd uv)); (false, dom_M (fst uv) i); (false, dom_M (snd uv) i)]) I) (pairs V)
      else flat_map (fun i => less_or_equal_constraint (map (fun v => dom_M v i) V) 1) I) ++
     (if alternative
      then flat_map (fun v => map (fun ij => [(false, dom_D v); (false, dom_M v (fst ij)); (false, dom_M v (snd ij))]) (pairs I)) V
      else flat_map (fun ij => map (fun uv => [(false, dom_M (Z.max (fst uv) (snd uv)) (Z.min (fst ij) (snd ij)));
                                               (false, dom_M (Z.min (fst uv) (snd uv)) (Z.max (fst ij) (snd ij)))]) (pairs V))
             (pairs_with_replacement I)) ++
     (if alternative then [] else flat_map (fun i => map (fun v => [(false, dom_M v i); (true, dom_D v)]) V) I) ++
     map (fun v => (false, dom_D v) :: map (fun i => (true, dom_M v i)) I) V ++
     map (fun n => map (fun v => (true, dom_D v)) n) (sort_by list_ltb (set_of (map (closed_neighborhood g) V))).
Lemma closed_In g u v : simple_graph g -> (In u (closed_neighborhood g v) <-> u = v \/ adjacent g u v).
Proof.
  intros G. unfold closed_neighborhood. rewrite sorted_In. cbn [In]. rewrite neighbors_In by auto. rewrite adjacent_sym. intuition.
Qed.
Lemma closed_NoDup g v : simple_graph g -> NoDup (closed_neighborhood g v).
Proof.
  intros G. apply sorted_NoDup. constructor; [|apply neighbors_NoDup; auto]. intros K. apply neighbors_In in K; auto. apply (adjacent_neq g v v G K). auto.
Qed.
Lemma dom_clean g d alt cl : simple_graph g -> In cl (dom_clauses g d alt) -> clean cl.
Proof.
  intros G H. pose proof (sg_nodes g G) as N. unfold dom_clauses in H. cbv zeta in H. repeat (apply in_app_iff in H as [H|H]).
  - destruct alt.
    + apply in_flat_map in H as ([u v] & Hp & H). apply in_map_iff in H as (i & <- & Hi). apply pairs_neq in Hp; auto. apply clean_vars. cbn [map fst snd].
      constructor; [|constructor; [|constructor; [|constructor; [intros []|constructor]]]].
      * intros [E|[E|[E|[]]]]; [apply D_inj in E; congruence|apply (D_not_M u u i)|apply (D_not_M u v i)]; auto.
      * intros [E|[E|[]]]; [apply (D_not_M v u i)|apply (D_not_M v v i)]; auto.
      * intros [E|[]]. apply M_inj in E. intuition congruence.
    + apply in_flat_map in H as (i & Hi & H). eapply inequality_clean in H; [exact H|]. apply FinFun.Injective_map_NoDup; auto. intros x y E. apply M_inj in E. tauto.
  - destruct alt.
    + apply in_flat_map in H as (v & Hv & H). apply in_map_iff in H as ([i j] & <- & Hp). apply pairs_neq in Hp; [|apply range_NoDup]. apply clean_vars. cbn [map fst snd].
      constructor; [|constructor; [|constructor; [intros []|constructor]]].
      * intros [E|[E|[]]]; [apply (D_not_M v v i)|apply (D_not_M v v j)]; auto.
      * intros [E|[]]. apply M_inj in E. intuition congruence.
    + apply in_flat_map in H as ([i j] & Hi & H). apply in_map_iff in H as ([u v] & <- & Hp). apply pairs_neq in Hp; auto. apply clean_vars. cbn [map fst snd].
      constructor; [|constructor; [intros []|constructor]]. intros [E|[]]. apply M_inj in E. lia.
  - destruct alt; [destruct H|]. apply in_flat_map in H as (i & Hi & H). apply in_map_iff in H as (v & <- & Hv). apply clean_vars. cbn [map snd].
    constructor; [|constructor; [intros []|constructor]]. intros [E|[]]. apply (D_not_M v v i). auto.
  - apply in_map_iff in H as (v & <- & Hv). apply clean_vars. cbn [map snd]. rewrite map_map. cbn [snd]. constructor.
    + intros K. apply in_map_iff in K as (i & E & _). apply (D_not_M v v i). auto.
    + apply FinFun.Injective_map_NoDup; [|apply range_NoDup]. intros x y E. apply M_inj in E. tauto.
  - apply in_map_iff in H as (n & <- & Hn). apply (Permutation_in _ (sort_by_Perm list_ltb _)) in Hn. apply (proj1 (set_of_In _ _)) in Hn. apply in_map_iff in Hn as (v & <- & _).
    apply same_polarity; [apply D_inj|]. apply closed_NoDup; auto.
Qed.
Lemma made_plain_all c cls : made c -> (forall cl, In cl cls -> clean cl) ->
  exists c', add_all cnf_add_clause cls c = Ok c' /\ made c' /\ cnf_clauses c' = cnf_clauses c ++ cls.
Proof.
  intros M C. destruct (add_all_plain cls c (made_well c M) C) as (c' & E & W & N & L). exists c'. split; auto. split; auto.
  eapply add_all_made; [apply plain_made|exact M|exact E].
Qed.
Lemma dom_built g d alt : simple_graph g -> exists c, DominatingSet g d alt = Ok c /\ made c /\ cnf_clauses c = dom_clauses g d alt.
Proof.
  intros G. unfold DominatingSet. cbv zeta. unfold enumerate_vertices.
  destruct (made_plain_all (add_variables (map dom_D (g_nodes g) ++ flat_map (fun i => map (fun v => dom_M v i) (g_nodes g)) (range 1 (d + 1))) empty_cnf) (dom_clauses g d alt)) as (c & E & M & L).
  - apply variables_made, made_empty.
  - intros cl. apply dom_clean. auto.
  - exists c. split; [exact E|]. split; auto. rewrite L, vars_clauses. auto.
Qed.
(* what an assignment to x_{v}, g_{v,i} has to satisfy *)
Definition dom_good (g : graph) (d : Z) (alternative : bool) (D : Z -> bool) (M : Z -> Z -> bool) : Prop :=
  let V := fun v => In v (g_nodes g) in let I := fun i => 1 <= i <= d in
  (forall v, V v -> D v = true -> exists i, I i /\ M v i = true) /\
  (forall v, V v -> exists u, (u = v \/ adjacent g u v) /\ D u = true) /\
  (if alternative
   then (forall u v i, V u -> V v -> I i -> D u = true -> D v = true -> M u i = true -> M v i = true -> u = v) /\
        (forall v i j, V v -> I i -> I j -> D v = true -> M v i = true -> M v j = true -> i = j)
   else (forall u v i, V u -> V v -> I i -> M u i = true -> M v i = true -> u = v) /\
        (forall u v i j, V u -> V v -> I i -> I j -> u < v -> M u i = true -> M v j = true -> i < j) /\
        (forall v i, V v -> I i -> M v i = true -> D v = true)).
Lemma four_hold {A} (a : A -> bool) p q r s x y z w : clause_holds a [(p, x); (q, y); (r, z); (s, w)] <-> a x = p \/ a y = q \/ a z = r \/ a w = s.
Proof. rewrite !holds_cons. split; [intros [?|[?|[?|[?|K]]]]; auto; destruct (holds_nil _ K)|tauto]. Qed.
Lemma dom_models g d alt a : simple_graph g ->
  (all_hold a (dom_clauses g d alt) <-> dom_good g d alt (fun v => a (dom_D v)) (fun v i => a (dom_M v i))).
Proof.
  intros G. pose proof (sg_nodes g G) as N. unfold dom_clauses, dom_good. cbv zeta. rewrite !all_hold_app.
  assert (RI : forall x, In x (range 1 (d + 1)) <-> 1 <= x <= d) by (intros; rewrite range_In; lia).
  assert (C1 : all_hold a (map (fun v => (false, dom_D v) :: map (fun i => (true, dom_M v i)) (range 1 (d + 1))) (g_nodes g)) <->
    forall v, In v (g_nodes g) -> a (dom_D v) = true -> exists i, 1 <= i <= d /\ a (dom_M v i) = true).
  { rewrite all_hold_map. split; intros H v Hv.
    - intros T. specialize (H v Hv). apply holds_cons in H as [H|H]; [congruence|]. apply holds_map in H as (i & Hi & K). apply RI in Hi. eauto.
    - apply holds_cons. destruct (a (dom_D v)) eqn:E; auto. right. destruct (H v Hv E) as (i & Hi & K). apply holds_map. exists i. split; auto. apply RI; auto. }
  assert (C2 : all_hold a (map (fun n => map (fun v => (true, dom_D v)) n) (sort_by list_ltb (set_of (map (closed_neighborhood g) (g_nodes g))))) <->
    forall v, In v (g_nodes g) -> exists u, (u = v \/ adjacent g u v) /\ a (dom_D u) = true).
  { rewrite all_hold_map. split.
    - intros H v Hv. specialize (H (closed_neighborhood g v)). rewrite holds_map in H. destruct H as (u & Hu & T).
      + apply (Permutation_in _ (Permutation_sym (sort_by_Perm list_ltb _))). apply (proj2 (set_of_In _ _)). apply in_map; auto.
      + exists u. split; auto. apply closed_In; auto.
    - intros H n Hn. apply (Permutation_in _ (sort_by_Perm list_ltb _)) in Hn. apply (proj1 (set_of_In _ _)) in Hn. apply in_map_iff in Hn as (v & <- & Hv).
      destruct (H v Hv) as (u & Hu & T). apply holds_map. exists u. split; auto. apply closed_In; auto. }
  rewrite C1, C2. destruct alt.
  - assert (C3 : all_hold a (flat_map (fun uv => map (fun i => [(false, dom_D (fst uv)); (false, dom_D (snd uv)); (false, dom_M (fst uv) i); (false, dom_M (snd uv) i)]) (range 1 (d + 1))) (pairs (g_nodes g))) <->
      forall u v i, In u (g_nodes g) -> In v (g_nodes g) -> 1 <= i <= d -> a (dom_D u) = true -> a (dom_D v) = true -> a (dom_M u i) = true -> a (dom_M v i) = true -> u = v).
    { rewrite all_hold_flat_map. split.
      - intros H u v i Hu Hv Hi T1 T2 T3 T4. destruct (Z.eq_dec u v); auto. exfalso.
        destruct (pairs_total _ u v Hu Hv n) as [P|P]; specialize (H _ P); rewrite all_hold_map in H; specialize (H i (proj2 (RI i) Hi)); rewrite four_hold in H; cbn [fst snd] in H; intuition congruence.
      - intros H [u v] P. rewrite all_hold_map. intros i Hi. apply RI in Hi. pose proof (pairs_neq _ _ _ N P). apply pairs_In in P as [Hu Hv]. cbn [fst snd]. rewrite four_hold.
        specialize (H u v i Hu Hv Hi). destruct (a (dom_D u)), (a (dom_D v)), (a (dom_M u i)), (a (dom_M v i)); auto; exfalso; auto. }
    assert (C4 : all_hold a (flat_map (fun v => map (fun ij => [(false, dom_D v); (false, dom_M v (fst ij)); (false, dom_M v (snd ij))]) (pairs (range 1 (d + 1)))) (g_nodes g)) <->
      forall v i j, In v (g_nodes g) -> 1 <= i <= d -> 1 <= j <= d -> a (dom_D v) = true -> a (dom_M v i) = true -> a (dom_M v j) = true -> i = j).
    { rewrite all_hold_flat_map. split.
      - intros H v i j Hv Hi Hj T1 T2 T3. destruct (Z.eq_dec i j); auto. exfalso. specialize (H v Hv). rewrite all_hold_map in H. apply RI in Hi, Hj.
        destruct (pairs_total _ i j Hi Hj n) as [P|P]; specialize (H _ P); rewrite three_hold in H; cbn [fst snd] in H; intuition congruence.
      - intros H v Hv. rewrite all_hold_map. intros [i j] P. pose proof (pairs_neq _ _ _ (range_NoDup _ _) P). apply pairs_In in P as [Hi Hj]. apply RI in Hi, Hj. cbn [fst snd]. rewrite three_hold.
        specialize (H v i j Hv Hi Hj). destruct (a (dom_D v)), (a (dom_M v i)), (a (dom_M v j)); auto; exfalso; auto. }
    rewrite C3, C4. assert (all_hold a []) by (intros c []). tauto.
  - assert (C3 : all_hold a (flat_map (fun i => less_or_equal_constraint (map (fun v => dom_M v i) (g_nodes g)) 1) (range 1 (d + 1))) <->
      forall u v i, In u (g_nodes g) -> In v (g_nodes g) -> 1 <= i <= d -> a (dom_M u i) = true -> a (dom_M v i) = true -> u = v).
    { rewrite all_hold_flat_map.
      assert (X : forall i, all_hold a (less_or_equal_constraint (map (fun v => dom_M v i) (g_nodes g)) 1) <->
        forall u v, In u (g_nodes g) -> In v (g_nodes g) -> a (dom_M u i) = true -> a (dom_M v i) = true -> u = v).
      { intros i. rewrite less_or_equal_ok, how_many_map, how_many_le1 by auto. tauto. }
      split.
      - intros H u v i Hu Hv Hi. apply (proj1 (X i) (H i (proj2 (RI i) Hi))); auto.
      - intros H i Hi. apply RI in Hi. apply (proj2 (X i)). intros u v Hu Hv. apply H; auto. }
    assert (C4 : all_hold a (flat_map (fun ij => map (fun uv => [(false, dom_M (Z.max (fst uv) (snd uv)) (Z.min (fst ij) (snd ij)));
        (false, dom_M (Z.min (fst uv) (snd uv)) (Z.max (fst ij) (snd ij)))]) (pairs (g_nodes g))) (pairs_with_replacement (range 1 (d + 1)))) <->
      forall u v i j, In u (g_nodes g) -> In v (g_nodes g) -> 1 <= i <= d -> 1 <= j <= d -> u < v -> a (dom_M u i) = true -> a (dom_M v j) = true -> i < j).
    { rewrite all_hold_flat_map. split.
      - intros H u v i j Hu Hv Hi Hj L T1 T2. destruct (Z.lt_ge_cases i j) as [|Q]; auto. exfalso.
        assert (R : In (j, i) (pairs_with_replacement (range 1 (d + 1)))) by (apply replacement_In; [apply range_sorted|]; rewrite !RI; auto).
        specialize (H _ R). rewrite all_hold_map in H. destruct (pairs_total _ u v Hu Hv ltac:(lia)) as [P|P]; specialize (H _ P); cbn [fst snd] in H; apply two_hold in H;
          rewrite ?(Z.max_r u v), ?(Z.min_l u v), ?(Z.max_l v u), ?(Z.min_r v u), ?(Z.min_l j i), ?(Z.max_r j i) in H by lia; intuition congruence.
      - intros H [i j] R. apply replacement_In in R as (Hi & Hj & L); [|apply range_sorted]. apply RI in Hi, Hj. rewrite all_hold_map. intros [u v] P.
        pose proof (pairs_neq _ _ _ N P). apply pairs_In in P as [Hu Hv]. cbn [fst snd]. apply two_hold. rewrite (Z.min_l i j), (Z.max_r i j) by lia.
        destruct (a (dom_M (Z.max u v) i)) eqn:E1; auto. destruct (a (dom_M (Z.min u v) j)) eqn:E2; auto. exfalso.
        assert (j < i); [|lia]. apply (H (Z.min u v) (Z.max u v) j i); auto; try lia.
        + destruct (Z.min_spec u v) as [[_ ->]|[_ ->]]; auto.
        + destruct (Z.max_spec u v) as [[_ ->]|[_ ->]]; auto. }
    assert (C5 : all_hold a (flat_map (fun i => map (fun v => [(false, dom_M v i); (true, dom_D v)]) (g_nodes g)) (range 1 (d + 1))) <->
      forall v i, In v (g_nodes g) -> 1 <= i <= d -> a (dom_M v i) = true -> a (dom_D v) = true).
    { rewrite all_hold_flat_map. split.
      - intros H v i Hv Hi T. specialize (H i (proj2 (RI i) Hi)). rewrite all_hold_map in H. specialize (H v Hv). apply two_hold in H. intuition congruence.
      - intros H i Hi. apply RI in Hi. rewrite all_hold_map. intros v Hv. apply two_hold. destruct (a (dom_M v i)) eqn:E; auto. right. eauto. }
    rewrite C3, C4, C5. tauto.
Qed.
Lemma sorted_strict l : NoDup l -> StronglySorted Z.lt (sort_by Z.ltb l).
Proof.
  intros N.
  assert (P : Permutation (sort_by Z.ltb l) l) by apply sort_by_Perm.
  pose proof (Permutation_NoDup (Permutation_sym P) N) as N'.
  assert (S : StronglySorted Z.le (sort_by Z.ltb l)).
  { clear. induction l as [|x l IH]; cbn [sort_by]; [constructor|]. revert IH. generalize (sort_by Z.ltb l) as m. induction 1 as [|y m S IH F]; cbn [insert_by].
    - constructor; constructor.
    - destruct (Z.ltb_spec y x); [|].
      + constructor; auto. apply Forall_forall. intros z Hz. apply (Permutation_in _ (insert_by_Perm Z.ltb x m)) in Hz. destruct Hz as [<-|Hz]; [lia|]. rewrite Forall_forall in F; auto.
      + constructor; [constructor; auto|]. constructor; [lia|]. eapply Forall_impl; [|exact F]. cbn. intros; lia. }
  clear -S N'. induction S as [|x m S IH F]; constructor; inversion N' as [|? ? N1 N2]; subst; auto.
  rewrite Forall_forall in *. intros y Hy. specialize (F y Hy). assert (x <> y) by (intros ->; auto). lia.
Qed.
Lemma dom_satisfiable g d alt : simple_graph g -> 0 <= d ->
  (has_model (dom_clauses g d alt) <->
   exists S, NoDup S /\ incl S (g_nodes g) /\ Z.of_nat (List.length S) <= d /\
     forall v, In v (g_nodes g) -> exists u, In u S /\ (u = v \/ adjacent g u v)).
Proof.
  intros G Hd. pose proof (sg_nodes g G) as N. split.
  - intros (a & H). apply dom_models in H as (A & B & C); auto. set (S := filter (fun v => a (dom_D v)) (g_nodes g)).
    exists S. split; [apply NoDup_filter; auto|]. split; [intros x Hx; apply filter_In in Hx; tauto|]. split.
    + rewrite <- (between_length d Hd). apply Nat2Z.inj_le. apply (injective_length _ _ (fun v i => a (dom_M v i) = true)); [apply NoDup_filter; auto| |].
      * intros v Hv. apply filter_In in Hv as [Hv T]. destruct (A v Hv T) as (i & Hi & K). exists i. split; auto. apply range_In. lia.
      * intros u v i Hu Hv Hi T1 T2. apply filter_In in Hu as [Hu Du]. apply filter_In in Hv as [Hv Dv]. apply range_In in Hi.
        destruct alt; [apply (proj1 C u v i); auto; lia|apply (proj1 C u v i); auto; lia].
    + intros v Hv. destruct (B v Hv) as (u & K & T). exists u. split; auto. apply filter_In. split; auto.
      destruct K as [->|K]; auto. apply (adjacent_nodes g u v G K).
  - intros (S0 & NS & IS & LS & DS). set (S := sort_by Z.ltb S0). assert (SS : StronglySorted Z.lt S) by (apply sorted_strict; auto).
    assert (SI : forall x, In x S <-> In x S0) by (intros; apply sorted_In).
    assert (SL : List.length S = List.length S0) by (apply Permutation_length, sort_by_Perm).
    pose proof (sorted_NoDup_lt S SS) as SN.
    set (at_ := fun v i => match nth_error S (Z.to_nat (i - 1)) with Some u => u =? v | None => false end).
    set (V := g_nodes g). set (I := range 1 (d + 1)).
    set (a := fun t => values dom_D V (fun v => zmem v S) t || values (fun p => dom_M (fst p) (snd p)) (list_prod V I) (fun p => at_ (fst p) (snd p)) t).
    assert (aD : forall v, In v V -> a (dom_D v) = zmem v S).
    { intros v Hv. unfold a. rewrite (values_at dom_D V (fun v => zmem v S) v); auto; [|intros y _ E; apply D_inj in E; congruence].
      rewrite values_other; [apply orb_false_r|]. intros p _ E. apply (D_not_M v (fst p) (snd p)). auto. }
    assert (aM : forall v i, In v V -> 1 <= i <= d -> a (dom_M v i) = at_ v i).
    { intros v i Hv Hi. unfold a. rewrite (values_other dom_D).
      - rewrite values2_at; [reflexivity| |apply in_prod; auto; apply range_In; lia]. intros [v' i'] _ E. apply M_inj in E as [E1 E2]. cbn [fst snd] in *. subst. auto.
      - intros x _. apply D_not_M. }
    assert (AT : forall v i, at_ v i = true <-> nth_error S (Z.to_nat (i - 1)) = Some v).
    { intros v i. unfold at_. destruct (nth_error S (Z.to_nat (i - 1))) as [u|]; [|split; discriminate]. rewrite Z.eqb_eq. split; congruence. }
    assert (ASC : forall i j u v, (i < j)%nat -> nth_error S i = Some u -> nth_error S j = Some v -> u < v).
    { intros i j u v L H1 H2. assert (K : In (u, v) (pairs S)) by (apply pairs_nth; eauto). apply pairs_sorted in K; auto. tauto. }
    exists a. apply dom_models; auto. unfold dom_good. cbv zeta. fold V. split; [|split].
    + intros v Hv. rewrite aD by auto. intros T. apply zmem_In in T. apply In_nth_error in T as (n & Hn).
      assert (L : (n < List.length S)%nat) by (apply nth_error_Some; congruence). exists (Z.of_nat n + 1). split; [lia|]. rewrite aM by (auto; lia). apply AT.
      replace (Z.to_nat (Z.of_nat n + 1 - 1)) with n by lia. auto.
    + intros v Hv. destruct (DS v Hv) as (u & Hu & K). exists u. split; auto. rewrite aD by (apply IS; auto). apply zmem_In, SI. auto.
    + assert (X1 : forall u v i, In u V -> In v V -> 1 <= i <= d -> a (dom_M u i) = true -> a (dom_M v i) = true -> u = v).
      { intros u v i Hu Hv Hi. rewrite !aM, !AT by auto. congruence. }
      assert (X2 : forall v i j, In v V -> 1 <= i <= d -> 1 <= j <= d -> a (dom_M v i) = true -> a (dom_M v j) = true -> i = j).
      { intros v i j Hv Hi Hj. rewrite !aM, !AT by auto. intros H1 H2.
        assert (Z.to_nat (i - 1) = Z.to_nat (j - 1)) by (apply (proj1 (NoDup_nth_error S) SN); [apply nth_error_Some; congruence|congruence]). lia. }
      destruct alt; [split; eauto|]. split; [auto|]. split.
      * intros u v i j Hu Hv Hi Hj L. rewrite !aM, !AT by auto. intros H1 H2. destruct (Z.lt_trichotomy i j) as [|[->|Q]]; auto; exfalso.
        -- assert (u = v) by congruence. lia.
        -- assert (v < u) by (apply (ASC (Z.to_nat (j - 1)) (Z.to_nat (i - 1))); auto; lia). lia.
      * intros v i Hv Hi. rewrite aM, AT, aD by auto. intros K. apply zmem_In. eapply nth_error_In; eauto.
Qed.
Lemma dom_selects g d alt a : simple_graph g -> 0 <= d -> all_hold a (dom_clauses g d alt) ->
  let S := filter (fun v => a (dom_D v)) (g_nodes g) in
  Z.of_nat (List.length S) <= d /\ forall v, In v (g_nodes g) -> exists u, In u S /\ (u = v \/ adjacent g u v).
Proof.
  intros G Hd H. pose proof (sg_nodes g G) as N. apply dom_models in H as (A & B & C); auto. set (S := filter (fun v => a (dom_D v)) (g_nodes g)). split.
    + rewrite <- (between_length d Hd). apply Nat2Z.inj_le. apply (injective_length _ _ (fun v i => a (dom_M v i) = true)); [apply NoDup_filter; auto| |].
      * intros v Hv. apply filter_In in Hv as [Hv T]. destruct (A v Hv T) as (i & Hi & K). exists i. split; auto. apply range_In. lia.
      * intros u v i Hu Hv Hi T1 T2. apply filter_In in Hu as [Hu Du]. apply filter_In in Hv as [Hv Dv]. apply range_In in Hi.
        destruct alt; [apply (proj1 C u v i); auto; lia|apply (proj1 C u v i); auto; lia].
    + intros v Hv. destruct (B v Hv) as (u & K & T). exists u. split; auto. apply filter_In. split; auto.
      destruct K as [->|K]; auto. apply (adjacent_nodes g u v G K).
Qed.
