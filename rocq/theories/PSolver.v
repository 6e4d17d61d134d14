(* PSolver.v -- whole runs: termination, soundness, completeness, the recorded graph. *)
From Coq Require Import String Ascii ZArith List Bool Lia Permutation Sorted.
From Verif Require Import Spec PyBase MSet MText MQueue MDb MSolver SpecRun PLib PClause PRename PLo PNorm PEval PText PQueue PNode PStep PRun PStats.
Import ListNotations.
Open Scope Z_scope.

Lemma weight_app xs xs' : weight (xs ++ xs') = (weight xs + weight xs')%nat.
Proof. induction xs; simpl; lia. Qed.
Lemma pow3_pos k : (1 <= 3 ^ k)%nat.
Proof. induction k; simpl; lia. Qed.
Lemma pow3_mono a b : (a <= b)%nat -> (3 ^ a <= 3 ^ b)%nat.
Proof. intros. apply Nat.pow_le_mono_r; lia. Qed.
Lemma sort_items_Perm d : Permutation (sort_items d) d.
Proof. apply sort_by_Perm. Qed.
Lemma sort_items_sorted d : NoDup (dkeys d) -> StronglySorted Z.lt (dkeys (sort_items d)).
Proof.
  intros Hn. apply (Permutation_NoDup (Permutation_map fst (Permutation_sym (sort_items_Perm d)))) in Hn.
  assert (HS : StronglySorted (le_of (fun a b : Z * bool => fst a <? fst b)) (sort_items d)).
  { apply sort_by_sorted; unfold le_of; intros; lia. }
  unfold dkeys. fold (sort_items d) in Hn. revert Hn HS. generalize (sort_items d). clear.
  induction l as [|[k b] l IH]; simpl; intros Hn HS; constructor; inv Hn; inv HS; auto.
  apply Forall_forall. intros v Hv. apply in_map_iff in Hv as ((v' & b') & <- & Hi).
  rewrite Forall_forall in H4. apply H4 in Hi as Hle. unfold le_of in Hle. simpl in *.
  assert (k <> v'). { intros ->. apply H1. apply in_map_iff. exists (v', b'); auto. } lia.
Qed.

Section Whole.
  Variable hash : text -> digest.
  Variable insert_fails : digest -> bool.
  Variable o : opts.
  Variable seen_sets : list digest.
  Hypothesis Hgdb : o_gdb o = true -> seen_sets = [] /\ forall h, insert_fails h = false.
  Variable F : list (list Z).
  Variables n L K lf : nat.
  Variable m : mode.
  Hypothesis Hlf : (lo_bound n L K <= lf)%nat.
  Variable db0 : table.
  Hypothesis Hdb0 : o_gdb o = true -> db0 = [].
  Notation INV := (Inv hash o F n L K lf m db0).
  Notation RUN := (run hash insert_fails o seen_sets).
  Notation STEP := (step hash insert_fails o seen_sets).

  Lemma new_weight x k1 k2 p : 
    kid_ok hash F n L K (view (o_rdb o) x) true k1 -> kid_ok hash F n L K (view (o_rdb o) x) false k2 ->
    (weight (new_nodes o (sid x) k1 k2 p) < 3 ^ nvars (raws x))%nat.
  Proof.
    intros K1 K2.
    assert (G : forall b k pp, kid_ok hash F n L K (view (o_rdb o) x) b k ->
      (3 * weight (match k with KNode c => if is_new k pp then [c] else [] | _ => [] end) <= 3 ^ nvars (raws x))%nat).
    { intros b k pp HK. destruct k as [|c]; [simpl; lia|]. destruct (is_new (KNode c) pp); [|simpl; lia].
      destruct HK as [(_ & _ & _ & Hlt & _) _]. rewrite view_raws in Hlt.
      simpl weight. rewrite Nat.add_0_r. change (3 * 3 ^ nvars (raws c))%nat with (3 ^ S (nvars (raws c)))%nat.
      apply pow3_mono. lia. }
    unfold new_nodes. rewrite weight_app.
    pose proof (G true k1 p K1). pose proof (G false k2 (upd o (sid x) k1 p) K2).
    pose proof (pow3_pos (nvars (raws x))). lia.
  Qed.

  Lemma step_full r p done x xs : INV r p done (x :: xs) ->
    exists p' k1 k2 new, STEP lf m p = Ok p' /\
      INV r p' (done ++ [(x, k1, k2)]) (xs ++ new) /\ (weight new < 3 ^ nvars (raws x))%nat.
  Proof.
    intros I. destruct (step_inv hash insert_fails o seen_sets Hgdb F n L K lf m Hlf db0 Hdb0 r p done x xs I)
      as (p' & k1 & k2 & E & I' & _).
    exists p', k1, k2, (new_nodes o (sid x) k1 k2 p). split; auto. split; auto.
    destruct (i_exp _ _ _ _ _ _ _ _ _ _ _ _ _ I' x k1 k2) as (_ & A & B).
    { apply in_app_iff; simpl; auto. }
    apply new_weight; auto.
  Qed.
  Lemma inv_empty r p done pend : INV r p done pend ->
    queue_is_empty (p_queue p) = match pend with [] => true | _ => false end.
  Proof. intros I. eapply qrep_empty, I. Qed.

  (* every run ends in a state satisfying the invariant; enough fuel always exists *)
  Lemma run_total : forall fuel r p done pend, INV r p done pend -> (weight pend <= fuel)%nat ->
    exists p' done' pend', RUN fuel lf m p = Ok p' /\ INV r p' (done ++ done') pend' /\
      loop_done o p' = true.
  Proof.
    induction fuel as [|f IH]; intros r p done pend I Hw.
    - destruct pend as [|x xs].
      + exists p, [], []. cbn [run]. unfold loop_done. rewrite (inv_empty _ _ _ _ I). simpl.
        rewrite app_nil_r; auto.
      + simpl in Hw. pose proof (pow3_pos (nvars (raws x))). lia.
    - cbn [run]. destruct (loop_done o p) eqn:El.
      + exists p, [], pend. rewrite app_nil_r; auto.
      + destruct pend as [|x xs].
        { unfold loop_done in El. rewrite (inv_empty _ _ _ _ I) in El. discriminate. }
        destruct (step_full r p done x xs I) as (p1 & k1 & k2 & new & E & I1 & Hn).
        rewrite E; cbn [bind].
        destruct (IH r p1 _ _ I1) as (p' & done' & pend' & A & B & C).
        { rewrite weight_app. simpl in Hw. lia. }
        exists p', ((x, k1, k2) :: done'), pend'. split; auto. split; auto.
        rewrite <- app_assoc in B. exact B.
  Qed.
  Lemma run_ok : forall fuel r p p' done pend, INV r p done pend -> RUN fuel lf m p = Ok p' ->
    exists done' pend', INV r p' (done ++ done') pend' /\ loop_done o p' = true /\
      exists added, ys (done ++ done') pend' = ys done pend ++ added.
  Proof.
    induction fuel as [|f IH]; intros r p p' done pend I; cbn [run]; destruct (loop_done o p) eqn:El.
    - intros E; inv E. exists [], pend. rewrite app_nil_r. split; auto. split; auto.
      exists []. rewrite app_nil_r; auto.
    - discriminate.
    - intros E; inv E. exists [], pend. rewrite app_nil_r. split; auto. split; auto.
      exists []. rewrite app_nil_r; auto.
    - destruct pend as [|x xs].
      { unfold loop_done in El. rewrite (inv_empty _ _ _ _ I) in El. discriminate. }
      destruct (step_full r p done x xs I) as (p1 & k1 & k2 & new & E & I1 & Hn).
      rewrite E; cbn [bind]. intros Er. destruct (IH r p1 p' _ _ I1 Er) as (d' & pe & A & B & ad & C).
      exists ((x, k1, k2) :: d'), pe. rewrite <- app_assoc in A, C. split; [exact A|]. split; auto.
      exists (new ++ ad). cbn [app] in C. etransitivity; [exact C|]. unfold ys. rewrite map_app, <- !app_assoc. reflexivity.
  Qed.

  (* ---- consequences of the invariant ---- *)
  Lemma true_leaf_entry done d : In d (true_leaves done) ->
    exists x k1 k2, In (x, k1, k2) done /\ (k1 = KLeaf true d \/ k2 = KLeaf true d).
  Proof.
    unfold true_leaves. rewrite in_flat_map. intros ([[x k1] k2] & He & Hd). exists x, k1, k2. split; auto.
    unfold e_true in Hd. apply in_app_iff in Hd as [Hd|Hd].
    - left. destruct k1 as [[] d'|]; simpl in Hd; try tauto. destruct Hd as [->|[]]; auto.
    - right. destruct k2 as [[] d'|]; simpl in Hd; try tauto. destruct Hd as [->|[]]; auto.
  Qed.
  Lemma true_leaf_ok r p done pend d : INV r p done pend -> In d (true_leaves done) ->
    (forall a, extends a d -> cnf_true a F) /\ NoDup (dkeys d) /\ d <> [] /\
    incl (evaluated_vars r) d /\ (forall v, In v (dkeys d) -> In v (dkeys (evaluated_vars r)) \/ In v (fvars F)).
  Proof.
    intros I Hd. apply true_leaf_entry in Hd as (x & k1 & k2 & He & Hk).
    destruct (i_exp _ _ _ _ _ _ _ _ _ _ _ _ _ I x k1 k2 He) as (_ & A & B).
    assert (Hx : In x (ys done pend)).
    { apply in_app_iff; left. apply in_map_iff. exists (x, k1, k2); auto. }
    destruct (i_evs _ _ _ _ _ _ _ _ _ _ _ _ _ I x Hx) as [E1 E2].
    pose proof (view_ev (o_rdb o) x) as HV.
    assert (Hg : kid_ok hash F n L K (view (o_rdb o) x) true (KLeaf true d) \/
                 kid_ok hash F n L K (view (o_rdb o) x) false (KLeaf true d)) by (destruct Hk; subst; auto).
    assert (G : exists b, kid_ok hash F n L K (view (o_rdb o) x) b (KLeaf true d)) by (destruct Hg; eauto).
    destruct G as (b & (A1 & A2 & A3 & A4 & A5) & _). split; auto. split; auto. split; auto. split.
    - intros w Hw. apply A5, (Permutation_in _ (Permutation_sym HV)), E1; auto.
    - intros v Hv. destruct (A4 v Hv) as [H|H]; auto. apply E2.
      apply (Permutation_in _ (Permutation_map fst HV)); auto.
  Qed.
  Lemma sol_sat r p done pend : INV r p done pend ->
    p_sat p = solution_truthy (p_solution p) /\
    forall sol, p_solution p = Some sol ->
      (forall a, extends a sol -> cnf_true a F) /\ NoDup (dkeys sol) /\ sol <> [] /\
      incl (evaluated_vars r) sol /\
      (forall v, In v (dkeys sol) -> In v (dkeys (evaluated_vars r)) \/ In v (fvars F)) /\
      StronglySorted Z.lt (dkeys sol).
  Proof.
    intros I. rewrite (i_sat _ _ _ _ _ _ _ _ _ _ _ _ _ I), (i_sol _ _ _ _ _ _ _ _ _ _ _ _ _ I).
    destruct (true_leaves done) as [|d t] eqn:E; cbn [hd_error option_map].
    - split; auto. discriminate.
    - destruct (true_leaf_ok r p done pend d I) as (A & B & C & D1 & D2); [rewrite E; simpl; auto|].
      pose proof (sort_items_Perm d) as HP.
      assert (Hne : sort_items d <> []).
      { intros E0. rewrite E0 in HP. apply Permutation_nil in HP. auto. }
      split.
      + unfold solution_truthy. destruct (sort_items d); congruence.
      + intros sol Es; inv Es. split; [|split; [|split; [auto|split; [|split; [|apply sort_items_sorted; auto]]]]].
        * intros a Ha. apply A. intros v b Hi. apply Ha. apply (Permutation_in _ (Permutation_sym HP)); auto.
        * apply (Permutation_NoDup (Permutation_map fst (Permutation_sym HP))); auto.
        * intros w Hw. apply (Permutation_in _ (Permutation_sym HP)); auto.
        * intros v Hv. apply D2. apply (Permutation_in _ (Permutation_map fst HP)); auto.
  Qed.
  Lemma exists_model d : NoDup (dkeys d) -> exists a, extends a d.
  Proof.
    intros ND. exists (fun v => match dget Z.eqb v d with Some b => b | None => false end).
    intros v b Hi. rewrite (dget_In_NoDup _ zspec v b d ND Hi); auto.
  Qed.
  Lemma inv_sound r p done pend : INV r p done pend -> p_sat p = true -> satisfiable F.
  Proof.
    intros I Hs. destruct (sol_sat _ _ _ _ I) as [A B]. rewrite Hs in A.
    destruct (p_solution p) as [sol|] eqn:E; [|discriminate]. destruct (B sol eq_refl) as (B1 & B2 & _).
    destruct (exists_model sol B2) as (a & Ha). exists a; auto.
  Qed.

  (* no two different formulas met during the search have the same digest *)
  Definition no_collision (r : cset) : Prop :=
    forall x y, reach hash o lf m r x -> reach hash o lf m r y ->
      hash (formula_text (raws x)) = hash (formula_text (raws y)) -> formula_text (raws x) = formula_text (raws y).

  Lemma node_nonempty x : node F x -> nonempty_clauses (raws x) /\ raws x <> [].
  Proof.
    intros N. split; [apply (n_ready _ _ N)|]. intros E. apply raws_nil in E. apply (rd_ne _ _ (n_ready _ _ N)); auto.
  Qed.
  Lemma same_id_same r x y : no_collision r -> is_node hash F n L K x -> is_node hash F n L K y ->
    reach hash o lf m r x -> reach hash o lf m r y -> sid x = sid y -> raws x = raws y.
  Proof.
    intros NC (Nx & Sx & _) (Ny & Sy & _) Rx Ry E. rewrite Sx, Sy in E.
    apply NC in E; auto. apply formula_text_inj in E; auto; eapply node_nonempty; eauto.
  Qed.
  Lemma inv_complete r p done : INV r p done [] -> no_collision r ->
    satisfiable (raws r) -> true_leaves done <> [].
  Proof.
    clear Hlf. intros I NC Hs.
    assert (Hall : forall x, In x (map e_node done) -> exists k1 k2, In (x, k1, k2) done).
    { intros x Hx. apply in_map_iff in Hx as ([[y k1] k2] & <- & Hy). exists k1, k2; auto. }
    assert (Eys : ys done [] = map e_node done) by (unfold ys; rewrite app_nil_r; auto).
    pose proof (i_nodes _ _ _ _ _ _ _ _ _ _ _ _ _ I) as Hnodes. rewrite Eys in Hnodes.
    pose proof (i_root _ _ _ _ _ _ _ _ _ _ _ _ _ I) as Hroot. rewrite Eys in Hroot.
    assert (Hr : In r (map e_node done)).
    { destruct (map e_node done); [discriminate|]. inv Hroot. simpl; auto. }
    assert (Main : forall k x, In x (map e_node done) -> (nvars (raws x) < k)%nat -> satisfiable (raws x) ->
              true_leaves done <> []).
    { induction k as [|k IHk]; intros x Hx Hk (a & Ha); [lia|].
      destruct (Hall x Hx) as (k1 & k2 & He).
      destruct (i_exp _ _ _ _ _ _ _ _ _ _ _ _ _ I x k1 k2 He) as (Ex & A1 & A2).
      destruct (i_done _ _ _ _ _ _ _ _ _ _ _ _ _ I _ He) as [_ Hincl]. rewrite Eys in Hincl.
      assert (Hkid : forall b kk, kid_ok hash F n L K (view (o_rdb o) x) b kk -> (kk = k1 \/ kk = k2) ->
                a (pivot_of (view (o_rdb o) x)) = b -> true_leaves done <> []).
      { intros b kk [HK _] Hor Hb. destruct kk as [[] d|c].
        - unfold true_leaves. intros E0.
          assert (Hin : In d (flat_map e_true done)).
          { apply in_flat_map. exists (x, k1, k2). split; auto. unfold e_true. apply in_app_iff.
            destruct Hor as [<-|<-]; simpl; auto. }
          rewrite E0 in Hin. destruct Hin.
        - exfalso. apply (HK a Hb). rewrite view_raws; auto.
        - destruct HK as (N & S1 & S2 & Hlt & W & _ & _ & Hsat & _). rewrite view_raws in *.
          assert (Hc : In (sid c) (map sid (map e_node done))).
          { apply Hincl. unfold e_kids. apply in_app_iff. destruct Hor as [<-|<-]; simpl; auto. }
          apply in_map_iff in Hc as (y & Ey & Hy).
          destruct (Hnodes y Hy) as [Ny Ry]. destruct (Hnodes x Hx) as [Nx Rx].
          assert (Er : raws y = raws c).
          { apply (same_id_same r); auto; [split; auto|]. eapply reach_step; eauto.
            destruct Hor as [<-|<-]; auto. }
          apply (IHk y); auto; rewrite Er; [lia|]. eapply Hsat; eauto. }
      destruct (a (pivot_of (view (o_rdb o) x))) eqn:Eb; [apply (Hkid true k1)|apply (Hkid false k2)]; auto. }
    eapply Main; eauto.
  Qed.

  Lemma done_verdict r p done pend : INV r p done pend -> loop_done o p = true -> no_collision r ->
    (satisfiable F <-> satisfiable (raws r)) -> (p_sat p = true <-> satisfiable F).
  Proof.
    clear Hlf. intros I Hl NC Heq. split; [apply inv_sound with (1 := I)|]. intros Hs. apply Heq in Hs.
    unfold loop_done in Hl. rewrite (inv_empty _ _ _ _ I) in Hl. destruct pend as [|x xs].
    - rewrite (i_sat _ _ _ _ _ _ _ _ _ _ _ _ _ I). pose proof (inv_complete r p done I NC Hs).
      destruct (true_leaves done); congruence.
    - simpl in Hl. apply andb_true_iff in Hl as [Hl _]. destruct (sol_sat _ _ _ _ I) as [-> _]; auto.
  Qed.

  (* the recorded graph is closed *)
  Lemma inv_closed r p done pend : INV r p done pend ->
    closed_graph (p_children p) /\ forall h, In h (dkeys (p_children p)) -> (List.length (succs (p_children p) h) <= 2)%nat.
  Proof.
    clear Hlf. intros I.
    assert (Hk : forall h, In h (dkeys (p_children p)) ->
              incl (succs (p_children p) h) (dkeys (p_children p)) /\ (List.length (succs (p_children p) h) <= 2)%nat).
    { intros h Hh. pose proof (i_keys _ _ _ _ _ _ _ _ _ _ _ _ _ I) as Ek.
      unfold succs. rewrite Ek in Hh. apply in_map_iff in Hh as (y & <- & Hy).
      unfold ys in Hy. apply in_app_iff in Hy as [Hy|Hy].
      - apply in_map_iff in Hy as (e & <- & He).
        destruct (i_done _ _ _ _ _ _ _ _ _ _ _ _ _ I e He) as [-> Hi]. split; [rewrite Ek; auto|].
        destruct e as [[x k1] k2]. unfold e_kids. rewrite app_length. cbn [fst snd].
        destruct k1, k2; simpl; lia.
      - rewrite (i_pend _ _ _ _ _ _ _ _ _ _ _ _ _ I y Hy). split; [intros ? [] | simpl; lia]. }
    split; [split|].
    - rewrite (i_keys _ _ _ _ _ _ _ _ _ _ _ _ _ I). apply I.
    - intros h Hh. apply Hk; auto.
    - intros h Hh. apply Hk; auto.
  Qed.
End Whole.

(* ---- monotonicity in the fuel ---- *)
Definition okle {A} (r r' : result A) : Prop := forall a, r = Ok a -> r' = Ok a.
Lemma okle_refl {A} (r : result A) : okle r r. Proof. intros a; auto. Qed.
Lemma okle_bind {A B} (r r' : result A) (k k' : A -> result B) :
  okle r r' -> (forall a, okle (k a) (k' a)) -> okle (bind r k) (bind r' k').
Proof.
  intros H1 H2 b E. apply bind_ok in E as (a & E1 & E2). rewrite (H1 a E1). cbn [bind]. apply H2; auto.
Qed.
Section Mono.
  Variable hash : text -> digest.
  Variable insert_fails : digest -> bool.
  Variable o : opts.
  Variable seen_sets : list digest.
  Variables lf lf' : nat.
  Hypothesis Hle : (lf <= lf')%nat.
  Lemma process_child_mono m pulled pid c p :
    okle (process_child hash o lf m pulled pid c p) (process_child hash o lf' m pulled pid c p).
  Proof.
    unfold process_child. apply okle_bind; [apply okle_refl|]. intros _.
    apply okle_bind.
    - destruct (svalue c); [apply okle_refl|]. apply okle_bind.
      + destruct pulled; [apply okle_refl|]. apply okle_bind; [|intros; apply okle_refl].
        intros s E. eapply to_lo_mono; eauto.
      + intros; apply okle_refl.
    - intros; apply okle_refl.
  Qed.
  Lemma step_mono m p : okle (step hash insert_fails o seen_sets lf m p) (step hash insert_fails o seen_sets lf' m p).
  Proof.
    unfold step. apply okle_bind; [apply okle_refl|]. intros [cnf q]. 
    apply okle_bind; [apply okle_refl|]. intros [ph cnf']. 
    apply okle_bind; [apply okle_refl|]. intros [[[s1 s2] pulled] p1].
    apply okle_bind; [apply process_child_mono|]. intros [[c1 st1] p2].
    apply okle_bind; [apply process_child_mono|]. intros [[c2 st2] p3]. apply okle_refl.
  Qed.
  Lemma run_mono m : forall f f' p, (f <= f')%nat ->
    okle (run hash insert_fails o seen_sets f lf m p) (run hash insert_fails o seen_sets f' lf' m p).
  Proof.
    induction f as [|f IH]; intros f' p Hf; destruct f' as [|f']; cbn [run];
      destruct (loop_done o p); try apply okle_refl; try lia.
    - intros a E; discriminate.
    - apply okle_bind; [apply step_mono|]. intros p'. apply IH. lia.
  Qed.
End Mono.
Lemma solve_set_mono hash insert_fails o root db f f' lf lf' : (f <= f')%nat -> (lf <= lf')%nat ->
  okle (solve_set hash insert_fails f lf o root db) (solve_set hash insert_fails f' lf' o root db).
Proof.
  intros Hf Hl. unfold solve_set. apply okle_bind; [apply okle_refl|]. intros _.
  apply okle_bind.
  { unfold prepare_root. apply okle_bind; [|intros; apply okle_refl]. intros s E. eapply to_lo_mono; eauto. }
  intros r. destruct (is_set_solved _ _ _ _); [apply okle_refl|].
  apply okle_bind.
  { unfold process_nodes_queue. apply okle_bind; [apply okle_refl|]. intros p. apply run_mono; auto. }
  intros p. destruct (o_no_stats o); [apply okle_refl|].
  apply okle_bind; [|intros; apply okle_refl].
  intros x E. eapply graph_stats_mono; eauto.
Qed.
