(* PResume.v -- a second run on the table left by an interrupted run. *)
From Coq Require Import String Ascii ZArith List Bool Lia Permutation Sorted.
From Verif Require Import Spec PyBase MSet MText MQueue MDb MSolver SpecRun PLib PClause PRename PLo PNorm PEval PText PQueue PNode PStep PRun PStats PSolver PSolve PSearch PDb.
Import ListNotations.
Open Scope Z_scope.

(* a set without variable maps cannot be branched *)
Lemma no_names_evaluate s c t x u : final_names_map s = [] -> clauses s = c :: t -> raw c = x :: u ->
  evaluate s = Err IndexError.
Proof.
  intros Hf Hc Hr. unfold evaluate. rewrite Hc, Hr. destruct (branch _ _) as [[[lc rc] fl] fr].
  assert (Ho : forall v, original_of s v = Err IndexError).
  { intros v. unfold original_of. rewrite Hf. unfold py_index. cbn [List.length Z.of_nat].
    assert (E : forall j, (j <? 0) || (0 <=? j) = true).
    { intros j. destruct (Z.ltb_spec j 0), (Z.leb_spec 0 j); auto; lia. }
    rewrite E. reflexivity. }
  assert (Hm : forall vs, child_originals s vs = Ok [] \/ child_originals s vs = Err IndexError).
  { intros [|v vs]; [left; reflexivity|right]. unfold child_originals. cbn [mapM]. rewrite Ho. reflexivity. }
  set (l0 := set_value _ _). set (r0 := set_value _ _).
  destruct (Hm (get_variables l0)) as [->| ->]; [|reflexivity]. cbn [bind].
  destruct (Hm (get_variables r0)) as [->| ->]; [|reflexivity]. cbn [bind].
  rewrite Ho. reflexivity.
Qed.

(* the set loaded from the row of x *)
Definition dead (x : cset) : cset :=
  set_id (set_hash (set_clauses empty_set (plain 1 (raws x))) (Some (sid x))) (sid x).
Lemma dead_raws x : raws (dead x) = raws x.
Proof. unfold raws at 1. cbn [dead set_id set_hash set_clauses clauses]. apply plain_raw. Qed.
Definition alike (x y : cset) : Prop := y = x \/ y = dead x.

(* an item that stands for node x *)
Record stands (x y : cset) : Prop := mkStands {
  st_value : svalue y = None;
  st_raws : raws y = raws x;
  st_sid : sid y = sid x;
  st_hash : computed_hash y = Some (sid x)
}.
Lemma alike_stands F x y : node F x -> computed_hash x = Some (sid x) -> alike x y -> stands x y.
Proof.
  intros N Hc [->| ->]; constructor; auto.
  - apply (n_value _ _ N).
  - apply dead_raws.
Qed.
Lemma dead_storable F x : node F x -> storable (dead x).
Proof.
  intros N. destruct (node_storable F x N) as (S1 & S2 & S3 & S4 & S5).
  split; [reflexivity|]. rewrite dead_raws. split; [|split; [auto|split; [auto|]]].
  - cbn [dead set_id set_hash set_clauses clauses]. intros E. apply S2.
    apply raws_nil. rewrite <- (plain_raw 1 (raws x)), E. reflexivity.
  - split; [constructor|]. split; [intros v []|constructor].
Qed.

Lemma process_child_db hash o lf m b pid c pp c' s pp' :
  process_child hash o lf m b pid c pp = Ok (c', s, pp') -> p_db pp' = p_db pp.
Proof.
  intros H. unfold process_child in H.
  apply bind_ok in H as (t & _ & H). apply bind_ok in H as ([[d st] p1] & Hd & H).
  assert (E1 : p_db p1 = p_db pp).
  { destruct (svalue c) as [[]|]; [injection Hd as <- <- <-; destruct (p_solution pp); auto|inv Hd; auto|].
    apply bind_ok in Hd as (d1 & _ & Hd). apply bind_ok in Hd as ([h d2] & _ & Hd). inv Hd. auto. }
  apply bind_ok in H as (t2 & _ & H). apply bind_ok in H as ([h d2] & _ & H).
  rewrite <- E1. destruct st; [apply bind_ok in H as (g & _ & H)|apply bind_ok in H as (g & _ & H)|];
    injection H as <- <- <-; simpl; auto.
  destruct (svalue d2) as [[]|]; auto.
Qed.

Section Pull.
  Variable hash : text -> digest.
  Variable o : opts.
  Variable insert_fails : digest -> bool.
  Variable seen : list digest.
  Hypothesis Hg : o_gdb o = true.

  Lemma stands_hash F x y : node F x -> sid x = fhash hash (raws x) -> stands x y ->
    exists s', get_hash hash false (view (o_rdb o) y) = Ok (sid x, s') /\
      (s' = view (o_rdb o) y \/ s' = set_hash (view (o_rdb o) y) (Some (sid x))) /\
      get_hash hash false s' = Ok (sid x, s').
  Proof.
    intros N Hs [S1 S2 S3 S4]. destruct (o_rdb o); simpl.
    - assert (Et : to_text (reloaded y) = Ok (formula_text (raws x))).
      { rewrite <- S2, <- (reloaded_raws y). apply to_text_eq; auto.
        - intros E. apply (rd_ne _ _ (n_ready _ _ N)). apply raws_nil. rewrite <- S2, <- reloaded_raws. unfold raws.
          rewrite E. reflexivity.
        - rewrite reloaded_raws, S2. apply (n_ready _ _ N). }
      rewrite (get_hash_none hash (reloaded y) _ eq_refl Et). fold (fhash hash (raws x)). rewrite <- Hs.
      eexists; split; [reflexivity|]. split; auto.
    - rewrite (get_hash_some hash _ _ S4). eexists; split; [reflexivity|]. split; auto.
      apply get_hash_some; auto.
  Qed.

  (* a child loaded from the table, and the branch it becomes *)
  Inductive pulled : cset -> kid -> Prop :=
  | pulled_leaf v : pulled (set_value empty_set (Some v)) (KLeaf v [])
  | pulled_node F c : node F c ->
      pulled (set_hash (set_of_text (formula_text (raws c))) (Some (sid c))) (KNode (dead c)).

  Lemma process_pulled lf m pid c k p : In pid (dkeys (p_children p)) -> pulled c k ->
    exists c2, process_child hash o lf m true pid c p = Ok (c2, kid_status k p, upd o pid k p) /\
      get_hash hash false c2 = Ok (kid_hash hash k, c2) /\ svalue c2 = kid_value k /\
      (forall c', k = KNode c' -> c2 = c').
  Proof.
    intros Hpid HP. unfold process_child. inv HP.
    - assert (Et0 : exists t, to_pretty (set_value empty_set (Some v)) = Ok t).
      { apply to_pretty_total. left. discriminate. }
      destruct Et0 as (t0 & Et0). rewrite Et0. cbn [bind svalue set_value].
      rewrite Et0. cbn [bind].
      assert (Et : to_text (set_value empty_set (Some v)) = Ok (if v then txt "T" else txt "F"))
        by (destruct v; reflexivity).
      rewrite (get_hash_none hash (set_value empty_set (Some v)) _ eq_refl Et). cbn [bind].
      exists (set_hash (set_value empty_set (Some v)) (Some (hash (if v then txt "T" else txt "F")))).
      split; [|split; [apply get_hash_some; simpl; destruct v; reflexivity
                      |split; [simpl; auto | intros; discriminate]]].
      unfold upd, set_sol. cbn [svalue set_hash set_value evaluated_vars empty_set].
      destruct v; [destruct (p_solution p)|]; reflexivity.
    - destruct (node_storable F c0 H) as (S1 & S2 & S3 & S4 & S5).
      rewrite set_of_formula_text; auto.
      2: { intros E. apply S2. apply raws_nil; auto. }
      set (s := set_hash _ _).
      assert (Hne : clauses s <> []).
      { destruct (dead_storable F c0 H) as (_ & D & _). exact D. }
      destruct (to_pretty_total s) as [t0 Et0]; [right; auto|]. rewrite Et0. cbn [bind].
      assert (Ev : svalue s = None) by reflexivity. rewrite Ev.
      rewrite (get_hash_some hash s (sid c0)) by reflexivity. cbn [bind].
      change (set_id s (sid c0)) with (dead c0).
      destruct (to_pretty_total (dead c0)) as [t1 Et1]; [right; auto|]. rewrite Et1. cbn [bind].
      rewrite (get_hash_some hash (dead c0) (sid c0)) by reflexivity. cbn [bind].
      unfold kid_status, is_new, upd, is_new, upd_children. change (sid (dead c0)) with (sid c0).
      destruct (dmem text_eqb (sid c0) (p_children p)) eqn:Em; cbn [negb].
      + rewrite append_child_ok by auto. cbn [bind].
        eexists; split; [reflexivity|]. split; [apply get_hash_some; auto|].
        split; [reflexivity | intros c' E; inv E; auto].
      + rewrite append_child_ok by (apply (dset_keys_incl _ tspec); auto). cbn [bind].
        eexists; split; [reflexivity|]. split; [apply get_hash_some; auto|].
        split; [reflexivity | intros c' E; inv E; auto].
  Qed.

  Definition after_pull (x : cset) (k1 k2 : kid) (p : pstate) (q : squeue) : pstate :=
    let p2 := with_queue (upd o (sid x) k2 (upd o (sid x) k1 (add_found p))) q in
    if both_leaves k1 k2 then add_leaf p2 (sid x) else p2.

  Lemma step_pull F lf m p ever x y ys a b k1 k2 :
    node F x -> sid x = fhash hash (raws x) -> stands x y ->
    qrep (o_rdb o) (p_queue p) ever (y :: ys) -> ever = dkeys (p_children p) -> In (sid x) ever ->
    is_set_in_gdb o seen (sid x) (p_db p) = true ->
    get_children_from_gdb hash (p_db p) (sid x) = Some (a, b) -> pulled a k1 -> pulled b k2 ->
    exists q', step hash insert_fails o seen lf m p = Ok (after_pull x k1 k2 p q') /\
      qrep (o_rdb o) q' (dkeys (p_children (after_pull x k1 k2 p q'))) (ys ++ new_nodes o (sid x) k1 k2 p).
  Proof.
    intros N Hs ST Q Hever Hin Hing Hch P1 P2.
    destruct (qrep_pop _ _ _ _ _ Q) as (q1 & Epop & Q1). subst ever. unfold step. rewrite Epop. cbn [bind].
    destruct (stands_hash F x y N Hs ST) as (cnf & G1 & G2 & G3). rewrite Hg, G1. cbn [bind andb].
    change (p_db (with_queue p q1)) with (p_db p). rewrite Hing, Hch. cbn [bind].
    assert (Esid : sid cnf = sid x).
    { destruct G2 as [->| ->]; cbn [set_hash sid]; rewrite view_sid; apply ST. }
    assert (Eraws : raws cnf = raws x).
    { destruct G2 as [->| ->]; [|change (raws (set_hash (view (o_rdb o) y) (Some (sid x)))) with (raws (view (o_rdb o) y))];
        rewrite view_raws; apply ST. }
    rewrite Esid. set (p0 := add_found (with_queue p q1)).
    destruct (process_pulled lf m (sid x) a k1 p0) as (c1 & A1 & A2 & A3 & A4); auto.
    rewrite A1. cbn [bind].
    destruct (process_pulled lf m (sid x) b k2 (upd o (sid x) k1 p0)) as (c2 & B1 & B2 & B3 & B4); auto.
    { rewrite upd_keys; auto. apply in_app_iff; auto. }
    rewrite B1. cbn [bind]. rewrite A2, B2. cbn [bind].
    assert (Hne : clauses cnf <> []).
    { intros E. apply (rd_ne _ _ (n_ready _ _ N)). apply raws_nil. rewrite <- Eraws. unfold raws. rewrite E. reflexivity. }
    assert (Es : save_parent_children hash insert_fails o seen cnf (kid_hash hash k1) (kid_hash hash k2)
                   (upd o (sid x) k2 (upd o (sid x) k1 p0)) =
                 Ok (SUCCESS, upd o (sid x) k2 (upd o (sid x) k1 p0))).
    { unfold save_parent_children. rewrite G3. cbn [bind].
      rewrite (last_error_ne (clauses cnf) (mkClause [] None false 0)) by auto.
      set (cl := last (clauses cnf) (mkClause [] None false 0)).
      assert (Hcl0 : raw cl <> []).
      { apply (rd_nonempty _ _ (n_ready _ _ N)). rewrite <- Eraws. unfold raws. apply in_map. unfold cl.
        rewrite (app_removelast_last (mkClause [] None false 0) Hne) at 2. apply in_app_iff; simpl; auto. }
      rewrite (last_error_ne (raw cl) 0) by auto. cbn [bind of_option].
      rewrite !upd_db. change (p_db p0) with (p_db p). rewrite Hg, Hing. reflexivity. }
    rewrite Es. cbn [bind].
    assert (Enq : forall k c pp pq ev zs, (forall c', k = KNode c' -> c = c') -> (exists a, pulled a k) ->
        p_queue pp = pq -> forall pst, qrep (o_rdb o) pq ev zs -> ev = dkeys (p_children pst) ->
        exists q', enqueue_if_unique (kid_status k pst) c pp = Ok (with_queue pp q') /\
          qrep (o_rdb o) q' (ev ++ (if is_new k pst then kid_ids k else []))
               (zs ++ match k with KNode c => if is_new k pst then [c] else [] | _ => [] end)).
    { intros k c pp pq ev zs Hcc [a' HP] Hpq pst HQ Hev. unfold kid_status, enqueue_if_unique.
      assert (Hsame : with_queue pp pq = pp) by (rewrite <- Hpq; destruct pp; reflexivity).
      destruct k as [vv d|c'].
      - exists pq. rewrite Hsame. simpl. rewrite !app_nil_r; auto.
      - destruct (is_new (KNode c') pst) eqn:Hn.
        + rewrite (Hcc c' eq_refl). rewrite Hpq.
          destruct (qrep_insert _ _ _ _ c' HQ) as (q' & Ei & Q').
          { intros _. split.
            - inversion HP; subst. eapply dead_storable; eauto.
            - rewrite Hev. simpl in Hn. apply negb_true_iff in Hn. apply (dmem_false _ tspec) in Hn; auto. }
          rewrite Ei. cbn [bind]. eauto.
        + exists pq. rewrite Hsame, !app_nil_r; auto. }
    set (p3 := upd o (sid x) k2 (upd o (sid x) k1 p0)).
    assert (Hq3 : p_queue p3 = q1) by (unfold p3; rewrite !upd_queue; reflexivity).
    destruct (Enq k1 c1 p3 q1 _ ys A4 (ex_intro _ _ P1) Hq3 p0 Q1 eq_refl) as (q2 & F1 & Q2).
    rewrite F1. cbn [bind].
    destruct (Enq k2 c2 (with_queue p3 q2) q2 _ _ B4 (ex_intro _ _ P2) eq_refl (upd o (sid x) k1 p0) Q2) as (q3 & F2 & Q3).
    { rewrite upd_keys; auto. }
    rewrite F2. cbn [bind]. rewrite A3, B3. exists q3.
    assert (Epk : forall k pp, upd o (sid x) k (add_found (with_queue pp q1)) = with_queue (upd o (sid x) k (add_found pp)) q1).
    { intros k pp. unfold upd, set_sol, is_new. destruct k as [[] d|c]; simpl; auto;
        [destruct (p_solution pp)|destruct (negb _)]; reflexivity. }
    assert (Epk2 : forall k pp, upd o (sid x) k (with_queue pp q1) = with_queue (upd o (sid x) k pp) q1).
    { intros k pp. unfold upd, set_sol, is_new. destruct k as [[] d|c]; simpl; auto;
        [destruct (p_solution pp)|destruct (negb _)]; reflexivity. }
    split.
    - f_equal. unfold after_pull, p3, p0. rewrite Epk, Epk2. destruct k1, k2; reflexivity.
    - assert (Hch' : dkeys (p_children (after_pull x k1 k2 p q3)) =
        (dkeys (p_children p) ++ (if is_new k1 p then kid_ids k1 else [])) ++
        (if is_new k2 (upd o (sid x) k1 p) then kid_ids k2 else [])).
      { unfold after_pull. set (pp := upd o (sid x) k2 (upd o (sid x) k1 (add_found p))).
        assert (Ef : p_children (if both_leaves k1 k2 then add_leaf (with_queue pp q3) (sid x) else with_queue pp q3)
                     = p_children pp) by (destruct (both_leaves k1 k2); auto).
        rewrite Ef. unfold pp. rewrite upd_keys by (rewrite upd_keys; auto; apply in_app_iff; auto).
        rewrite upd_keys by auto. change (p_children (add_found p)) with (p_children p).
        unfold is_new. rewrite !upd_p_children. reflexivity. }
      rewrite Hch'. unfold new_nodes. rewrite app_assoc.
      assert (Hk1 : is_new k1 p0 = is_new k1 p) by reflexivity.
      assert (Hk2 : is_new k2 (upd o (sid x) k1 p0) = is_new k2 (upd o (sid x) k1 p)).
      { unfold is_new. rewrite !upd_p_children. reflexivity. }
      rewrite Hk1, Hk2 in Q3. exact Q3.
  Qed.

  (* a loaded set whose children are not all stored cannot be branched *)
  Lemma step_dead F lf m p ever x ys : node F x -> sid x = fhash hash (raws x) -> computed_hash x = Some (sid x) ->
    qrep (o_rdb o) (p_queue p) ever (dead x :: ys) ->
    (is_set_in_gdb o seen (sid x) (p_db p) = true -> get_children_from_gdb hash (p_db p) (sid x) = None) ->
    step hash insert_fails o seen lf m p = Err IndexError.
  Proof.
    intros N Hs Hc Q Hch. destruct (qrep_pop _ _ _ _ _ Q) as (q1 & Epop & Q1). unfold step. rewrite Epop. cbn [bind].
    destruct (stands_hash F x (dead x) N Hs (alike_stands F x _ N Hc (or_intror eq_refl))) as (cnf & G1 & G2 & G3).
    rewrite Hg, G1. cbn [bind andb]. change (p_db (with_queue p q1)) with (p_db p).
    assert (E : (if is_set_in_gdb o seen (sid x) (p_db p) then get_children_from_gdb hash (p_db p) (sid x) else None) = None).
    { destruct (is_set_in_gdb o seen (sid x) (p_db p)); auto. }
    rewrite E.
    assert (Ev : evaluate cnf = Err IndexError).
    { destruct (dead_storable F x N) as (S1 & S2 & S3 & S4 & S5).
      assert (Er : raws cnf = raws (dead x)) by (destruct G2 as [->| ->];
        [|change (raws (set_hash (view (o_rdb o) (dead x)) (Some (sid x)))) with (raws (view (o_rdb o) (dead x)))];
        apply view_raws).
      destruct (clauses cnf) as [|c t] eqn:Ec.
      { exfalso. apply S2. apply raws_nil. rewrite <- Er. unfold raws. rewrite Ec. reflexivity. }
      destruct (raw c) as [|u w] eqn:Ew.
      { exfalso. apply (S3 []); auto. rewrite <- Er. unfold raws. rewrite Ec. simpl. auto. }
      apply (no_names_evaluate cnf c t u w); auto.
      destruct G2 as [->| ->]; cbn [set_hash final_names_map]; destruct (o_rdb o); reflexivity. }
    rewrite Ev. reflexivity.
  Qed.

  (* a node that is evaluated although it is stored: nothing is inserted *)
  Definition off : opts := mkOpts (o_mode o) (o_sort_by_size o) (o_thief o) (o_exit o) (o_rdb o) false (o_no_mem o)
                                  (o_no_stats o) (o_graph o).
  Lemma step_stored F n L K lf m p ever x xs k1 k2 :
    node F x -> sid x = fhash hash (raws x) -> computed_hash x = Some (sid x) ->
    expands hash o lf m x k1 k2 -> kid_ok hash F n L K (view (o_rdb o) x) true k1 ->
    kid_ok hash F n L K (view (o_rdb o) x) false k2 ->
    qrep (o_rdb o) (p_queue p) ever (x :: xs) -> ever = dkeys (p_children p) -> In (sid x) ever ->
    is_set_in_gdb o seen (sid x) (p_db p) = true -> get_children_from_gdb hash (p_db p) (sid x) = None ->
    exists q', step hash insert_fails o seen lf m p = Ok (after hash off x k1 k2 p q') /\
      qrep (o_rdb o) q' (dkeys (p_children (after hash off x k1 k2 p q'))) (xs ++ new_nodes o (sid x) k1 k2 p).
  Proof.
    intros N Hs Hc EX K1 K2 Q Hever Hin Hing Hch.
    assert (Hoff : o_gdb off = true -> @nil digest = [] /\ forall h, insert_fails h = false) by discriminate.
    assert (EX' : expands hash off lf m x k1 k2).
    { destruct EX as (l & rr & E & A & B). exists l, rr. split; auto.
      split; [inv A|inv B]; constructor; auto. }
    destruct (step_spec hash insert_fails off [] Hoff F n L K lf m p (p_queue p) ever x xs k1 k2 N Hs Hc EX' K1 K2
                eq_refl Q Hever Hin ltac:(discriminate)) as (q' & E & Q').
    exists q'. split; [|exact Q'].
    (* the two steps agree *)
    destruct (qrep_pop _ _ _ _ _ Q) as (q1 & Epop & Q1).
    unfold step in *. rewrite Epop in *. cbn [bind] in *. cbn [o_gdb off andb] in E. cbn [bind] in E.
    destruct (view_hash hash o F x N Hs Hc) as (cnf & G1 & G2 & G3).
    rewrite Hg, G1. cbn [bind andb]. change (p_db (with_queue p q1)) with (p_db p). rewrite Hing, Hch.
    assert (Ev : evaluate cnf = evaluate (view (o_rdb o) x)) by (destruct G2 as [->| ->]; reflexivity).
    assert (Esid : sid cnf = sid (view (o_rdb o) x)) by (destruct G2 as [->| ->]; reflexivity).
    assert (Ecl : clauses cnf = clauses (view (o_rdb o) x)) by (destruct G2 as [->| ->]; reflexivity).
    rewrite Ev, Esid. cbv beta iota in E |- *.
    destruct (evaluate (view (o_rdb o) x)) as [[[l rr]|]| |]; cbn [bind] in *; try discriminate.
    change (process_child hash off) with (process_child hash o) in E.
    destruct (process_child hash o lf m false _ l _) as [[[c1 s1] p2]| |] eqn:EA; cbn [bind] in *; try discriminate.
    destruct (process_child hash o lf m false _ rr _) as [[[c2 s2] p3]| |] eqn:EB; cbn [bind] in *; try discriminate.
    destruct (get_hash hash false c1) as [[h1 u1]| |]; cbn [bind] in *; try discriminate.
    destruct (get_hash hash false c2) as [[h2 u2]| |]; cbn [bind] in *; try discriminate.
    assert (Hdb : p_db p3 = p_db p).
    { rewrite (process_child_db _ _ _ _ _ _ _ _ _ _ _ EB), (process_child_db _ _ _ _ _ _ _ _ _ _ _ EA). reflexivity. }
    assert (Esave : save_parent_children hash insert_fails o seen cnf h1 h2 p3 =
                    save_parent_children hash insert_fails off [] (view (o_rdb o) x) h1 h2 p3).
    { unfold save_parent_children. rewrite G3, G1. cbn [bind]. rewrite Ecl, Hg, Hdb. cbn [o_gdb off andb].
      rewrite Hing. reflexivity. }
    change digest with text in *. rewrite Esave. exact E.
  Qed.

  (* evaluating a node that is not stored: as on a fresh table *)
  Lemma step_fresh F x y ys lf m p ever : node F x -> sid x = fhash hash (raws x) -> stands x y ->
    qrep (o_rdb o) (p_queue p) ever (y :: ys) ->
    is_set_in_gdb o seen (sid x) (p_db p) = false -> ~ In (sid x) (dkeys (p_db p)) ->
    step hash insert_fails o seen lf m p = step hash insert_fails o [] lf m p.
  Proof.
    intros N Hs ST Q Hing Hn. destruct (qrep_pop _ _ _ _ _ Q) as (q1 & Epop & Q1). unfold step. rewrite Epop. cbn [bind].
    destruct (stands_hash F x y N Hs ST) as (cnf & G1 & G2 & G3). rewrite Hg, G1. cbn [bind andb].
    change (p_db (with_queue p q1)) with (p_db p). rewrite Hing.
    assert (Hing0 : is_set_in_gdb o [] (sid x) (p_db p) = false).
    { unfold is_set_in_gdb. destruct (o_no_mem o); auto. apply (dmem_false _ tspec); auto. }
    rewrite Hing0.
    destruct (evaluate cnf) as [[[l rr]|]| |]; cbn [bind] in *; auto.
    destruct (process_child hash o lf m false _ l _) as [[[c1 s1] p2]| |] eqn:EA; cbn [bind] in *; auto.
    destruct (process_child hash o lf m false _ rr _) as [[[c2 s2] p3]| |] eqn:EB; cbn [bind] in *; auto.
    destruct (get_hash hash false c1) as [[h1 u1]| |]; cbn [bind] in *; auto.
    destruct (get_hash hash false c2) as [[h2 u2]| |]; cbn [bind] in *; auto.
    assert (Hdb : p_db p3 = p_db p).
    { rewrite (process_child_db _ _ _ _ _ _ _ _ _ _ _ EB), (process_child_db _ _ _ _ _ _ _ _ _ _ _ EA). reflexivity. }
    assert (Esave : save_parent_children hash insert_fails o seen cnf h1 h2 p3 =
                    save_parent_children hash insert_fails o [] cnf h1 h2 p3).
    { unfold save_parent_children. rewrite G3. cbn [bind]. rewrite Hdb, Hing, Hing0. reflexivity. }
    change digest with text in *. rewrite Esave. reflexivity.
  Qed.
End Pull.

