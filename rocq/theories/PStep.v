(* PStep.v -- one iteration of the search loop, and the invariant of the loop.
   Covers both queues and, besides runs without the global DB, runs with a fresh global table. *)
From Coq Require Import String Ascii ZArith List Bool Lia Permutation Sorted.
From Verif Require Import Spec PyBase MSet MText MQueue MDb MSolver SpecRun PLib PClause PRename PLo PNorm PEval PText PQueue PNode.
Import ListNotations.
Open Scope Z_scope.

(* a branch after processing: a constant with the assignment that led to it, or a node *)
Inductive kid := KLeaf (v : bool) (d : list (Z * bool)) | KNode (c : cset).
Definition kid_ids (k : kid) : list digest := match k with KLeaf _ _ => [] | KNode c => [sid c] end.

Definition within (n L K : nat) (s : cset) : Prop :=
  (nvars (raws s) <= n)%nat /\ below_len L (raws s) /\ (List.length (clauses s) <= K)%nat.

Section Step.
  Variable hash : text -> digest.
  Variable insert_fails : digest -> bool.
  Variable o : opts.
  Variable seen_sets : list digest.
  Hypothesis Hgdb : o_gdb o = true -> seen_sets = [] /\ forall h, insert_fails h = false.

  Definition fhash (F : list (list Z)) : digest := hash (formula_text F).
  Definition finish (c : cset) : cset :=
    set_id (set_hash c (Some (fhash (raws c)))) (fhash (raws c)).

  Inductive prepared (lf : nat) (m : mode) (c : cset) : kid -> Prop :=
  | prep_leaf v : svalue c = Some v -> prepared lf m c (KLeaf v (evaluated_vars c))
  | prep_node c0 : svalue c = None ->
      to_lo_condition lf m (o_sort_by_size o) (o_thief o) c = Ok c0 ->
      prepared lf m c (KNode (finish c0)).

  (* the two processed branches of pending item x *)
  Definition expands (lf : nat) (m : mode) (x : cset) (k1 k2 : kid) : Prop :=
    exists l r, evaluate (view (o_rdb o) x) = Ok (Some (l, r)) /\
                prepared lf m l k1 /\ prepared lf m r k2.

  Lemma prepared_fun lf m c k k' : prepared lf m c k -> prepared lf m c k' -> k = k'.
  Proof. intros H1 H2. inv H1; inv H2; congruence. Qed.
  Lemma expands_fun lf m x k1 k2 k1' k2' :
    expands lf m x k1 k2 -> expands lf m x k1' k2' -> k1 = k1' /\ k2 = k2'.
  Proof.
    intros (l & r & E & A1 & A2) (l' & r' & E' & B1 & B2). rewrite E in E'; inv E'.
    split; eapply prepared_fun; eauto.
  Qed.

  (* what is known about a kid of node x *)
  Definition kid_ok (F : list (list Z)) (n L K : nat) (x : cset) (b : bool) (k : kid) : Prop :=
    match k with
    | KLeaf true d => (forall a, extends a d -> cnf_true a F) /\ NoDup (dkeys d) /\ d <> [] /\
                      (forall v, In v (dkeys d) -> In v (dkeys (evaluated_vars x)) \/ In v (fvars F)) /\
                      incl (evaluated_vars x) d
    | KLeaf false d => forall a, a (pivot_of x) = b -> ~ cnf_true a (raws x)
    | KNode c => node F c /\ sid c = fhash (raws c) /\ computed_hash c = Some (sid c) /\
                 (nvars (raws c) < nvars (raws x))%nat /\ within n L K c /\
                 List.length (evaluated_vars c) = S (List.length (evaluated_vars x)) /\
                 (satisfiable (raws c) -> satisfiable (raws x)) /\
                 (forall a, a (pivot_of x) = b -> cnf_true a (raws x) -> satisfiable (raws c)) /\
                 (forall v, In v (dkeys (evaluated_vars c)) -> In v (dkeys (evaluated_vars x)) \/ In v (fvars F)) /\
                 incl (evaluated_vars x) (evaluated_vars c)
    end /\
    (forall v d, k = KLeaf v d -> v = true -> satisfiable (raws x)).

  Lemma finish_raws c : raws (finish c) = raws c. Proof. reflexivity. Qed.

  Lemma expand_total F n L K lf m x : node F x -> within n L K x ->
    (lo_bound n L K <= lf)%nat ->
    exists k1 k2, expands lf m x k1 k2 /\ kid_ok F n L K (view (o_rdb o) x) true k1 /\
                  kid_ok F n L K (view (o_rdb o) x) false k2.
  Proof.
    intros N0 (W1 & W2 & W3) Hlf.
    set (y := view (o_rdb o) x). assert (N : node F y) by (apply node_view; auto).
    rewrite <- (view_raws (o_rdb o)) in W1, W2. rewrite <- (view_clen (o_rdb o)) in W3.
    destruct (node_evaluate F y N) as (l & r & po & E & P1 & P2 & P3 & P4 & P5 & C1 & C2).
    assert (K1 : forall b c, child_of y (pivot_of y) po b c ->
              exists k, prepared lf m c k /\ kid_ok F n L K y b k).
    { intros b c C. destruct (svalue c) as [v|] eqn:Hv.
      - exists (KLeaf v (evaluated_vars c)). split; [constructor; auto|]. split.
        + destruct v.
          * split; [eapply child_leaf_true; eauto|]. rewrite (ch_evaluated _ _ _ _ _ C). split.
            -- apply dset_NoDup; [apply zspec | apply N].
            -- split.
               ++ rewrite (dset_new _ zspec) by auto. destruct (evaluated_vars y); discriminate.
               ++ split.
                  ** intros w Hw. apply (dset_keys_incl _ zspec) in Hw as [->|Hw]; auto.
                  ** rewrite (dset_new _ zspec) by auto. intros w Hw; apply in_app_iff; auto.
          * intros a Ha. eapply child_false; eauto.
        + intros v0 d E0 ->. inv E0.
          exists (fun w => if w =? pivot_of y then b else false). 
          eapply (child_true _ _ _ _ _ C Hv). rewrite Z.eqb_refl; auto.
      - destruct (to_lo_total lf m (o_sort_by_size o) (o_thief o) c L) as [c0 Ec0].
        + eapply child_pre_lo; eauto.
        + eapply child_below_len; eauto.
        + etransitivity; [|exact Hlf]. apply lo_bound_mono; auto.
          * pose proof (child_nvars _ _ _ _ _ C P1). unfold y in *. lia.
          * pose proof (ch_len _ _ _ _ _ C). unfold y in *; lia.
        + exists (KNode (finish c0)). split; [constructor; auto|]. split.
          2: { intros v d E0; discriminate. }
          destruct (to_lo_spec _ _ _ _ _ _ (child_pre_lo _ _ _ _ _ C Hv) Ec0) as (f & NM & R & _).
          destruct (child_node F y po b c f c0 N P2 P1 P5 P3 P4 C Hv NM R) as (A1 & A2 & A3 & A4 & A5).
          split; [apply node_set_id, node_set_hash; auto|]. split; [reflexivity|]. split; [reflexivity|].
          rewrite finish_raws. split; [auto|]. split.
          { split; [rewrite finish_raws; unfold y in *; lia|]. split.
            - rewrite finish_raws. eapply norm_below_len; eauto. eapply child_below_len; eauto.
            - simpl. unfold y in *; lia. }
          split; [|split].
          * simpl. rewrite A4, app_length. simpl. lia.
          * eapply child_sat_back; eauto. intros Hi. apply (child_vars _ _ _ _ _ C) in Hi as [_ Hi]. auto.
          * split; [intros a Ha Ht; eapply child_sat; eauto|].
            change (evaluated_vars (finish c0)) with (evaluated_vars c0). rewrite A4. split.
            -- intros w Hw. unfold dkeys in Hw. rewrite map_app in Hw. apply in_app_iff in Hw as [Hw|[<-|[]]]; auto.
            -- intros w Hw. apply in_app_iff; auto. }
    destruct (K1 true l C1) as (k1 & A1 & A2). destruct (K1 false r C2) as (k2 & B1 & B2).
    exists k1, k2. split; [exists l, r; auto | auto].
  Qed.

  (* ---- process_child ---- *)
  Definition kids_at (pid : digest) (d : list (digest * list digest)) : list digest :=
    match dget text_eqb pid d with Some l => l | None => [] end.
  Definition is_new (k : kid) (p : pstate) : bool :=
    match k with KNode c => negb (dmem text_eqb (sid c) (p_children p)) | _ => false end.
  Definition upd_children (pid : digest) (k : kid) (d : list (digest * list digest)) :=
    match k with
    | KLeaf _ _ => d
    | KNode c => let d' := if dmem text_eqb (sid c) d then d else dset text_eqb (sid c) [] d in
                 dset text_eqb pid (kids_at pid d' ++ [sid c]) d'
    end.
  Definition set_sol (d : list (Z * bool)) (p : pstate) : pstate :=
    match p_solution p with None => with_solution p (Some (sort_items d)) | Some _ => p end.
  Definition kid_dots (pid : digest) (k : kid) (isnew : bool) : list dotcmd :=
    match k with
    | KLeaf v _ => [DotLeaf v; DotLeafEdge pid v]
    | KNode c => [if isnew then DotNode (sid c) c else DotRed (sid c); DotEdge pid (sid c)]
    end.
  Definition upd (pid : digest) (k : kid) (p : pstate) : pstate :=
    add_dot (o_graph o)
      match k with
      | KLeaf v d => if v then with_sat (set_sol d p) true else p
      | KNode c => with_children (if is_new k p then add_unique p else add_hit p (sid c))
                                 (upd_children pid k (p_children p))
      end
      (kid_dots pid k (is_new k p)).
  Definition kid_status (k : kid) (p : pstate) : status :=
    match k with
    | KLeaf _ _ => NODE_EVALUATED
    | KNode c => if is_new k p then NODE_UNIQUE else NODE_REDUNDANT
    end.
  Definition kid_hash (k : kid) : digest :=
    match k with KLeaf true _ => hash (txt "T") | KLeaf false _ => hash (txt "F") | KNode c => sid c end.
  Definition kid_value (k : kid) : option bool :=
    match k with KLeaf v _ => Some v | KNode _ => None end.

  Lemma append_child_ok pid x d : In pid (dkeys d) ->
    append_child pid x d = Ok (dset text_eqb pid (kids_at pid d ++ [x]) d).
  Proof.
    intros H. unfold append_child, kids_at. destruct (dget text_eqb pid d) eqn:E; auto.
    apply (dget_None _ tspec) in E. contradiction.
  Qed.
  Lemma get_hash_some s h : computed_hash s = Some h -> get_hash hash false s = Ok (h, s).
  Proof. intros E. unfold get_hash. rewrite E. auto. Qed.
  Lemma get_hash_force s t : to_text s = Ok t -> get_hash hash true s = Ok (hash t, set_hash s (Some (hash t))).
  Proof. intros E. unfold get_hash. rewrite E. destruct (computed_hash s); auto. Qed.
  Lemma get_hash_none s t : computed_hash s = None -> to_text s = Ok t ->
    get_hash hash false s = Ok (hash t, set_hash s (Some (hash t))).
  Proof. intros E1 E. unfold get_hash. rewrite E1, E. auto. Qed.

  Lemma process_child_spec F n L K x b lf m pid c k p :
    In pid (dkeys (p_children p)) -> computed_hash c = None ->
    (svalue c = None -> clauses c <> []) ->
    prepared lf m c k -> kid_ok F n L K x b k ->
    exists c2, process_child hash o lf m false pid c p = Ok (c2, kid_status k p, upd pid k p) /\
      get_hash hash false c2 = Ok (kid_hash k, c2) /\ svalue c2 = kid_value k /\
      (forall c', k = KNode c' -> c2 = c').
  Proof.
    intros Hpid Hh Hne HP HK. unfold process_child.
    destruct (to_pretty_total c) as [t0 Et0].
    { destruct (svalue c); [left; discriminate | right; auto]. }
    rewrite Et0; cbn [bind]. inv HP.
    - rewrite H. cbn [bind].
      rewrite Et0; cbn [bind].
      assert (Et : to_text c = Ok (if v then txt "T" else txt "F"))
        by (unfold to_text; rewrite H; destruct v; auto).
      rewrite (get_hash_none c _ Hh Et). cbn [bind set_hash svalue].
      exists (set_hash c (Some (hash (if v then txt "T" else txt "F")))).
      split; [|split; [apply get_hash_some; simpl; destruct v; reflexivity
                      |split; [simpl; auto | intros; discriminate]]].
      unfold upd, set_sol. cbn [svalue set_hash]. rewrite H.
      destruct v; [destruct (p_solution p)|]; reflexivity.
    - rewrite H. rewrite H0. cbn [bind].
      destruct HK as [(N & Hs & Hc & _) _].
      assert (Et : to_text c0 = Ok (formula_text (raws c0))).
      { pose proof (n_ready _ _ N) as R. apply to_text_eq.
        - exact (n_value _ _ N). - exact (rd_ne _ _ R). - exact (rd_nonempty _ _ R). }
      rewrite (get_hash_force _ _ Et). cbn [bind].
      rewrite (get_hash_some _ (hash (formula_text (raws c0)))) by reflexivity. cbn [bind].
      fold (fhash (raws c0)). change (set_id (set_hash c0 (Some (fhash (raws c0)))) (fhash (raws c0))) with (finish c0).
      destruct (to_pretty_total (finish c0)) as [t1 Et1].
      { right. apply (rd_ne _ _ (n_ready _ _ N)). }
      unfold kid_status, is_new. change (sid (finish c0)) with (fhash (raws c0)).
      unfold upd, is_new, upd_children. change (sid (finish c0)) with (fhash (raws c0)).
      destruct (dmem text_eqb (fhash (raws c0)) (p_children p)) eqn:Em; cbn [negb].
      + rewrite Et1; cbn [bind]. rewrite (get_hash_some (finish c0) _ Hc). cbn [bind].
        rewrite append_child_ok by auto. cbn [bind].
        eexists; split; [reflexivity|]. split; [apply get_hash_some; auto|].
        split; [exact (n_value _ _ N) | intros c' E; inv E; auto].
      + rewrite Et1; cbn [bind]. rewrite (get_hash_some (finish c0) _ Hc). cbn [bind].
        rewrite append_child_ok by (apply (dset_keys_incl _ tspec); auto). cbn [bind].
        eexists; split; [reflexivity|]. split; [apply get_hash_some; auto|].
        split; [exact (n_value _ _ N) | intros c' E; inv E; auto].
  Qed.

  (* effect on the recorded graph *)
  Lemma upd_p_children pid k p : p_children (upd pid k p) = upd_children pid k (p_children p).
  Proof.
    unfold upd. destruct k as [[] d|c]; simpl; auto. unfold set_sol. destruct (p_solution p); auto.
  Qed.
  Lemma upd_keys pid k p : In pid (dkeys (p_children p)) ->
    dkeys (p_children (upd pid k p)) = dkeys (p_children p) ++ (if is_new k p then kid_ids k else []).
  Proof.
    intros Hp. rewrite upd_p_children. destruct k as [v d|c]; simpl; [rewrite app_nil_r; auto|].
    destruct (dmem text_eqb (sid c) (p_children p)) eqn:E; cbn [negb].
    - rewrite (dset_keys _ tspec). rewrite (proj2 (dmem_In _ tspec _ _) Hp), app_nil_r; auto.
    - rewrite !(dset_keys _ tspec), E.
      assert (Hm : dmem text_eqb pid (dset text_eqb (sid c) [] (p_children p)) = true)
        by (apply (dmem_In _ tspec), (dset_keys_incl _ tspec); auto).
      rewrite Hm; auto.
  Qed.
  Lemma upd_get pid k p h : In pid (dkeys (p_children p)) ->
    dget text_eqb h (p_children (upd pid k p)) =
      if text_eqb h pid then Some (kids_at pid (p_children p) ++ kid_ids k)
      else if is_new k p && existsb (text_eqb h) (kid_ids k) then Some []
      else dget text_eqb h (p_children p).
  Proof.
    intros Hp. rewrite upd_p_children. destruct k as [v d|c]; simpl.
    - destruct (text_eqb_spec h pid) as [->|]; auto. unfold kids_at. rewrite app_nil_r.
      destruct (dget text_eqb pid (p_children p)) eqn:E; auto. apply (dget_None _ tspec) in E; contradiction.
    - destruct (dmem text_eqb (sid c) (p_children p)) eqn:E; cbn [negb andb].
      + destruct (text_eqb_spec h pid) as [->|Hne].
        * rewrite (dget_dset_same _ tspec); auto.
        * rewrite (dget_dset_other _ tspec) by auto. auto.
      + apply (dmem_false _ tspec) in E.
        assert (Hne2 : sid c <> pid) by (intros E2; apply E; rewrite E2; auto).
        destruct (text_eqb_spec h pid) as [->|Hne].
        * rewrite (dget_dset_same _ tspec). unfold kids_at.
          rewrite (dget_dset_other _ tspec) by auto. auto.
        * rewrite (dget_dset_other _ tspec) by auto. rewrite orb_false_r.
          destruct (text_eqb_spec h (sid c)) as [->|Hne3].
          -- rewrite (dget_dset_same _ tspec); auto.
          -- rewrite (dget_dset_other _ tspec) by auto. auto.
  Qed.

  (* ---- one iteration ---- *)
  Definition row_of (x : cset) (k1 k2 : kid) : digest * row :=
    (sid x, mkRow (formula_text (raws x)) (kid_hash k1) (kid_hash k2)
                  (Z.of_nat (List.length (clauses x)))
                  (Z.abs (last (last (raws x) []) 0)) 0 0 0 0).
  Definition both_leaves (k1 k2 : kid) : bool :=
    match k1, k2 with KLeaf _ _, KLeaf _ _ => true | _, _ => false end.
  Definition new_nodes (pid : digest) (k1 k2 : kid) (p : pstate) : list cset :=
    (match k1 with KNode c => if is_new k1 p then [c] else [] | _ => [] end) ++
    (match k2 with KNode c => if is_new k2 (upd pid k1 p) then [c] else [] | _ => [] end).
  Definition after (x : cset) (k1 k2 : kid) (p : pstate) (q : squeue) : pstate :=
    let p2 := upd (sid x) k2 (upd (sid x) k1 p) in
    let p3 := if o_gdb o then with_db p2 (p_db p ++ [row_of x k1 k2]) else p2 in
    let p4 := with_queue p3 q in
    if both_leaves k1 k2 then add_leaf p4 (sid x) else p4.

  Lemma last_error_ne {A} (l : list A) d : l <> [] -> last_error l = Some (last l d).
  Proof.
    intros H. unfold last_error. rewrite (app_removelast_last d H) at 1.
    rewrite rev_app_distr. reflexivity.
  Qed.
  Lemma last_map {A B} (f : A -> B) l d : last (map f l) (f d) = f (last l d).
  Proof. induction l as [|x [|y t] IH]; simpl in *; auto. Qed.
  Lemma upd_queue pid k p : p_queue (upd pid k p) = p_queue p.
  Proof. unfold upd, set_sol. destruct k as [[] d|c]; simpl; auto; [destruct (p_solution p)|destruct (negb _)]; auto. Qed.
  Lemma upd_db pid k p : p_db (upd pid k p) = p_db p.
  Proof. unfold upd, set_sol. destruct k as [[] d|c]; simpl; auto; [destruct (p_solution p)|destruct (negb _)]; auto. Qed.

  Lemma evaluate_set_hash s h : evaluate (set_hash s h) = evaluate s. Proof. reflexivity. Qed.
  Lemma view_hash F x : node F x -> sid x = fhash (raws x) -> computed_hash x = Some (sid x) ->
    exists s', get_hash hash false (view (o_rdb o) x) = Ok (sid x, s') /\
      (s' = view (o_rdb o) x \/ s' = set_hash (view (o_rdb o) x) (Some (sid x))) /\
      get_hash hash false s' = Ok (sid x, s').
  Proof.
    intros N Hs Hc. destruct (o_rdb o); simpl.
    - pose proof (node_text F _ (node_reloaded F x N)) as Et. rewrite reloaded_raws in Et.
      rewrite (get_hash_none (reloaded x) _ eq_refl Et). fold (fhash (raws x)). rewrite <- Hs.
      eexists; split; [reflexivity|]. split; auto.
    - rewrite (get_hash_some _ _ Hc). eexists; split; [reflexivity|]. split; auto.
      apply get_hash_some; auto.
  Qed.

  (* [ever]: the ids the queue has seen; all of them are recorded nodes *)
  Lemma step_spec_gen F n L K lf m p q ever x xs k1 k2 :
    node F x -> sid x = fhash (raws x) -> computed_hash x = Some (sid x) ->
    expands lf m x k1 k2 -> kid_ok F n L K (view (o_rdb o) x) true k1 ->
    kid_ok F n L K (view (o_rdb o) x) false k2 ->
    p_queue p = q -> qrep (o_rdb o) q ever (x :: xs) ->
    incl ever (dkeys (p_children p)) -> In (sid x) (dkeys (p_children p)) ->
    (o_gdb o = true -> is_set_in_gdb o seen_sets (sid x) (p_db p) = false) ->
    (o_gdb o = true -> ~ In (sid x) (dkeys (p_db p))) ->
    exists q', step hash insert_fails o seen_sets lf m p = Ok (after x k1 k2 p q') /\
      qrep (o_rdb o) q' (ever ++ (if is_new k1 p then kid_ids k1 else []) ++
                                 (if is_new k2 (upd (sid x) k1 p) then kid_ids k2 else []))
           (xs ++ new_nodes (sid x) k1 k2 p).
  Proof.
    intros N Hs Hc (l & r & Ev & Pl & Pr) K1 K2 Eq Q Hever Hin Hing Hdb.
    destruct (qrep_pop _ _ _ _ _ Q) as (q1 & Epop & Q1). unfold step. rewrite Eq, Epop. cbn [bind].
    set (p0 := with_queue p q1).
    set (v := view (o_rdb o) x) in *.
    assert (Nv : node F v) by (apply node_view; auto).
    (* the hash, needed only with the global DB *)
    destruct (view_hash F x N Hs Hc) as (s' & G1 & G2 & G3). fold v in G1, G2.
    assert (Ecnf : exists ph cnf, (if o_gdb o then get_hash hash false v else Ok ([], v)) = Ok (ph, cnf) /\
        (cnf = v \/ cnf = set_hash v (Some (sid x))) /\
        (o_gdb o && is_set_in_gdb o seen_sets ph (p_db p0) = false)).
    { destruct (o_gdb o) eqn:Hg.
      - exists (sid x), s'. split; auto. 
      - exists [], v. auto. }
    destruct Ecnf as (ph & cnf & E1 & E2 & E3). rewrite E1. cbn [bind]. rewrite E3.
    assert (Ev' : evaluate cnf = Ok (Some (l, r))) by (destruct E2 as [->| ->]; auto).
    assert (Esid : sid cnf = sid x).
    { destruct E2 as [->| ->]; simpl; unfold v; rewrite view_sid; auto. }
    rewrite Ev'. cbn [bind]. rewrite Esid.
    destruct (node_evaluate F v Nv) as (l0 & r0 & po & E0 & P1 & P2 & P3 & P4 & P5 & C1 & C2).
    rewrite Ev in E0; injection E0 as -> ->.
    destruct (process_child_spec F n L K v true lf m (sid x) l0 k1 p0) as (c1 & A1 & A2 & A3 & A4); auto.
    { apply (ch_hash _ _ _ _ _ C1). } { intros Hv. eapply child_none; eauto. }
    rewrite A1. cbn [bind].
    destruct (process_child_spec F n L K v false lf m (sid x) r0 k2 (upd (sid x) k1 p0)) as (c2 & B1 & B2 & B3 & B4); auto.
    { rewrite upd_keys; auto. apply in_app_iff; auto. }
    { apply (ch_hash _ _ _ _ _ C2). } { intros Hv. eapply child_none; eauto. }
    rewrite B1. cbn [bind]. rewrite A2, B2. cbn [bind].
    (* saving the parent *)
    assert (Hne : clauses v <> []) by apply (n_ready _ _ Nv).
    assert (Es : save_parent_children hash insert_fails o seen_sets cnf (kid_hash k1) (kid_hash k2)
                   (upd (sid x) k2 (upd (sid x) k1 p0)) =
                 Ok (SUCCESS, if o_gdb o then with_db (upd (sid x) k2 (upd (sid x) k1 p0))
                                                  (p_db p ++ [row_of x k1 k2])
                              else upd (sid x) k2 (upd (sid x) k1 p0))).
    { unfold save_parent_children.
      assert (Eh : exists s2, get_hash hash false cnf = Ok (sid x, s2)).
      { destruct E2 as [->| ->]; [eauto|]. eexists. apply get_hash_some. reflexivity. }
      destruct Eh as (s2 & Eh). rewrite Eh. cbn [bind].
      assert (Ecl : clauses cnf = clauses v) by (destruct E2 as [->| ->]; auto). rewrite Ecl.
      rewrite (last_error_ne (clauses v) (mkClause [] None false 0)) by auto.
      set (cl := last (clauses v) (mkClause [] None false 0)).
      assert (Hcl : raw cl = last (raws x) []).
      { unfold cl. rewrite <- (view_raws (o_rdb o) x). fold v. unfold raws.
        change (@nil Z) with (raw (mkClause [] None false 0)). rewrite last_map. auto. }
      assert (Hcl0 : raw cl <> []).
      { apply (rd_nonempty _ _ (n_ready _ _ Nv)). unfold raws. apply in_map. unfold cl.
        rewrite (app_removelast_last (mkClause [] None false 0) Hne) at 2. apply in_app_iff; simpl; auto. }
      rewrite (last_error_ne (raw cl) 0) by auto. cbn [bind of_option].
      rewrite !upd_db. change (p_db p0) with (p_db p).
      destruct (o_gdb o) eqn:Hg; cbn [andb]; [|reflexivity].
      rewrite Hing by auto. cbn [negb].
      assert (Et : to_text cnf = Ok (formula_text (raws x))).
      { rewrite <- (view_raws (o_rdb o) x). fold v.
        destruct E2 as [->| ->]; [apply (node_text F); auto | exact (node_text F (set_hash v (Some (sid x))) (node_set_hash _ _ _ Nv))]. }
      rewrite Et. cbn [bind]. unfold gs_insert_row. destruct (Hgdb eq_refl) as [_ Hf]. rewrite Hf. cbn [orb].
      rewrite (proj2 (dmem_false _ tspec _ _)) by auto. unfold row_of. rewrite Hcl.
      unfold v. rewrite view_clen. reflexivity. }
    rewrite Es. cbn [bind].
    set (p3 := if o_gdb o then with_db _ _ else _).
    assert (Hq3 : p_queue p3 = q1).
    { unfold p3. destruct (o_gdb o); cbn [with_db p_queue]; rewrite !upd_queue; reflexivity. }
    assert (Hp0c : p_children p0 = p_children p) by reflexivity.
    assert (Hk1 : is_new k1 p0 = is_new k1 p) by (unfold is_new; rewrite Hp0c; auto).
    assert (Hk2 : is_new k2 (upd (sid x) k1 p0) = is_new k2 (upd (sid x) k1 p)).
    { unfold is_new. rewrite !upd_p_children, Hp0c; auto. }
    assert (Hnewid : forall k b, kid_ok F n L K v b k -> forall pp, is_new k pp = true ->
      exists c, k = KNode c /\ storable c /\ ~ In (sid c) (dkeys (p_children pp))).
    { intros k b HK pp Hn. destruct k as [|c]; [discriminate|]. exists c. split; auto.
      destruct HK as [(Nc & _) _]. split; [eapply node_storable; eauto|]. simpl in Hn.
      apply negb_true_iff in Hn. apply (dmem_false _ tspec) in Hn; auto. }
    (* enqueueing *)
    assert (Enq : forall k c b pp pq ev ys, kid_ok F n L K v b k -> (forall c', k = KNode c' -> c = c') ->
        p_queue pp = pq -> forall pst, qrep (o_rdb o) pq ev ys -> incl ev (dkeys (p_children pst)) ->
        exists q', enqueue_if_unique (kid_status k pst) c pp = Ok (with_queue pp q') /\
          qrep (o_rdb o) q' (ev ++ (if is_new k pst then kid_ids k else []))
               (ys ++ match k with KNode c => if is_new k pst then [c] else [] | _ => [] end)).
    { intros k c b pp pq ev ys HK Hcc Hpq pst HQ Hev. unfold kid_status, enqueue_if_unique.
      assert (Hsame : with_queue pp pq = pp) by (rewrite <- Hpq; destruct pp; reflexivity).
      destruct k as [vv d|c'].
      - exists pq. rewrite Hsame. simpl. rewrite !app_nil_r; auto.
      - destruct (is_new (KNode c') pst) eqn:Hn.
        + destruct (Hnewid _ b HK pst Hn) as (c'' & Ec & Hst & Hni). injection Ec as <-.
          rewrite (Hcc c' eq_refl). assert (Hni' : ~ In (sid c') ev) by (intros Hi; apply Hni, Hev; auto).
          destruct (qrep_insert _ _ _ _ c' HQ) as (q' & Ei & Q'); [intros _; split; auto|].
          rewrite Hpq.
          rewrite Ei. cbn [bind]. eauto.
        + exists pq. rewrite Hsame, !app_nil_r; auto. }
    destruct (Enq k1 c1 true p3 q1 _ xs K1 A4 Hq3 p0 Q1 Hever) as (q2 & F1 & Q2).
    rewrite F1. cbn [bind].
    destruct (Enq k2 c2 false (with_queue p3 q2) q2 _ _ K2 B4 eq_refl (upd (sid x) k1 p0) Q2) as (q3 & F2 & Q3).
    { rewrite upd_keys by (rewrite Hp0c; auto). rewrite Hp0c. intros h Hh. apply in_app_iff in Hh as [Hh|Hh];
        apply in_app_iff; auto. }
    rewrite F2. cbn [bind]. rewrite A3, B3.
    exists q3. split.
    - f_equal. unfold after. fold p0.
      assert (Epk : forall k pp, upd (sid x) k (with_queue pp q1) = with_queue (upd (sid x) k pp) q1).
      { intros k pp. unfold upd, set_sol, is_new. destruct k as [[] d|c]; simpl; auto;
          [destruct (p_solution pp)|destruct (negb _)]; reflexivity. }
      unfold p3, p0. rewrite !Epk.
      destruct (o_gdb o), k1, k2; reflexivity.
    - unfold new_nodes. rewrite Hk1, Hk2 in Q3. rewrite <- !app_assoc in Q3. exact Q3.
  Qed.

  Lemma step_spec F n L K lf m p q ever x xs k1 k2 :
    node F x -> sid x = fhash (raws x) -> computed_hash x = Some (sid x) ->
    expands lf m x k1 k2 -> kid_ok F n L K (view (o_rdb o) x) true k1 ->
    kid_ok F n L K (view (o_rdb o) x) false k2 ->
    p_queue p = q -> qrep (o_rdb o) q ever (x :: xs) ->
    ever = dkeys (p_children p) -> In (sid x) ever ->
    (o_gdb o = true -> ~ In (sid x) (dkeys (p_db p))) ->
    exists q', step hash insert_fails o seen_sets lf m p = Ok (after x k1 k2 p q') /\
      qrep (o_rdb o) q' (dkeys (p_children (after x k1 k2 p q'))) (xs ++ new_nodes (sid x) k1 k2 p).
  Proof.
    intros N Hs Hc EX K1 K2 Eq Q Hever Hin Hdb. subst ever.
    assert (Hing : o_gdb o = true -> is_set_in_gdb o seen_sets (sid x) (p_db p) = false).
    { intros Hg. unfold is_set_in_gdb. destruct (Hgdb Hg) as [-> _]. destruct (o_no_mem o); auto.
      apply (dmem_false _ tspec); auto. }
    destruct (step_spec_gen F n L K lf m p q _ x xs k1 k2 N Hs Hc EX K1 K2 Eq Q (incl_refl _) Hin Hing Hdb)
      as (q3 & Es & Q3).
    exists q3. split; auto.
    assert (Hch : dkeys (p_children (after x k1 k2 p q3)) =
      (dkeys (p_children p) ++ (if is_new k1 p then kid_ids k1 else [])) ++
      (if is_new k2 (upd (sid x) k1 p) then kid_ids k2 else [])).
    { unfold after. set (pp := if o_gdb o then _ else _).
      assert (Epp : p_children pp = p_children (upd (sid x) k2 (upd (sid x) k1 p)))
        by (unfold pp; destruct (o_gdb o); auto).
      assert (Ef : p_children (if both_leaves k1 k2 then add_leaf (with_queue pp q3) (sid x) else with_queue pp q3)
                   = p_children pp) by (destruct (both_leaves k1 k2); auto).
      rewrite Ef, Epp. rewrite upd_keys; [rewrite upd_keys; auto|rewrite upd_keys; [apply in_app_iff; left|]];
        auto. }
    rewrite Hch, <- app_assoc. exact Q3.
  Qed.
End Step.
