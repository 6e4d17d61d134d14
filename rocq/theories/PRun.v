(* PRun.v -- the root of the search, the invariant of the loop, termination. *)
From Coq Require Import String Ascii ZArith List Bool Lia Permutation Sorted.
From Verif Require Import Spec PyBase MSet MText MQueue MDb MSolver SpecRun PLib PClause PRename PLo PNorm PEval PText PQueue PNode PStep.
Import ListNotations.
Open Scope Z_scope.

Lemma norm_sat f s s' : norm f s s' -> (satisfiable (raws s) <-> satisfiable (raws s')).
Proof.
  intros NM. split.
  - intros (a & H).
    set (g := fun w => match find (fun v => f v =? w) (fvars (raws s)) with Some v => a v | None => false end).
    exists g. apply (norm_true f s s' g NM). eapply cnf_true_ext; [|exact H].
    intros v Hv'. unfold g. destruct (find _ _) as [u|] eqn:E.
    + apply find_some in E as [E1 E2]. apply Z.eqb_eq in E2. f_equal. symmetry. apply (nl_inj _ _ _ NM); auto.
    + exfalso. apply (find_none _ _ E) in Hv'. rewrite Z.eqb_refl in Hv'. discriminate.
  - intros (a & H). apply (norm_true f s s' a NM) in H. eexists; eauto.
Qed.
Lemma dget_combine_same l v : In v l -> dget Z.eqb v (combine l l) = Some v.
Proof.
  induction l as [|x l IH]; simpl; [tauto|]. intros [->|H]; [rewrite Z.eqb_refl; auto|].
  destruct (Z.eqb_spec v x); subst; auto.
Qed.
Lemma dkeys_combine {A} (l : list A) : dkeys (combine l l) = l.
Proof. induction l; simpl; congruence. Qed.

Lemma root_node f s r : root_ok s ->
  norm f (set_original s (combine (get_variables s) (get_variables s))) r ->
  ready (nvars (raws s)) r ->
  node (raws s) r /\ evaluated_vars r = evaluated_vars s /\ nvars (raws r) = nvars (raws s).
Proof.
  intros RO NM R. set (s0 := set_original s (combine (get_variables s) (get_variables s))) in *.
  assert (Er : raws s0 = raws s) by reflexivity.
  assert (Hnv : nvars (raws r) = nvars (raws s)) by (apply ready_nvars; auto).
  assert (Hev : evaluated_vars r = evaluated_vars s) by (rewrite (nl_evaluated _ _ _ NM); auto).
  assert (Ho : forall v, In v (fvars (raws s)) -> orig r (f v) = Some v).
  { intros v Hv. unfold orig. rewrite (nl_names _ _ _ NM) by (rewrite Er; auto).
    unfold name_at. change (final_names_map s0) with (final_names_map s).
    rewrite (ro_names _ RO), (nl_original _ _ _ NM).
    change (original_values s0) with (combine (get_variables s) (get_variables s)).
    apply dget_combine_same, get_variables_In; auto. }
  split; [|auto]. constructor.
  - rewrite Hnv; auto.
  - eapply norm_distinct; [eauto|]. rewrite Er. apply RO.
  - eapply norm_undecided; [eauto|]. apply RO.
  - rewrite (nl_value _ _ _ NM). apply RO.
  - intros w Hw. apply (norm_vars _ _ _ NM) in Hw as (v & Hv & <-). rewrite Er in Hv.
    exists v. rewrite Ho by auto. split; auto. split; [eapply fvars_nonneg; eauto|]. split; auto.
    rewrite Hev. intros Hi. exact (ro_disj _ RO v Hi Hv).
  - intros w1 w2 Hw1 Hw2 E.
    apply (norm_vars _ _ _ NM) in Hw1 as (v1 & Hv1 & <-).
    apply (norm_vars _ _ _ NM) in Hw2 as (v2 & Hv2 & <-).
    rewrite Er in *. rewrite !Ho in E by auto. congruence.
  - rewrite Hev; apply RO.
  - rewrite Hev; apply RO.
  - rewrite (nl_original _ _ _ NM). change (original_values s0) with (combine (get_variables s) (get_variables s)).
    rewrite dkeys_combine. apply dedup_NoDup.
  - intros a Ha. rewrite (norm_true f s0 r _ NM). rewrite Er. apply cnf_true_ext_iff. intros v Hv.
    unfold oname. rewrite Ho; auto.
Qed.

Section Root.
  Variable hash : text -> digest.
  Variable o : opts.
  Lemma prepare_root_spec lf L s : root_ok s -> below_len L (raws s) ->
    (lo_bound (nvars (raws s)) L (List.length (clauses s)) <= lf)%nat ->
    exists r, prepare_root hash lf o s = Ok r /\ node (raws s) r /\ sid r = fhash hash (raws r) /\
      computed_hash r = Some (sid r) /\ within (nvars (raws s)) L (List.length (clauses s)) r /\
      evaluated_vars r = evaluated_vars s /\ (satisfiable (raws s) <-> satisfiable (raws r)).
  Proof.
    intros RO HL Hlf. unfold prepare_root.
    set (s0 := set_original s (combine (get_variables s) (get_variables s))).
    assert (Hp : pre_lo s0).
    { split; [apply RO|]. split; [apply RO|]. left. apply RO. }
    destruct (to_lo_total lf (o_mode o) (o_sort_by_size o) (o_thief o) s0 L Hp HL Hlf) as [r1 E1].
    rewrite E1. cbn [bind].
    destruct (to_lo_spec _ _ _ _ _ _ Hp E1) as (f & NM & R & _).
    destruct (root_node f s r1 RO NM R) as (N & Hev & Hnv).
    rewrite (get_hash_force hash r1 _ (node_text _ _ N)). cbn [bind].
    eexists; split; [reflexivity|]. split; [apply node_set_id, node_set_hash; auto|].
    split; [reflexivity|]. split; [reflexivity|]. split.
    { split; [|split].
      - change (raws (set_id _ _)) with (raws r1). lia.
      - change (raws (set_id _ _)) with (raws r1). eapply norm_below_len; eauto.
      - change (clauses (set_id _ _)) with (clauses r1). rewrite (norm_length _ _ _ NM). auto. }
    split; [auto|]. change (raws (set_id _ _)) with (raws r1).
    apply (norm_sat f s0 r1 NM).
  Qed.
End Root.

(* ---- the loop ---- *)
Definition entry := (cset * kid * kid)%type.
Definition e_node (e : entry) : cset := fst (fst e).
Definition e_kids (e : entry) : list digest := kid_ids (snd (fst e)) ++ kid_ids (snd e).
Definition true_leaf (k : kid) : list (list (Z * bool)) :=
  match k with KLeaf true d => [d] | _ => [] end.
Definition e_true (e : entry) : list (list (Z * bool)) := true_leaf (snd (fst e)) ++ true_leaf (snd e).
Definition true_leaves (done : list entry) : list (list (Z * bool)) := flat_map e_true done.
Definition weight (xs : list cset) : nat := fold_right (fun x n => (3 ^ nvars (raws x) + n)%nat) 0%nat xs.

Lemma view_ev rdb s : Permutation (evaluated_vars (view rdb s)) (evaluated_vars s).
Proof. destruct rdb; simpl; auto. apply Permutation_sym, reordered_Perm. Qed.

(* what the drawing commands show *)
Definition kid_leaf (k : kid) : list bool := match k with KLeaf v _ => [v] | _ => [] end.
Definition e_edges (e : entry) : list (digest * digest) := map (pair (sid (e_node e))) (e_kids e).
Definition e_leaf_edges (e : entry) : list (digest * bool) :=
  map (pair (sid (e_node e))) (kid_leaf (snd (fst e)) ++ kid_leaf (snd e)).

Section Loop.
  Variable hash : text -> digest.
  Variable insert_fails : digest -> bool.
  Variable o : opts.
  Variable seen_sets : list digest.
  Hypothesis Hgdb : o_gdb o = true -> seen_sets = [] /\ forall h, insert_fails h = false.
  Variable F : list (list Z).
  Variables n L K lf : nat.
  Variable m : mode.
  Hypothesis Hlf : (lo_bound n L K <= lf)%nat.
  Variable db0 : table.
  Hypothesis Hdb0 : o_gdb o = true -> db0 = [].

  (* the finished sets met from r by branching and normalising *)
  Inductive reach (r : cset) : cset -> Prop :=
  | reach_refl : reach r r
  | reach_step x k1 k2 c : reach r x -> expands hash o lf m x k1 k2 ->
      k1 = KNode c \/ k2 = KNode c -> reach r c.

  Definition is_node (x : cset) : Prop :=
    node F x /\ sid x = fhash hash (raws x) /\ computed_hash x = Some (sid x) /\ within n L K x.

  Definition row_of_entry (e : entry) : digest * row := row_of hash (fst (fst e)) (snd (fst e)) (snd e).

  Definition ys (done : list entry) (pend : list cset) : list cset := map e_node done ++ pend.

  Record Inv (r : cset) (p : pstate) (done : list entry) (pend : list cset) : Prop := mkInv {
    i_queue : qrep (o_rdb o) (p_queue p) (dkeys (p_children p)) pend;
    i_keys : dkeys (p_children p) = map sid (ys done pend);
    i_nodup : NoDup (map sid (ys done pend));
    i_nodes : forall x, In x (ys done pend) -> is_node x /\ reach r x;
    i_root : hd_error (ys done pend) = Some r;
    i_exp : forall x k1 k2, In (x, k1, k2) done ->
      expands hash o lf m x k1 k2 /\ kid_ok hash F n L K (view (o_rdb o) x) true k1 /\
      kid_ok hash F n L K (view (o_rdb o) x) false k2;
    i_done : forall e, In e done -> dget text_eqb (sid (e_node e)) (p_children p) = Some (e_kids e) /\
      incl (e_kids e) (map sid (ys done pend));
    i_pend : forall x, In x pend -> dget text_eqb (sid x) (p_children p) = Some [];
    i_sat : p_sat p = match true_leaves done with [] => false | _ => true end;
    i_sol : p_solution p = option_map sort_items (hd_error (true_leaves done));
    i_db : p_db p = db0 ++ (if o_gdb o then map row_of_entry done else []);
    i_uniq : p_uniques p = Z.of_nat (List.length (ys done pend));
    i_hits : p_uniques p + p_hits p = 1 + Z.of_nat (List.length (flat_map e_kids done));
    i_found : p_found p = 0;
    i_leaves : p_leaves p = map (fun e => sid (e_node e))
                             (filter (fun e => both_leaves (snd (fst e)) (snd e)) done);
    i_sorted : StronglySorted le (map depth (ys done pend));
    i_depth : forall y x, In y (ys done pend) -> In x pend -> (depth y <= S (depth x))%nat;
    i_evs : forall y, In y (ys done pend) -> incl (evaluated_vars r) (evaluated_vars y) /\
      forall v, In v (dkeys (evaluated_vars y)) -> In v (dkeys (evaluated_vars r)) \/ In v (fvars F);
    i_conn : forall y, In y (ys done pend) -> y = r \/
      exists e, In e done /\ In (sid y) (e_kids e) /\ (depth (e_node e) < depth y)%nat;
    i_dot0 : o_graph o = false -> p_dot p = [];
    i_dot1 : o_graph o = true -> dot_nodes (p_dot p) = map sid (ys done pend);
    i_dot2 : o_graph o = true -> dot_edges (p_dot p) = flat_map e_edges done;
    i_dot3 : o_graph o = true -> dot_leaf_edges (p_dot p) = flat_map e_leaf_edges done;
    i_dot4 : o_graph o = true -> Z.of_nat (List.length (dot_reds (p_dot p))) = p_hits p;
    i_dot5 : o_graph o = true -> dot_sets (p_dot p) = ys done pend;
    i_dot6 : o_graph o = true -> forall a, (count_occ text_dec (map snd (dot_edges (p_dot p))) a + count_occ text_dec [sid r] a =
      count_occ text_dec (dot_nodes (p_dot p)) a + count_occ text_dec (dot_reds (p_dot p)) a)%nat;
    i_par : forall y, In y (ys done pend) -> y = r \/
      exists e, In e done /\ (snd (fst e) = KNode y \/ snd e = KNode y)
  }.

  Lemma start_inv r : node F r -> sid r = fhash hash (raws r) ->
    computed_hash r = None \/ computed_hash r = Some (sid r) -> within n L K r ->
    exists p, start hash o r db0 = Ok p /\
      Inv (set_hash r (Some (sid r))) p [] [set_hash r (Some (sid r))].
  Proof.
    clear Hgdb Hdb0 Hlf. intros N Hs Hc W. unfold start.
    assert (E : get_hash hash false r = Ok (sid r, set_hash r (Some (sid r)))).
    { destruct Hc as [Hc|Hc].
      - rewrite (get_hash_none hash r _ Hc (node_text _ _ N)). fold (fhash hash (raws r)). rewrite Hs; auto.
      - rewrite (get_hash_some hash r _ Hc). f_equal. f_equal. rewrite <- Hc. destruct r; auto. }
    rewrite E. cbn [bind]. set (r' := set_hash r (Some (sid r))).
    assert (N' : node F r') by (apply node_set_hash; auto).
    destruct (qrep_insert _ _ _ _ r' (qrep_init (o_rdb o))) as (q & Eq & Q).
    { intros _. split; [eapply node_storable; eauto | intros []]. }
    rewrite Eq. cbn [bind]. eexists; split; [reflexivity|].
    constructor; cbn [p_queue p_children p_sat p_solution p_uniques p_hits p_found p_db p_leaves p_dot ys map app e_node]; auto.
    - constructor; [intros []|constructor].
    - intros x [<-|[]]. split; [|constructor]. split; auto. 
    - intros x k1 k2 [].
    - intros e [].
    - intros x [<-|[]]. simpl. rewrite text_eqb_refl; auto.
    - destruct (o_gdb o); rewrite app_nil_r; auto.
    - repeat constructor.
    - intros y x [<-|[]] [<-|[]]. lia.
    - intros y [<-|[]]. split; [apply incl_refl | auto].
    - intros y [<-|[]]. left; auto.
    - intros ->; auto.
    - intros ->; auto.
    - intros ->; auto.
    - intros ->; auto.
    - intros ->; auto.
    - intros ->; auto.
    - intros -> a. cbn. lia.
    - intros y [<-|[]]. left; auto.
  Qed.

  (* fields after one step *)
  Lemma upd_sat pid k p : p_sat (upd o pid k p) = p_sat p || match true_leaf k with [] => false | _ => true end.
  Proof.
    unfold upd, set_sol. destruct k as [[] d|c]; simpl; rewrite ?orb_true_r, ?orb_false_r; auto.
    destruct (negb _); auto.
  Qed.
  Lemma upd_sol pid k p : p_solution (upd o pid k p) =
    match p_solution p with Some s => Some s | None => option_map sort_items (hd_error (true_leaf k)) end.
  Proof.
    unfold upd, set_sol. destruct k as [[] d|c]; simpl; destruct (p_solution p) eqn:E; simpl; auto;
      destruct (negb _); auto.
  Qed.
  Lemma upd_uniq pid k p : p_uniques (upd o pid k p) = p_uniques p + (if is_new k p then 1 else 0).
  Proof.
    unfold upd, set_sol. destruct k as [[] d|c]; simpl; try lia.
    - destruct (p_solution p); simpl; lia.
    - destruct (negb _); simpl; lia.
  Qed.
  Lemma upd_hits pid k p : p_uniques (upd o pid k p) + p_hits (upd o pid k p) =
    p_uniques p + p_hits p + Z.of_nat (List.length (kid_ids k)).
  Proof.
    unfold upd, set_sol. destruct k as [[] d|c]; simpl; try lia.
    - destruct (p_solution p); simpl; lia.
    - destruct (negb _); simpl; lia.
  Qed.
  Lemma upd_found pid k p : p_found (upd o pid k p) = p_found p.
  Proof. unfold upd, set_sol. destruct k as [[] d|c]; simpl; auto; [destruct (p_solution p)|destruct (negb _)]; auto. Qed.
  Lemma upd_leaves pid k p : p_leaves (upd o pid k p) = p_leaves p.
  Proof. unfold upd, set_sol. destruct k as [[] d|c]; simpl; auto; [destruct (p_solution p)|destruct (negb _)]; auto. Qed.
  Lemma upd_dot pid k p : p_dot (upd o pid k p) = if o_graph o then p_dot p ++ kid_dots pid k (is_new k p) else p_dot p.
  Proof.
    unfold upd, set_sol. destruct k as [[] d|c]; simpl; auto; [destruct (p_solution p)|destruct (negb _)]; auto.
  Qed.
  Lemma upd_reds pid k p : p_hits (upd o pid k p) = p_hits p + Z.of_nat (List.length (dot_reds (kid_dots pid k (is_new k p)))).
  Proof.
    unfold upd, set_sol. destruct k as [[] d|c]; simpl; try lia.
    - destruct (p_solution p); simpl; lia.
    - destruct (negb _); simpl; lia.
  Qed.
  Lemma kid_dots_nodes pid k b :
    dot_nodes (kid_dots pid k b) = if b then kid_ids k else [].
  Proof. destruct k as [v d|c], b; simpl; auto. Qed.
  Lemma kid_dots_sets pid k b :
    dot_sets (kid_dots pid k b) = match k with KNode c => if b then [c] else [] | _ => [] end.
  Proof. destruct k, b; auto. Qed.
  Lemma kid_dots_arrows pid k b a : count_occ text_dec (map snd (dot_edges (kid_dots pid k b))) a =
    (count_occ text_dec (dot_nodes (kid_dots pid k b)) a + count_occ text_dec (dot_reds (kid_dots pid k b)) a)%nat.
  Proof. destruct k as [v d|c], b; unfold dot_edges, dot_nodes, dot_reds; cbn [kid_dots flat_map app map snd]; rewrite ?Nat.add_0_r; reflexivity. Qed.
  Lemma kid_dots_edges pid k b : dot_edges (kid_dots pid k b) = map (pair pid) (kid_ids k).
  Proof. destruct k as [v d|c], b; simpl; auto. Qed.
  Lemma kid_dots_leaf pid k b : dot_leaf_edges (kid_dots pid k b) = map (pair pid) (kid_leaf k).
  Proof. destruct k as [v d|c], b; simpl; auto. Qed.
  Lemma is_new_node k p : is_new k p = true -> exists c, k = KNode c.
  Proof. destruct k; [discriminate|eauto]. Qed.
  Lemma after_field {A} (f : pstate -> A) x k1 k2 p q :
    (forall p q, f (with_queue p q) = f p) -> (forall p t, f (with_db p t) = f p) ->
    (forall p i, f (add_leaf p i) = f p) ->
    f (after hash o x k1 k2 p q) = f (upd o (sid x) k2 (upd o (sid x) k1 p)).
  Proof.
    intros H1 H2 H3. unfold after. destruct (both_leaves k1 k2), (o_gdb o); rewrite ?H3, ?H1, ?H2; auto.
  Qed.
  Lemma after_db x k1 k2 p q : p_db (after hash o x k1 k2 p q) =
    if o_gdb o then p_db p ++ [row_of hash x k1 k2] else p_db p.
  Proof.
    unfold after. destruct (both_leaves k1 k2), (o_gdb o); cbn [add_leaf with_queue with_db p_db]; rewrite ?upd_db; auto.
  Qed.
  Lemma after_leaves x k1 k2 p q : p_leaves (after hash o x k1 k2 p q) =
    p_leaves p ++ (if both_leaves k1 k2 then [sid x] else []).
  Proof.
    unfold after. destruct (both_leaves k1 k2), (o_gdb o); cbn [add_leaf with_queue with_db p_leaves];
      rewrite ?upd_leaves, ?app_nil_r; auto.
  Qed.

  (* the new sets enter the graph with ids not present before *)
  Lemma new_nodes_ids pid k1 k2 p : map sid (new_nodes o pid k1 k2 p) =
    (if is_new k1 p then kid_ids k1 else []) ++ (if is_new k2 (upd o pid k1 p) then kid_ids k2 else []).
  Proof.
    unfold new_nodes. rewrite map_app. f_equal.
    - destruct k1; auto. destruct (is_new _ _); auto.
    - destruct k2; auto. destruct (is_new _ _); auto.
  Qed.
  Lemma new_in pid k1 k2 p c : In c (new_nodes o pid k1 k2 p) -> k1 = KNode c \/ k2 = KNode c.
  Proof.
    unfold new_nodes. rewrite in_app_iff. intros [H|H].
    - destruct k1 as [|c']; [destruct H|]. destruct (is_new _ _); [destruct H as [->|[]]; auto | destruct H].
    - destruct k2 as [|c']; [destruct H|]. destruct (is_new _ _); [destruct H as [->|[]]; auto | destruct H].
  Qed.
  Lemma is_new_ids k p : is_new k p = true -> forall h, In h (kid_ids k) -> ~ In h (dkeys (p_children p)).
  Proof.
    destruct k as [|c]; simpl; [discriminate|]. intros H h [<-|[]].
    apply negb_true_iff in H. apply (dmem_false _ tspec) in H; auto.
  Qed.
  Lemma not_new_ids k p : is_new k p = false -> incl (kid_ids k) (dkeys (p_children p)).
  Proof.
    destruct k as [|c]; simpl; [intros _ h [] |]. intros H h [<-|[]].
    apply negb_false_iff in H. apply (dmem_In _ tspec) in H; auto.
  Qed.

  Lemma after_keys x k1 k2 p q : In (sid x) (dkeys (p_children p)) ->
    dkeys (p_children (after hash o x k1 k2 p q)) = dkeys (p_children p) ++ map sid (new_nodes o (sid x) k1 k2 p).
  Proof.
    intros H. rewrite (after_field p_children); auto. rewrite new_nodes_ids, app_assoc.
    rewrite upd_keys; [rewrite upd_keys; auto|]. rewrite upd_keys; auto. apply in_app_iff; auto.
  Qed.
  Lemma after_nodup x k1 k2 p : In (sid x) (dkeys (p_children p)) -> NoDup (dkeys (p_children p)) ->
    NoDup (dkeys (p_children p) ++ map sid (new_nodes o (sid x) k1 k2 p)).
  Proof.
    intros H ND. rewrite new_nodes_ids, app_assoc.
    assert (G : forall k pp, NoDup (dkeys (p_children pp)) ->
      NoDup (dkeys (p_children pp) ++ (if is_new k pp then kid_ids k else []))).
    { intros k pp Hnd. destruct (is_new k pp) eqn:E; [|rewrite app_nil_r; auto].
      destruct k as [|c]; [discriminate|]. pose proof (is_new_ids _ _ E) as Hi. cbn [kid_ids] in *.
      specialize (Hi (sid c) (or_introl eq_refl)).
      apply (Permutation_NoDup (Permutation_cons_append _ _)). constructor; auto. }
    pose proof (G k2 (upd o (sid x) k1 p)) as G2. rewrite upd_keys in G2 by auto. apply G2, G; auto.
  Qed.
  Lemma after_get x k1 k2 p q h : In (sid x) (dkeys (p_children p)) ->
    dget text_eqb h (p_children (after hash o x k1 k2 p q)) =
    if text_eqb h (sid x) then Some (kids_at (sid x) (p_children p) ++ kid_ids k1 ++ kid_ids k2)
    else if existsb (text_eqb h) (map sid (new_nodes o (sid x) k1 k2 p)) then Some []
    else dget text_eqb h (p_children p).
  Proof.
    intros H. rewrite (after_field p_children); auto.
    rewrite upd_get by (rewrite upd_keys; auto; apply in_app_iff; auto).
    destruct (text_eqb_spec h (sid x)) as [->|Hne].
    - unfold kids_at at 1. rewrite upd_get by auto. rewrite text_eqb_refl, app_assoc. auto.
    - rewrite upd_get by auto. destruct (text_eqb_spec h (sid x)); [contradiction|].
      rewrite new_nodes_ids, existsb_app.
      destruct (is_new k1 p), (is_new k2 (upd o (sid x) k1 p)); cbn [andb existsb orb];
        rewrite ?orb_false_r; auto.
      change digest with text in *.
      destruct (@existsb text (text_eqb h) (kid_ids k1)), (@existsb text (text_eqb h) (kid_ids k2)); auto.
  Qed.
  Lemma after_incl x k1 k2 p q : In (sid x) (dkeys (p_children p)) ->
    incl (kid_ids k1 ++ kid_ids k2) (dkeys (p_children (after hash o x k1 k2 p q))).
  Proof.
    intros H h Hh. rewrite after_keys by auto. rewrite new_nodes_ids, app_assoc.
    assert (G : forall k pp, In h (kid_ids k) -> In h (dkeys (p_children pp) ++ (if is_new k pp then kid_ids k else []))).
    { intros k pp Hk. apply in_app_iff. destruct (is_new k pp) eqn:E; auto. left. apply (not_new_ids _ _ E); auto. }
    apply in_app_iff in Hh as [Hh|Hh].
    - apply in_app_iff; left. apply G; auto.
    - rewrite <- upd_keys with (o := o) (pid := sid x) by auto. apply G; auto.
  Qed.

  Lemma hd_error_app {A} (l l' : list A) : hd_error (l ++ l') = match hd_error l with Some x => Some x | None => hd_error l' end.
  Proof. destruct l; auto. Qed.
  Lemma StronglySorted_app_le l l' : StronglySorted le l -> StronglySorted le l' ->
    (forall x y, In x l -> In y l' -> (x <= y)%nat) -> StronglySorted le (l ++ l').
  Proof.
    induction 1; simpl; auto. intros H1 H2. constructor.
    - apply IHStronglySorted; auto.
    - apply Forall_forall. intros y Hy. apply in_app_iff in Hy as [Hy|Hy]; auto.
      rewrite Forall_forall in H0; auto.
  Qed.
  Lemma sorted_app_inv l l' : StronglySorted le (l ++ l') ->
    StronglySorted le l' /\ forall x y, In x l -> In y l' -> (x <= y)%nat.
  Proof.
    induction l as [|a l IH]; simpl; intros H.
    - split; auto. intros ? ? [].
    - inv H. destruct (IH H2) as [A B]. split; auto. intros x y [<-|Hx] Hy; auto.
      rewrite Forall_forall in H3. apply H3, in_app_iff; auto.
  Qed.

  Lemma step_inv r p done x xs : Inv r p done (x :: xs) ->
    exists p' k1 k2, step hash insert_fails o seen_sets lf m p = Ok p' /\
      Inv r p' (done ++ [(x, k1, k2)]) (xs ++ new_nodes o (sid x) k1 k2 p) /\
      expands hash o lf m x k1 k2.
  Proof.
    intros I.
    assert (Hx : In x (ys done (x :: xs))) by (apply in_app_iff; simpl; auto).
    destruct (i_nodes _ _ _ _ I x Hx) as [(N & Hs & Hc & W) Hr].
    destruct (expand_total hash o F n L K lf m x N W Hlf) as (k1 & k2 & E & K1 & K2).
    assert (Hin : In (sid x) (dkeys (p_children p))) by (rewrite (i_keys _ _ _ _ I); apply in_map; auto).
    assert (HnotDone : ~ In (sid x) (map (fun e => sid (e_node e)) done)).
    { pose proof (i_nodup _ _ _ _ I) as ND. unfold ys in ND. rewrite map_app in ND. cbn [map] in ND.
      apply NoDup_remove_2 in ND. intros Hi. apply ND, in_app_iff. left. rewrite map_map; auto. }
    destruct (step_spec hash insert_fails o seen_sets Hgdb F n L K lf m p (p_queue p) _ x xs k1 k2
                N Hs Hc E K1 K2 eq_refl (i_queue _ _ _ _ I) eq_refl Hin) as (q' & Es & Q').
    { intros Hg. rewrite (i_db _ _ _ _ I), Hg, (Hdb0 Hg). cbn [app]. unfold dkeys. rewrite map_map.
      intros Hi. apply HnotDone. exact Hi. }
    exists (after hash o x k1 k2 p q'), k1, k2. split; [exact Es|]. split; [|exact E].
    set (new := new_nodes o (sid x) k1 k2 p) in *. set (p' := after hash o x k1 k2 p q') in *.
    assert (Eys : ys (done ++ [(x, k1, k2)]) (xs ++ new) = ys done (x :: xs) ++ new).
    { unfold ys. rewrite map_app, <- !app_assoc. reflexivity. }
    assert (Hkeys' : dkeys (p_children p') = dkeys (p_children p) ++ map sid new) by (apply after_keys; auto).
    assert (Hnewev : forall c, In c new -> incl (evaluated_vars x) (evaluated_vars c) /\
       forall v, In v (dkeys (evaluated_vars c)) -> In v (dkeys (evaluated_vars x)) \/ In v (fvars F)).
    { intros c Hcn. apply new_in in Hcn.
      assert (Hk : forall b k, kid_ok hash F n L K (view (o_rdb o) x) b k -> k = KNode c ->
        incl (evaluated_vars x) (evaluated_vars c) /\
        forall v, In v (dkeys (evaluated_vars c)) -> In v (dkeys (evaluated_vars x)) \/ In v (fvars F)).
      { intros b k (Hk & _) ->. destruct Hk as (_ & _ & _ & _ & _ & _ & _ & _ & A8 & A9). split.
        - intros w Hw. apply A9. apply (Permutation_in _ (Permutation_sym (view_ev (o_rdb o) x))); auto.
        - intros v Hv. destruct (A8 v Hv) as [H|H]; auto. left.
          apply (Permutation_in _ (Permutation_map fst (view_ev (o_rdb o) x))); auto. }
      destruct Hcn as [H|H]; eauto. }
    assert (Hnew : forall c, In c new -> is_node c /\ reach r c /\ depth c = S (depth x)).
    { intros c Hcn. apply new_in in Hcn.
      assert (Hk : forall b k, kid_ok hash F n L K (view (o_rdb o) x) b k -> k = KNode c ->
                is_node c /\ depth c = S (depth x)).
      { intros b k (Hk & _) ->. destruct Hk as (A1 & A2 & A3 & A4 & A5 & A6 & _).
        rewrite view_ev_len in A6. split; [|auto]. split; [auto|]. auto. }
      destruct Hcn as [H|H].
      - destruct (Hk true k1 K1 H). split; auto. split; auto. eapply reach_step; eauto.
      - destruct (Hk false k2 K2 H). split; auto. split; auto. eapply reach_step; eauto. }
    assert (Hget : forall h, h <> sid x -> In h (dkeys (p_children p)) ->
              dget text_eqb h (p_children p') = dget text_eqb h (p_children p)).
    { intros h H1 H2. unfold p'. rewrite after_get by auto.
      destruct (text_eqb_spec h (sid x)); [contradiction|].
      destruct (existsb _ _) eqn:Ex; auto. exfalso.
      apply existsb_exists in Ex as (h' & Hi & Eh). apply text_eqb_eq in Eh as <-. fold new in Hi.
      pose proof (after_nodup x k1 k2 p Hin) as ND. fold new in ND.
      rewrite (i_keys _ _ _ _ I) in ND. specialize (ND (i_nodup _ _ _ _ I)).
      rewrite (i_keys _ _ _ _ I) in H2. apply in_split in H2 as (u & w & Eu).
      change digest with text in *. rewrite Eu, <- app_assoc in ND. apply NoDup_remove_2 in ND.
      apply ND. rewrite !in_app_iff. auto. }
    constructor.
    - replace (p_queue p') with q'; [exact Q'|]. unfold p', after.
      destruct (both_leaves k1 k2), (o_gdb o); reflexivity.
    - rewrite Hkeys', Eys, map_app, (i_keys _ _ _ _ I). auto.
    - rewrite Eys, map_app, <- (i_keys _ _ _ _ I). apply after_nodup; auto.
      rewrite (i_keys _ _ _ _ I). apply I.
    - rewrite Eys. intros y Hy. apply in_app_iff in Hy as [Hy|Hy]; [apply I; auto|].
      destruct (Hnew y Hy) as (A & B & _); auto.
    - rewrite Eys, hd_error_app, (i_root _ _ _ _ I); auto.
    - intros y a b Hy. apply in_app_iff in Hy as [Hy|[Hy|[]]]; [apply (i_exp _ _ _ _ I); auto|].
      inv Hy; auto.
    - intros e He. apply in_app_iff in He as [He|[<-|[]]].
      + destruct (i_done _ _ _ _ I e He) as [A B]. split.
        * rewrite Hget; auto.
          -- intros Eq. apply HnotDone. rewrite <- Eq. apply in_map_iff; eauto.
          -- rewrite (i_keys _ _ _ _ I). apply in_map. apply in_app_iff. left. apply in_map; auto.
        * rewrite Eys, map_app. intros h Hh. apply in_app_iff; left. apply B; auto.
      + cbn [e_node e_kids fst snd]. split.
        * unfold p'. rewrite after_get by auto. rewrite text_eqb_refl. unfold kids_at.
          rewrite (i_pend _ _ _ _ I) by (simpl; auto). auto.
        * rewrite Eys, map_app. pose proof (after_incl x k1 k2 p q' Hin) as Hi. fold p' in Hi.
          rewrite Hkeys', (i_keys _ _ _ _ I) in Hi. exact Hi.
    - intros y Hy. apply in_app_iff in Hy as [Hy|Hy].
      + rewrite Hget.
        * apply (i_pend _ _ _ _ I); simpl; auto.
        * pose proof (i_nodup _ _ _ _ I) as ND. unfold ys in ND. rewrite map_app in ND. cbn [map] in ND.
          apply NoDup_remove_2 in ND. intros Eq. apply ND, in_app_iff. right. rewrite <- Eq. apply in_map; auto.
        * rewrite (i_keys _ _ _ _ I). apply in_map, in_app_iff. simpl; auto.
      + unfold p'. rewrite after_get by auto. fold new.
        assert (Hyid : In (sid y) (map sid new)) by (apply in_map; auto).
        destruct (text_eqb_spec (sid y) (sid x)) as [Eq|Hne].
        * exfalso. pose proof (after_nodup x k1 k2 p Hin) as ND. fold new in ND.
          rewrite (i_keys _ _ _ _ I) in ND. specialize (ND (i_nodup _ _ _ _ I)).
          rewrite Eq in Hyid. rewrite (i_keys _ _ _ _ I) in Hin. apply in_split in Hin as (u & w & Eu).
          change digest with text in *. rewrite Eu, <- app_assoc in ND. apply NoDup_remove_2 in ND.
          apply ND. rewrite !in_app_iff. auto.
        * rewrite (proj2 (existsb_exists _ _)); auto. exists (sid y). split; auto. apply text_eqb_refl.
    - unfold p'. rewrite (after_field p_sat), !upd_sat, (i_sat _ _ _ _ I) by auto.
      unfold true_leaves. rewrite flat_map_app. cbn [flat_map]. 
      change (e_true (x, k1, k2)) with (true_leaf k1 ++ true_leaf k2).
      destruct (flat_map e_true done); cbn [app orb]; [|auto].
      destruct (true_leaf k1), (true_leaf k2); auto.
    - unfold p'. rewrite (after_field p_solution), !upd_sol, (i_sol _ _ _ _ I) by auto.
      unfold true_leaves. rewrite flat_map_app. cbn [flat_map]. 
      change (e_true (x, k1, k2)) with (true_leaf k1 ++ true_leaf k2).
      rewrite hd_error_app. destruct (hd_error (flat_map e_true done)); cbn [option_map]; auto.
      rewrite app_nil_r, hd_error_app. destruct (hd_error (true_leaf k1)); auto.
    - unfold p'. rewrite after_db, (i_db _ _ _ _ I). destruct (o_gdb o); auto.
      rewrite map_app, app_assoc. auto.
    - unfold p'. rewrite (after_field p_uniques), !upd_uniq, (i_uniq _ _ _ _ I) by auto.
      rewrite Eys, app_length. unfold new. rewrite <- (map_length sid (new_nodes _ _ _ _ _)), new_nodes_ids, app_length.
      destruct (is_new k1 p) eqn:E1, (is_new k2 (upd o (sid x) k1 p)) eqn:E2;
        destruct k1, k2; try discriminate; simpl List.length; lia.
    - unfold p'. rewrite (after_field p_uniques), (after_field p_hits), !upd_hits, (i_hits _ _ _ _ I) by auto.
      rewrite flat_map_app, app_length. cbn [flat_map]. change (e_kids (x, k1, k2)) with (kid_ids k1 ++ kid_ids k2). rewrite app_nil_r, app_length. lia.
    - unfold p'. rewrite (after_field p_found), !upd_found by auto. apply I.
    - unfold p'. rewrite after_leaves, (i_leaves _ _ _ _ I), filter_app, map_app. f_equal.
      cbn [filter fst snd]. destruct (both_leaves k1 k2); auto.
    - rewrite Eys, map_app. apply StronglySorted_app_le; [apply I| |].
      + assert (Hall : forall d, In d (map depth new) -> d = S (depth x)).
        { intros d Hd. apply in_map_iff in Hd as (c & <- & Hcn). apply Hnew; auto. }
        clear -Hall. induction (map depth new) as [|a l IH]; constructor.
        * apply IH. intros; apply Hall; simpl; auto.
        * apply Forall_forall. intros b Hb. rewrite (Hall a), (Hall b); simpl; auto.
      + intros d1 d2 H1 H2. apply in_map_iff in H1 as (y & <- & Hy). apply in_map_iff in H2 as (c & <- & Hcn).
        destruct (Hnew c Hcn) as (_ & _ & ->). apply (i_depth _ _ _ _ I); simpl; auto.
    - rewrite Eys. intros y z Hy Hz.
      assert (Hxs : forall z, In z xs -> (depth x <= depth z)%nat).
      { intros w Hw. pose proof (i_sorted _ _ _ _ I) as S. unfold ys in S. rewrite map_app in S.
        apply sorted_app_inv in S as [S _]. cbn [map] in S. inv S. rewrite Forall_forall in H2.
        apply H2, in_map; auto. }
      apply in_app_iff in Hy as [Hy|Hy]; apply in_app_iff in Hz as [Hz|Hz].
      + apply (i_depth _ _ _ _ I); simpl; auto.
      + destruct (Hnew z Hz) as (_ & _ & ->). pose proof (i_depth _ _ _ _ I y x Hy (or_introl eq_refl)). lia.
      + destruct (Hnew y Hy) as (_ & _ & ->). specialize (Hxs z Hz). lia.
      + destruct (Hnew y Hy) as (_ & _ & ->), (Hnew z Hz) as (_ & _ & ->). lia.
    - rewrite Eys. intros y Hy. apply in_app_iff in Hy as [Hy|Hy]; [apply I; auto|].
      destruct (i_evs _ _ _ _ I x Hx) as [A B]. destruct (Hnewev y Hy) as [A' B']. split.
      + intros w Hw. auto.
      + intros v Hv. destruct (B' v Hv); auto.
    - rewrite Eys. intros y Hy. apply in_app_iff in Hy as [Hy|Hy].
      + destruct (i_conn _ _ _ _ I y Hy) as [->|(e & He & Hk & Hd)]; auto. right.
        exists e. rewrite in_app_iff. auto.
      + right. exists (x, k1, k2). rewrite in_app_iff. split; [right; left; auto|].
        destruct (Hnew y Hy) as (_ & _ & Hdy). split; [|cbn [e_node fst]; lia].
        apply new_in in Hy. unfold e_kids. cbn [fst snd]. apply in_app_iff.
        destruct Hy as [->| ->]; simpl; auto.
    - intros Hg. unfold p'. rewrite (after_field p_dot), !upd_dot, Hg by auto. apply I; auto.
    - intros Hg. unfold p'. rewrite (after_field p_dot), !upd_dot, Hg by auto.
      unfold dot_nodes in *. rewrite !flat_map_app. fold dot_nodes. rewrite Eys, map_app.
      change (flat_map _ (p_dot p)) with (dot_nodes (p_dot p)). rewrite (i_dot1 _ _ _ _ I Hg), <- app_assoc. f_equal.
      unfold new. rewrite new_nodes_ids.
      change (dot_nodes (kid_dots (sid x) k1 (is_new k1 p)) ++
              dot_nodes (kid_dots (sid x) k2 (is_new k2 (upd o (sid x) k1 p))) =
              (if is_new k1 p then kid_ids k1 else []) ++ (if is_new k2 (upd o (sid x) k1 p) then kid_ids k2 else [])).
      rewrite !kid_dots_nodes; auto.
    - intros Hg. unfold p'. rewrite (after_field p_dot), !upd_dot, Hg by auto.
      unfold dot_edges. rewrite !flat_map_app.
      change (flat_map _ (p_dot p)) with (dot_edges (p_dot p)). rewrite (i_dot2 _ _ _ _ I Hg), <- app_assoc. f_equal.
      cbn [flat_map]. rewrite app_nil_r.
      change (dot_edges (kid_dots (sid x) k1 (is_new k1 p)) ++
              dot_edges (kid_dots (sid x) k2 (is_new k2 (upd o (sid x) k1 p))) =
              map (pair (sid x)) (kid_ids k1 ++ kid_ids k2)).
      rewrite !kid_dots_edges, map_app; auto.
    - intros Hg. unfold p'. rewrite (after_field p_dot), !upd_dot, Hg by auto.
      unfold dot_leaf_edges. rewrite !flat_map_app.
      change (flat_map _ (p_dot p)) with (dot_leaf_edges (p_dot p)). rewrite (i_dot3 _ _ _ _ I Hg), <- app_assoc. f_equal.
      cbn [flat_map]. rewrite app_nil_r.
      change (dot_leaf_edges (kid_dots (sid x) k1 (is_new k1 p)) ++
              dot_leaf_edges (kid_dots (sid x) k2 (is_new k2 (upd o (sid x) k1 p))) =
              map (pair (sid x)) (kid_leaf k1 ++ kid_leaf k2)).
      rewrite !kid_dots_leaf, map_app; auto.
    - intros Hg. unfold p'. rewrite (after_field p_dot), (after_field p_hits), !upd_dot, Hg, !upd_reds by auto.
      unfold dot_reds at 1. rewrite !flat_map_app.
      change (flat_map _ (p_dot p)) with (dot_reds (p_dot p)). rewrite <- (i_dot4 _ _ _ _ I Hg), !app_length.
      unfold dot_reds. lia.
    - intros Hg. unfold p'. rewrite (after_field p_dot), !upd_dot, Hg by auto.
      unfold dot_sets. rewrite !flat_map_app. rewrite Eys.
      change (flat_map _ (p_dot p)) with (dot_sets (p_dot p)). rewrite (i_dot5 _ _ _ _ I Hg), <- app_assoc. f_equal.
      unfold new.
      change (dot_sets (kid_dots (sid x) k1 (is_new k1 p)) ++
              dot_sets (kid_dots (sid x) k2 (is_new k2 (upd o (sid x) k1 p))) = new_nodes o (sid x) k1 k2 p).
      rewrite !kid_dots_sets. reflexivity.
    - intros Hg a. unfold p'. rewrite (after_field p_dot), !upd_dot, Hg by auto.
      assert (A : forall l l', dot_edges (l ++ l') = dot_edges l ++ dot_edges l') by (intros; apply flat_map_app).
      assert (B : forall l l', dot_nodes (l ++ l') = dot_nodes l ++ dot_nodes l') by (intros; apply flat_map_app).
      assert (C : forall l l', dot_reds (l ++ l') = dot_reds l ++ dot_reds l') by (intros; apply flat_map_app).
      rewrite !A, !B, !C, !map_app, !count_occ_app, !kid_dots_arrows.
      pose proof (i_dot6 _ _ _ _ I Hg a). lia.
    - rewrite Eys. intros y Hy. apply in_app_iff in Hy as [Hy|Hy].
      + destruct (i_par _ _ _ _ I y Hy) as [->|(e & He & Hk)]; auto. right.
        exists e. rewrite in_app_iff. auto.
      + right. exists (x, k1, k2). rewrite in_app_iff. split; [right; left; auto|].
        apply new_in in Hy. exact Hy.
  Qed.
End Loop.
