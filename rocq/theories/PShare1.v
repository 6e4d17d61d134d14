(* PShare1.v -- workers on a shared table: one worker. *)
From Coq Require Import String Ascii ZArith List Bool Lia Permutation Sorted.
From Verif Require Import Spec PyBase MSet MText MQueue MDb MSolver MProc MShare SpecRun SpecProc SpecShare PLib PClause
  PRename PLo PNorm PEval PText PQueue PNode PStep PRun PStats PSolver PSolve PSearch PGraph PDb PProc PProc2 PProc3 PProc4.
Import ListNotations.
Open Scope Z_scope.

Lemma NoDup_app_intro {A} (l l' : list A) : NoDup l -> NoDup l' -> (forall x, In x l -> ~ In x l') -> NoDup (l ++ l').
Proof.
  intros ND. induction l as [|a l IH]; simpl; intros H1 H2; auto. inv ND. constructor.
  - rewrite in_app_iff. intros [H|H]; auto. apply (H2 a); auto.
  - apply IH; auto.
Qed.
Lemma NoDup_app_right {A} (l l' : list A) : NoDup (l ++ l') -> NoDup l'.
Proof. induction l as [|a l IH]; simpl; intros H; auto. inv H; auto. Qed.

Section Worker.
  Variable hash : text -> digest.
  Variable insert_fails : digest -> bool.
  Hypothesis Hif : forall h, insert_fails h = false.
  Variable o : opts.
  Hypothesis Hg : o_gdb o = true.
  Hypothesis Hnm : o_no_mem o = false.
  Variable F : list (list Z).
  Variables n L K lf : nat.
  Variable m : mode.
  Hypothesis Hlf : (lo_bound n L K <= lf)%nat.
  Variable r : cset.
  Notation NODE := (is_node hash F n L K).
  Notation REACH := (reach hash o lf m).
  Notation EXPANDS := (expands hash o lf m).
  Notation KIDOK x := (kid_ok hash F n L K (view (o_rdb o) x)).
  Notation STEP := (step hash insert_fails o []).
  Hypothesis Nr : NODE r.

  Lemma Hgg : o_gdb o = true -> @nil digest = [] /\ forall h, insert_fails h = false.
  Proof. auto. Qed.
  Notation AG f := (f hash insert_fails o [] Hgg [] (fun _ => eq_refl)).

  (* y stands for a set met in the search *)
  Definition twin (y : cset) : Prop := exists y0, REACH r y0 /\ raws y0 = raws y /\ view (o_rdb o) y0 = view (o_rdb o) y.

  Record WI (x : cset) (p : pstate) (done : list entry) (pend : list cset) : Prop := mkWI {
    w_queue : exists ever, qrep (o_rdb o) (p_queue p) ever pend /\ incl ever (dkeys (p_children p));
    w_nd : NoDup (dkeys (p_children p));
    w_ndids : NoDup (map sid (ys done pend));
    w_keys : incl (map sid (ys done pend)) (dkeys (p_children p));
    w_nodes : forall y, In y (ys done pend) -> NODE y /\ twin y;
    w_exp : forall y k1 k2, In (y, k1, k2) done -> EXPANDS y k1 k2 /\ KIDOK y true k1 /\ KIDOK y false k2;
    w_done : forall e, In e done -> dget text_eqb (sid (e_node e)) (p_children p) = Some (e_kids e) /\
      incl (e_kids e) (dkeys (p_children p));
    w_rest : forall h, In h (dkeys (p_children p)) -> ~ In h (ids done) -> dget text_eqb h (p_children p) = Some [];
    w_conn : forall h, In h (dkeys (p_children p)) -> h = sid x \/ exists e, In e done /\ In h (e_kids e);
    w_root : In (sid x) (map sid (ys done pend));
    w_sat : p_sat p = match true_leaves done with [] => false | _ => true end;
    w_sol : p_solution p = option_map sort_items (hd_error (true_leaves done));
    w_evs : forall y, In y (ys done pend) -> incl (evaluated_vars r) (evaluated_vars y) /\
      forall v, In v (dkeys (evaluated_vars y)) -> In v (dkeys (evaluated_vars r)) \/ In v (fvars F)
  }.

  Lemma wi_db x p done pend t : WI x p done pend -> WI x (with_db p t) done pend.
  Proof. intros [A1 A2 A3 A4 A5 A6 A7 A8 A9 A10 A11 A12 A13]. constructor; auto. Qed.

  Lemma wi_step x p done y xs k1 k2 p' pend' : WI x p done (y :: xs) ->
    EXPANDS y k1 k2 -> KIDOK y true k1 -> KIDOK y false k2 ->
    (forall A (f : pstate -> A), (forall p q, f (with_queue p q) = f p) -> (forall p t, f (with_db p t) = f p) ->
        (forall p i, f (add_leaf p i) = f p) -> f p' = f (upd o (sid y) k2 (upd o (sid y) k1 p))) ->
    (pend' = xs ++ new_nodes o (sid y) k1 k2 p \/ pend' = xs) ->
    (exists ever, qrep (o_rdb o) (p_queue p') ever pend' /\ incl ever (dkeys (p_children p'))) ->
    WI x p' (done ++ [(y, k1, k2)]) pend'.
  Proof.
    intros I EX K1 K2 Hf Hpend Hq.
    assert (Hy : In y (ys done (y :: xs))) by (apply in_app_iff; simpl; auto).
    assert (Hin : In (sid y) (dkeys (p_children p))) by (apply (w_keys _ _ _ _ I), in_map; auto).
    set (new := new_nodes o (sid y) k1 k2 p) in *.
    set (pa := after hash o y k1 k2 p (p_queue p)).
    assert (Hpa : p_children p' = p_children pa).
    { rewrite (Hf _ p_children); auto. unfold pa. rewrite (AG after_field p_children); auto. }
    assert (Hkeys' : dkeys (p_children p') = dkeys (p_children p) ++ map sid new).
    { rewrite Hpa. apply (AG after_keys); auto. }
    pose proof (after_nodup o y k1 k2 p Hin (w_nd _ _ _ _ I)) as NDk. fold new in NDk.
    assert (HnotDone : ~ In (sid y) (ids done)).
    { pose proof (w_ndids _ _ _ _ I) as ND. unfold ys in ND. rewrite map_app in ND. cbn [map] in ND.
      apply NoDup_remove_2 in ND. intros Hi. apply ND, in_app_iff. left. rewrite map_map; auto. }
    assert (Hdisj : forall h, In h (dkeys (p_children p)) -> ~ In h (map sid new)).
    { intros h H1 H2. apply in_split in H1 as (u & w & Eu). change digest with text in *. rewrite Eu in NDk.
      rewrite <- app_assoc in NDk. cbn [app] in NDk. apply NoDup_remove_2 in NDk. apply NDk. rewrite !in_app_iff. auto. }
    assert (Hget : forall h, dget text_eqb h (p_children p') =
      if text_eqb h (sid y) then Some (kid_ids k1 ++ kid_ids k2)
      else if existsb (text_eqb h) (map sid new) then Some [] else dget text_eqb h (p_children p)).
    { intros h. rewrite Hpa. unfold pa. rewrite (AG after_get) by auto. fold new.
      assert (E : kids_at (sid y) (p_children p) = []); [|rewrite E; auto].
      unfold kids_at. rewrite (w_rest _ _ _ _ I); auto. }
    assert (Hnoty : forall h, In h (map sid new) -> text_eqb h (sid y) = false).
    { intros h Hh. destruct (text_eqb_spec h (sid y)) as [->|]; auto. exfalso. eapply Hdisj; eauto. }
    assert (Hold : forall h, h <> sid y -> In h (dkeys (p_children p)) -> dget text_eqb h (p_children p') = dget text_eqb h (p_children p)).
    { intros h H1 H2. rewrite Hget. destruct (text_eqb_spec h (sid y)); [contradiction|].
      destruct (existsb _ _) eqn:Ex; auto. exfalso. apply existsb_exists in Ex as (h' & Hi & Eh). apply text_eqb_eq in Eh as <-.
      eapply Hdisj; eauto. }
    assert (Hinc : incl (ys (done ++ [(y, k1, k2)]) pend') (ys done (y :: xs) ++ new)).
    { unfold ys. rewrite map_app. cbn [map e_node fst]. intros z Hz. rewrite !in_app_iff in *. cbn [In] in *.
      destruct Hz as [[Hz|[Hz|[]]]|Hz]; auto. destruct Hpend as [->| ->]; [apply in_app_iff in Hz as [Hz|Hz]|]; auto. }
    assert (HND : NoDup (map sid (ys done (y :: xs) ++ new))).
    { rewrite map_app. apply NoDup_app_intro.
      - apply I.
      - apply NoDup_app_right in NDk; auto.
      - intros h Hh. apply Hdisj. apply (w_keys _ _ _ _ I); auto. }
    destruct (w_nodes _ _ _ _ I y Hy) as [(Ny & Sy & Cy & Wy) (y0 & R0 & E0 & V0)].
    assert (Hnew : forall c, In c new -> NODE c /\ REACH r c /\ incl (evaluated_vars y) (evaluated_vars c) /\
       forall v, In v (dkeys (evaluated_vars c)) -> In v (dkeys (evaluated_vars y)) \/ In v (fvars F)).
    { intros c Hcn. apply new_in in Hcn.
      assert (Rc : REACH r c).
      { eapply reach_step; [exact R0| |exact Hcn]. eapply expands_view; [|exact EX]. auto. }
      assert (Hk : forall b k, KIDOK y b k -> k = KNode c -> NODE c /\ incl (evaluated_vars y) (evaluated_vars c) /\
        forall v, In v (dkeys (evaluated_vars c)) -> In v (dkeys (evaluated_vars y)) \/ In v (fvars F)).
      { intros b k (Hk & _) ->. destruct Hk as (B1 & B2 & B3 & B4 & B5 & _ & _ & _ & A8 & A9). split; [split; auto|]. split.
        - intros w Hw. apply A9. apply (Permutation_in _ (Permutation_sym (view_ev (o_rdb o) y))); auto.
        - intros v Hv. destruct (A8 v Hv) as [H|H]; auto. left.
          apply (Permutation_in _ (Permutation_map fst (view_ev (o_rdb o) y))); auto. }
      destruct Hcn as [H|H]; [destruct (Hk true k1 K1 H) as (B1 & B2 & B3)|destruct (Hk false k2 K2 H) as (B1 & B2 & B3)]; auto. }
    constructor; auto.
    - rewrite Hkeys'; auto.
    - unfold ys in *. replace (map e_node (done ++ [(y, k1, k2)])) with (map e_node done ++ [y]) by (rewrite map_app; reflexivity).
      destruct Hpend as [->| ->].
      + rewrite <- app_assoc in HND |- *. exact HND.
      + rewrite map_app in HND. apply NoDup_app_left in HND. rewrite <- app_assoc. exact HND.
    - intros h Hh. apply in_map_iff in Hh as (z & <- & Hz). apply Hinc in Hz. rewrite Hkeys', in_app_iff.
      apply in_app_iff in Hz as [Hz|Hz]; [left; apply (w_keys _ _ _ _ I), in_map; auto|right; apply in_map; auto].
    - intros z Hz. apply Hinc, in_app_iff in Hz as [Hz|Hz]; [apply I; auto|].
      destruct (Hnew z Hz) as (A & B & _). split; auto. exists z; auto.
    - intros z a b Hz. apply in_app_iff in Hz as [Hz|[Hz|[]]]; [apply (w_exp _ _ _ _ I); auto|]. inv Hz; auto.
    - intros e He. apply in_app_iff in He as [He|[<-|[]]].
      + destruct (w_done _ _ _ _ I e He) as [A B]. split.
        * rewrite Hold; auto.
          -- intros Eq. apply HnotDone. rewrite <- Eq. apply in_map_iff; eauto.
          -- apply (w_keys _ _ _ _ I). apply in_map, in_app_iff. left. apply in_map; auto.
        * intros h Hh. rewrite Hkeys', in_app_iff. left; auto.
      + cbn [e_node e_kids fst snd]. split.
        * rewrite Hget, text_eqb_refl. auto.
        * rewrite Hpa. apply (AG after_incl); auto.
    - intros h Hh Hn. unfold ids in Hn. rewrite map_app, in_app_iff in Hn. cbn [map e_node fst In] in Hn.
      rewrite Hkeys', in_app_iff in Hh. rewrite Hget.
      destruct (text_eqb_spec h (sid y)) as [->|Hne]; [tauto|].
      destruct (existsb _ _) eqn:Ex; auto. destruct Hh as [Hh|Hh].
      + apply (w_rest _ _ _ _ I); auto.
      + rewrite (proj2 (existsb_exists _ _)) in Ex; [discriminate|]. exists h. split; auto. apply text_eqb_refl.
    - intros h Hh. rewrite Hkeys', in_app_iff in Hh. destruct Hh as [Hh|Hh].
      + destruct (w_conn _ _ _ _ I h Hh) as [->|(e & He & Hk)]; auto. right. exists e. rewrite in_app_iff. auto.
      + right. exists (y, k1, k2). split; [apply in_app_iff; simpl; auto|].
        apply in_map_iff in Hh as (c & <- & Hc). apply new_in in Hc. unfold e_kids. cbn [fst snd]. apply in_app_iff.
        destruct Hc as [->| ->]; simpl; auto.
    - pose proof (w_root _ _ _ _ I) as Hr. unfold ys in *. rewrite map_app in *. rewrite !map_app. cbn [map e_node fst] in *.
      rewrite !in_app_iff in *. cbn [In] in *. destruct Hr as [Hr|[Hr|Hr]]; auto.
      destruct Hpend as [->| ->]; auto. rewrite map_app, in_app_iff. auto.
    - rewrite (Hf _ p_sat) by auto. rewrite !upd_sat, (w_sat _ _ _ _ I).
      unfold true_leaves. rewrite flat_map_app. cbn [flat_map].
      change (e_true (y, k1, k2)) with (true_leaf k1 ++ true_leaf k2).
      destruct (flat_map e_true done); cbn [app orb]; [|auto].
      destruct (true_leaf k1), (true_leaf k2); auto.
    - rewrite (Hf _ p_solution) by auto. rewrite !upd_sol, (w_sol _ _ _ _ I).
      unfold true_leaves. rewrite flat_map_app. cbn [flat_map].
      change (e_true (y, k1, k2)) with (true_leaf k1 ++ true_leaf k2).
      rewrite hd_error_app. destruct (hd_error (flat_map e_true done)); cbn [option_map]; auto.
      rewrite app_nil_r, hd_error_app. destruct (hd_error (true_leaf k1)); auto.
    - intros z Hz. apply Hinc, in_app_iff in Hz as [Hz|Hz]; [apply I; auto|].
      destruct (w_evs _ _ _ _ I y Hy) as [A B]. destruct (Hnew z Hz) as (_ & _ & A' & B'). split.
      + intros w Hw. auto.
      + intros v Hv. destruct (B' v Hv); auto.
  Qed.

  (* one iteration of a worker on table T *)
  Lemma worker_step x p done y xs T : WI x p done (y :: xs) ->
    exists p' k1 k2 new, (forall lf', (lf <= lf')%nat -> STEP lf' m (with_db p T) = Ok p') /\
      EXPANDS y k1 k2 /\ KIDOK y true k1 /\ KIDOK y false k2 /\
      (weight new < 3 ^ nvars (raws y))%nat /\
      WI x p' (done ++ [(y, k1, k2)]) (xs ++ new) /\
      ((~ In (sid y) (dkeys T) /\ p_db p' = T ++ [row_of hash y k1 k2] /\
          forall c, k1 = KNode c \/ k2 = KNode c -> In c new \/ In (sid c) (dkeys (p_children p)) \/ exists c', In c' new /\ sid c' = sid c) \/
       (In (sid y) (dkeys T) /\ p_db p' = T /\ new = [])).
  Proof.
    intros I0. pose proof (wi_db _ _ _ _ T I0) as I. set (pT := with_db p T) in *.
    assert (Hy : In y (ys done (y :: xs))) by (apply in_app_iff; simpl; auto).
    assert (Hin : In (sid y) (dkeys (p_children pT))) by (apply (w_keys _ _ _ _ I), in_map; auto).
    destruct (w_nodes _ _ _ _ I y Hy) as [(Ny & Sy & Cy & Wy) _].
    destruct (expand_total hash o F n L K lf m y Ny Wy Hlf) as (k1 & k2 & EX & K1 & K2).
    destruct (w_queue _ _ _ _ I) as (ever & Q & Hev).
    assert (Hing : is_set_in_gdb o [] (sid y) (p_db pT) = false).
    { unfold is_set_in_gdb. rewrite Hnm. reflexivity. }
    destruct (in_dec text_dec (sid y) (dkeys T)) as [Hit|Hit].
    - destruct (step_lost hash insert_fails o [] F n L K lf m pT ever y xs k1 k2 Ny Sy Cy EX K1 K2 Q Hin Hg Hing)
        as (q' & Es & Q').
      { apply orb_true_iff. right. apply (dmem_In _ tspec). exact Hit. }
      exists (after_lost o y k1 k2 pT q'), k1, k2, []. split.
      { intros lf' Hle. apply (step_mono hash insert_fails o [] lf lf' Hle m pT _ Es). }
      split; auto. split; auto. split; auto. split; [simpl; pose proof (pow3_pos (nvars (raws y))); lia|].
      assert (Hf : forall A (f : pstate -> A), (forall p q, f (with_queue p q) = f p) -> (forall p t, f (with_db p t) = f p) ->
        (forall p i, f (add_leaf p i) = f p) -> f (after_lost o y k1 k2 pT q') = f (upd o (sid y) k2 (upd o (sid y) k1 pT))).
      { intros A f H1 H2 H3. unfold after_lost. destruct (both_leaves k1 k2); rewrite ?H3, H1; auto. }
      split.
      + rewrite app_nil_r. apply (wi_step x pT done y xs k1 k2 _ _ I EX K1 K2 Hf); auto.
        exists ever. split.
        * replace (p_queue (after_lost o y k1 k2 pT q')) with q'; auto. unfold after_lost. destruct (both_leaves k1 k2); reflexivity.
        * rewrite (Hf _ p_children) by auto. rewrite upd_keys by (rewrite upd_keys by auto; apply in_app_iff; auto).
          rewrite upd_keys by auto. intros h Hh. rewrite !in_app_iff. auto.
      + right. split; auto. split; auto.
        unfold after_lost. destruct (both_leaves k1 k2); cbn [add_leaf with_queue p_db]; rewrite !upd_db; auto.
    - destruct (step_spec_gen hash insert_fails o [] Hgg F n L K lf m pT (p_queue pT) ever y xs k1 k2 Ny Sy Cy EX K1 K2 eq_refl Q Hev Hin
        (fun _ => Hing) (fun _ => Hit)) as (q' & Es & Q').
      exists (after hash o y k1 k2 pT q'), k1, k2, (new_nodes o (sid y) k1 k2 pT). split.
      { intros lf' Hle. apply (step_mono hash insert_fails o [] lf lf' Hle m pT _ Es). }
      split; auto. split; auto. split; auto. split; [eapply new_weight; eauto|]. split.
      + apply (wi_step x pT done y xs k1 k2 _ _ I EX K1 K2); auto.
        { intros A f H1 H2 H3. apply (AG after_field); auto. }
        eexists. split.
        * replace (p_queue (after hash o y k1 k2 pT q')) with q'; [exact Q'|]. unfold after. destruct (both_leaves k1 k2), (o_gdb o); reflexivity.
        * rewrite (AG after_keys) by auto. rewrite new_nodes_ids. intros h Hh. rewrite !in_app_iff in *. intuition.
      + left. split; auto. split; [rewrite (AG after_db), Hg; reflexivity|].
        intros c Hc. change (p_children p) with (p_children pT).
        destruct Hc as [->| ->].
        * destruct (is_new (KNode c) pT) eqn:En.
          -- left. unfold new_nodes. rewrite En. simpl; auto.
          -- right; left. apply (not_new_ids _ _ En). simpl; auto.
        * destruct (is_new (KNode c) (upd o (sid y) k1 pT)) eqn:En.
          -- left. unfold new_nodes. rewrite En. apply in_app_iff; right. simpl; auto.
          -- right. pose proof (not_new_ids _ _ En (sid c) (or_introl eq_refl)) as Hi.
             rewrite upd_keys in Hi by auto. apply in_app_iff in Hi as [Hi|Hi]; auto. right.
             destruct (is_new k1 pT) eqn:E1; [|destruct Hi]. destruct k1 as [|c1]; [destruct Hi|]. destruct Hi as [Hi|[]].
             exists c1. split; auto. unfold new_nodes. rewrite E1. simpl; auto.
  Qed.

  (* the first state of a worker *)
  Lemma worker_start x T : NODE x -> REACH r x -> 
    incl (evaluated_vars r) (evaluated_vars x) ->
    (forall v, In v (dkeys (evaluated_vars x)) -> In v (dkeys (evaluated_vars r)) \/ In v (fvars F)) ->
    exists p, start hash o (view (o_rdb o) x) T = Ok p /\ WI x p [] [wroot (o_rdb o) x].
  Proof.
    intros Nx Rx E1 E2. pose proof (wroot_node hash o F n L K x Nx) as Nw.
    destruct Nx as (N & Hs & Hc & W).
    assert (Hn : node F (view (o_rdb o) x)) by (apply node_view; auto).
    destruct (start_inv hash o F n L K lf m T (view (o_rdb o) x) Hn) as (p0 & Es & I0).
    - rewrite view_sid, view_raws. auto.
    - rewrite view_sid. destruct (o_rdb o); [left; reflexivity|right; exact Hc].
    - unfold within in *. rewrite view_raws, view_clen. auto.
    - rewrite view_sid in I0. fold (wroot (o_rdb o) x) in I0. exists p0. split; auto.
      pose proof (i_keys _ _ _ _ _ _ _ _ _ _ _ _ _ I0) as Hk. cbn in Hk. 
      assert (HP : Permutation (evaluated_vars (wroot (o_rdb o) x)) (evaluated_vars x)) by apply view_ev.
      constructor.
      + eexists. split; [exact (i_queue _ _ _ _ _ _ _ _ _ _ _ _ _ I0)|apply incl_refl].
      + rewrite Hk. apply (i_nodup _ _ _ _ _ _ _ _ _ _ _ _ _ I0).
      + apply (i_nodup _ _ _ _ _ _ _ _ _ _ _ _ _ I0).
      + rewrite Hk. apply incl_refl.
      + intros y [<-|[]]. split; auto. exists x. split; auto. split; [rewrite wroot_raws; auto|rewrite wroot_view; auto].
      + intros y k1 k2 [].
      + intros e [].
      + intros h Hh _. rewrite Hk in Hh. destruct Hh as [<-|[]]. change (sid (view (o_rdb o) x)) with (sid (wroot (o_rdb o) x)).
        apply (i_pend _ _ _ _ _ _ _ _ _ _ _ _ _ I0). left; auto.
      + intros h Hh. rewrite Hk in Hh. destruct Hh as [<-|[]]. left. change (sid x) with (sid x). rewrite <- (wroot_sid (o_rdb o) x). reflexivity.
      + cbn. left. apply (wroot_sid (o_rdb o) x).
      + apply (i_sat _ _ _ _ _ _ _ _ _ _ _ _ _ I0).
      + apply (i_sol _ _ _ _ _ _ _ _ _ _ _ _ _ I0).
      + intros y [<-|[]]. split.
        * intros w Hw. apply (Permutation_in _ (Permutation_sym HP)), E1; auto.
        * intros v Hv. apply E2. apply (Permutation_in _ (Permutation_map fst HP)); auto.
  Qed.

  (* the answer of a worker is sound whenever it is given *)
  Lemma wi_sound x p done pend : WI x p done pend ->
    p_sat p = solution_truthy (p_solution p) /\ (forall sol, p_solution p = Some sol -> good_sol F r sol) /\
    two_kids (p_children p).
  Proof.
    intros I.
    assert (Leaf : forall d, In d (true_leaves done) -> (forall a, extends a d -> cnf_true a F) /\ NoDup (dkeys d) /\ d <> [] /\
      incl (evaluated_vars r) d /\ (forall v, In v (dkeys d) -> In v (dkeys (evaluated_vars r)) \/ In v (fvars F))).
    { intros d Hd. apply true_leaf_entry in Hd as (z & k1 & k2 & He & Hk).
      destruct (w_exp _ _ _ _ I z k1 k2 He) as (_ & A & B).
      assert (Hx : In z (ys done pend)) by (apply in_app_iff; left; apply in_map_iff; exists (z, k1, k2); auto).
      destruct (w_evs _ _ _ _ I z Hx) as [E1 E2]. pose proof (view_ev (o_rdb o) z) as HV.
      assert (G : exists b, KIDOK z b (KLeaf true d)) by (destruct Hk; subst; eauto).
      destruct G as (b & (A1 & A2 & A3 & A4 & A5) & _). split; auto. split; auto. split; auto. split.
      - intros w Hw. apply A5, (Permutation_in _ (Permutation_sym HV)), E1; auto.
      - intros v Hv. destruct (A4 v Hv) as [H|H]; auto. apply E2.
        apply (Permutation_in _ (Permutation_map fst HV)); auto. }
    assert (S : p_sat p = solution_truthy (p_solution p) /\ forall sol, p_solution p = Some sol -> good_sol F r sol).
    { rewrite (w_sat _ _ _ _ I), (w_sol _ _ _ _ I).
      destruct (true_leaves done) as [|d t] eqn:E; cbn [hd_error option_map].
      - split; auto. discriminate.
      - destruct (Leaf d) as (A & B & C & D1 & D2); [simpl; auto|].
        pose proof (sort_items_Perm d) as HP.
        assert (Hne : sort_items d <> []).
        { intros E0. rewrite E0 in HP. apply Permutation_nil in HP. auto. }
        split.
        + unfold solution_truthy. destruct (sort_items d); congruence.
        + intros sol Es; inv Es. split; [|split; [|split; [auto|split; [|split; [|apply sort_items_sorted; auto]]]]].
          * intros a Ha. apply A. intros v b Hi. apply Ha. apply (Permutation_in _ (Permutation_sym HP)); auto.
          * apply (Permutation_NoDup (Permutation_map fst (Permutation_sym HP))); auto.
          * intros w Hw. apply (Permutation_in _ (Permutation_sym HP)); auto.
          * intros v Hv. apply D2. apply (Permutation_in _ (Permutation_map fst HP)); auto. }
    split; [apply S|]. split; [apply S|].
    assert (Hs : forall h, In h (dkeys (p_children p)) -> incl (succs (p_children p) h) (dkeys (p_children p)) /\ (List.length (succs (p_children p) h) <= 2)%nat).
    { intros h Hh. unfold succs. destruct (in_dec text_dec h (ids done)) as [Hd|Hd].
      - apply in_map_iff in Hd as (e & <- & He). destruct (w_done _ _ _ _ I e He) as [-> B]. split; auto.
        unfold e_kids. rewrite app_length. destruct (snd (fst e)), (snd e); simpl; lia.
      - rewrite (w_rest _ _ _ _ I h Hh Hd). split; [intros ? []|simpl; lia]. }
    split; [split; [apply I|]|]; intros h Hh; apply Hs; auto.
  Qed.
  Lemma wi_empty x p done pend : WI x p done pend -> queue_is_empty (p_queue p) = match pend with [] => true | _ => false end.
  Proof. intros I. destruct (w_queue _ _ _ _ I) as (ever & Q & _). eapply qrep_empty; eauto. Qed.
End Worker.
