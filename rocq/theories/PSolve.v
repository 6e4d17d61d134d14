(* PSolve.v -- solve_set as a whole. *)
From Coq Require Import String Ascii ZArith List Bool Lia Permutation Sorted.
From Verif Require Import Spec PyBase MSet MText MQueue MDb MSolver SpecRun PLib PClause PRename PLo PNorm PEval PText PQueue PNode PStep PRun PStats PSolver.
Import ListNotations.
Open Scope Z_scope.



Lemma injective_collision_free hash o root :
  (forall s t, hash s = hash t -> s = t) -> collision_free hash o root.
Proof. intros H x y tx ty _ _ _ _; auto. Qed.

Definition root_n (root : cset) : nat := nvars (raws root).
Definition root_L (root : cset) : nat := fold_right (fun c k => Nat.max (List.length c) k) 0%nat (raws root).
Definition root_K (root : cset) : nat := List.length (clauses root).
Lemma root_below root : below_len (root_L root) (raws root).
Proof.
  unfold root_L, below_len. induction (raws root) as [|c l IH]; simpl; [tauto|].
  intros d [<-|Hd]; [lia|]. specialize (IH d Hd). lia.
Qed.
Definition root_bound (root : cset) : nat := lo_bound (root_n root) (root_L root) (root_K root).

Record solved_by (hash : text -> digest) (insert_fails : digest -> bool) (o : opts) (root : cset) (db : table) (out : outcome)
  (lf : nat) (r : cset) (p : pstate) (done : list entry) (pend : list cset) : Prop := mkSolved {
  sv_prep : prepare_root hash lf o root = Ok r;
  sv_node : node (raws root) r;
  sv_bound : (root_bound root <= lf)%nat;
  sv_eq : satisfiable (raws root) <-> satisfiable (raws r);
  sv_ev : evaluated_vars r = evaluated_vars root;
  sv_inv : Inv hash o (raws root) (root_n root) (root_L root) (root_K root) lf (input_mode o) db r p done pend;
  sv_run : exists fuel, process_nodes_queue hash insert_fails o [] fuel lf (input_mode o) r db = Ok p;
  sv_done : loop_done o p = true;
  sv_sat : out_sat out = p_sat p;
  sv_sol : out_solution out = p_solution p;
  sv_children : out_children out = p_children p;
  sv_found : out_found out = 0;
  sv_dot : out_dot out = p_dot p;
  sv_nostats : o_no_stats o = true ->
     out_uniques out = p_uniques p /\ out_redundants out = 0 /\ out_hits out = p_hits p /\ out_db out = p_db p;
  sv_stats : o_no_stats o = false ->
     exists fuel stats rr, construct_graph_stats fuel (sid r) (p_children p) = Ok (stats, rr) /\
       dget text_eqb (sid r) stats = Some (out_uniques out, out_redundants out, out_hits out) /\
       stat_row (p_children p) (sid r) (out_uniques out, out_redundants out, out_hits out) /\
       out_db out = if o_gdb o then save_in_global_db stats rr (p_db p) else p_db p
}.

Section SolveSet.
  Variable hash : text -> digest.
  Variable insert_fails : digest -> bool.
  Variable o : opts.
  Variable root : cset.
  Variable db : table.
  Hypothesis RO : root_ok root.
  Hypothesis FD : fresh_db o insert_fails db.

  Lemma fresh_loaded k : loaded_solved o db k = [] /\ loaded_seen o db k = [].
  Proof.
    unfold loaded_solved, loaded_seen. destruct (o_gdb o) eqn:E; simpl; auto.
    destruct FD as [H _]. destruct (H E) as [-> _]. destruct (o_no_mem o); simpl; auto.
  Qed.
  Lemma fresh_unsolved k h : is_set_solved o (loaded_solved o db k) h db = false.
  Proof.
    unfold is_set_solved. destruct (fresh_loaded k) as [-> _].
    destruct (o_no_mem o) eqn:E; auto. destruct FD as [H1 H2]. destruct (H1 (H2 E)) as [-> _]. auto.
  Qed.

  Lemma solve_exists : exists N out r p done pend,
    (forall fuel lf, (N <= fuel)%nat -> (N <= lf)%nat -> solve_set hash insert_fails fuel lf o root db = Ok out) /\
    solved_by hash insert_fails o root db out (root_bound root) r p done pend.
  Proof.
    set (lf := root_bound root).
    destruct (prepare_root_spec hash o lf (root_L root) root RO (root_below root) (le_n _))
      as (r & Ep & N & Hs & Hc & W & Hev & Heq).
    assert (Hgdb : o_gdb o = true -> @nil digest = [] /\ forall h, insert_fails h = false)
      by (intros Hg; split; auto; apply FD; auto).
    assert (Hdb0 : o_gdb o = true -> db = []) by (intros Hg; apply FD; auto).
    destruct (start_inv hash o (raws root) (root_n root) (root_L root) (root_K root) lf (input_mode o) db r
                N Hs (or_intror Hc) W) as (p0 & Es & I0).
    assert (Er : set_hash r (Some (sid r)) = r) by (rewrite <- Hc; destruct r; auto). rewrite Er in I0.
    set (w := weight [r]).
    destruct (run_total hash insert_fails o [] Hgdb (raws root) _ _ _ lf (input_mode o) (le_n _) db Hdb0
                w r p0 [] [r] I0 (le_n _)) as (p & done & pend & Erun & I & Hl).
    cbn [app] in I.
    destruct (inv_closed _ _ _ _ _ _ _ _ _ _ _ _ _ I) as [Hcl _].
    assert (Hroot : In (sid r) (dkeys (p_children p))).
    { rewrite (i_keys _ _ _ _ _ _ _ _ _ _ _ _ _ I). apply in_map.
      pose proof (i_root _ _ _ _ _ _ _ _ _ _ _ _ _ I) as Hr. destruct (ys done pend); [discriminate|].
      inv Hr. simpl; auto. }
    set (sf := S (List.length (dkeys (p_children p)))).
    destruct (construct_stats_spec (p_children p) Hcl sf (sid r)) as (stats & rr & Est & Hst); [unfold sf; lia|auto|].
    destruct (Hst (sid r) Hroot) as ([[u rn] rh] & Hget & Hrow).
    set (out := if o_no_stats o
      then mkOut (p_sat p) (p_solution p) (p_children p) (p_uniques p) 0 (p_hits p) (p_found p) (p_db p) (p_dot p)
      else mkOut (p_sat p) (p_solution p) (p_children p) u rn rh (p_found p)
                (if o_gdb o then save_in_global_db stats rr (p_db p) else p_db p) (p_dot p)).
    set (f0 := Nat.max w sf). set (N0 := Nat.max f0 lf).
    exists N0, out, r, p, done, pend. split.
    - intros fuel lf' H1 H2. apply (solve_set_mono hash insert_fails o root db f0 fuel lf lf'); try lia.
      unfold solve_set.
      destruct (to_pretty_total root) as [t Et]; [right; apply RO|]. rewrite Et; cbn [bind].
      rewrite Ep; cbn [bind]. rewrite fresh_unsolved.
      destruct (fresh_loaded (Z.of_nat (List.length (clauses r)))) as [_ ->].
      unfold process_nodes_queue. rewrite Es; cbn [bind].
      rewrite (run_mono hash insert_fails o [] lf lf (le_n _) (input_mode o) w f0 p0 (Nat.le_max_l _ _) p Erun).
      cbn [bind]. unfold out. destruct (o_no_stats o); auto.
      unfold construct_graph_stats in *.
      rewrite (graph_stats_mono _ _ sf f0 (Nat.le_max_r _ _) _ _ _ _ Est). cbn [bind].
      change digest with text in *. rewrite Hget. reflexivity.
    - pose proof (i_found _ _ _ _ _ _ _ _ _ _ _ _ _ I) as Hfound.
      constructor; auto; try (unfold out; destruct (o_no_stats o); simpl; auto; fail).
      + exists w. unfold process_nodes_queue. rewrite Es. exact Erun.
      + unfold out. intros ->. auto.
      + unfold out. intros ->. cbn [out_uniques out_redundants out_hits out_db]. exists sf, stats, rr. auto.
  Qed.

  Lemma ends_solved out : ends_with hash insert_fails o root db out ->
    exists r p done pend, solved_by hash insert_fails o root db out (root_bound root) r p done pend.
  Proof.
    intros (N & H). destruct solve_exists as (N' & out' & r & p & done & pend & H' & S).
    exists r, p, done, pend. specialize (H (Nat.max N N') (Nat.max N N') (Nat.le_max_l _ _) (Nat.le_max_l _ _)).
    rewrite H' in H by lia. inv H. auto.
  Qed.
End SolveSet.

Lemma reach_node hash o F n L K lf m r x : is_node hash F n L K r -> (lo_bound n L K <= lf)%nat ->
  reach hash o lf m r x -> is_node hash F n L K x.
Proof.
  intros Hr Hlf Hx. induction Hx as [|x k1 k2 c Hx IH E Hk]; auto.
  destruct IH as (N & S1 & S2 & W).
  destruct (expand_total hash o F n L K lf m x N W Hlf) as (k1' & k2' & E' & K1 & K2).
  destruct (expands_fun _ _ _ _ _ _ _ _ _ E E') as [<- <-].
  destruct Hk as [->| ->]; [destruct K1 as [(A1 & A2 & A3 & A4 & A5 & _) _]|destruct K2 as [(A1 & A2 & A3 & A4 & A5 & _) _]];
    split; auto.
Qed.
Lemma finish_hash hash F c0 : node F (finish hash c0) ->
  get_hash hash true c0 = Ok (fhash hash (raws c0), set_hash c0 (Some (fhash hash (raws c0)))).
Proof.
  intros N. apply get_hash_force. pose proof (node_text _ _ N) as T.
  exact T.
Qed.
(* everything reached by the loop is searched *)
Lemma reach_searched hash o root F n L K lf r : is_node hash F n L K r -> (lo_bound n L K <= lf)%nat ->
  prepare_root hash lf o root = Ok r ->
  forall x, reach hash o lf (input_mode o) r x -> searched hash o root x.
Proof.
  intros Hr Hlf Hp x Hx.
  assert (forall x, reach hash o lf (input_mode o) r x -> is_node hash F n L K x)
    by (intros; eapply reach_node; eauto).
  induction Hx as [|x k1 k2 c Hx IH E Hk]; [eapply searched_root; eauto|].
  assert (Nc : node F c) by (apply H; eapply reach_step; eauto).
  destruct E as (l & rr & Ev & P1 & P2).
  destruct Hk as [->| ->].
  - inv P1. unfold finish. eapply searched_child with (c := l); eauto using finish_hash.
  - inv P2. unfold finish. eapply searched_child with (c := rr); eauto using finish_hash.
Qed.
Lemma searched_reach hash o root lf r x : root_ok root -> (root_bound root <= lf)%nat ->
  prepare_root hash lf o root = Ok r -> searched hash o root x -> reach hash o lf (input_mode o) r x.
Proof.
  intros RO Hlf Hp Hx.
  destruct (prepare_root_spec hash o lf (root_L root) root RO (root_below root) Hlf)
      as (r0 & Ep & N & Hs & Hc & W & Hev & Heq). rewrite Hp in Ep; inv Ep.
  assert (Hr : is_node hash (raws root) (root_n root) (root_L root) (root_K root) r0) by (split; auto).
  induction Hx as [lf' r' Hr'|lf' x l rr c c' c2 h Hx IH Ev Hc' Hv Hlo Hh].
  - assert (r' = r0); [|subst; constructor].
    unfold prepare_root in *. set (s0 := set_original _ _) in *.
    apply bind_ok in Hp as (a & A1 & A2). apply bind_ok in Hr' as (b & B1 & B2).
    assert (a = b); [|subst; congruence].
    pose proof (to_lo_mono _ _ _ _ (Nat.max lf lf') _ _ (Nat.le_max_l _ _) A1).
    pose proof (to_lo_mono _ _ _ _ (Nat.max lf lf') _ _ (Nat.le_max_r _ _) B1). congruence.
  - change (branch_mode o) with (input_mode o) in Hlo.
    pose proof (reach_node _ _ _ _ _ _ _ _ _ _ Hr Hlf IH) as (Nx & S1 & S2 & Wx).
    destruct (expand_total hash o _ _ _ _ lf (input_mode o) x Nx Wx Hlf) as (k1 & k2 & E & K1 & K2).
    eapply reach_step; eauto.
    destruct E as (l' & rr' & Ev' & P1 & P2). rewrite Ev in Ev'; inv Ev'.
    assert (G : forall b k, kid_ok hash (raws root) (root_n root) (root_L root) (root_K root) (view (o_rdb o) x) b k ->
                prepared hash o lf (input_mode o) c k -> k = KNode (set_id c2 h)).
    { intros b k KO P. inv P; [congruence|].
      assert (Ec : c0 = c').
      { pose proof (to_lo_mono _ _ _ _ (Nat.max lf lf') _ _ (Nat.le_max_l _ _) H0).
        pose proof (to_lo_mono _ _ _ _ (Nat.max lf lf') _ _ (Nat.le_max_r _ _) Hlo). congruence. }
      rewrite Ec in *. destruct KO as [(Nc & _) _]. rewrite (finish_hash _ _ _ Nc) in Hh. inv Hh. auto. }
    destruct Hc' as [->| ->]; [left|right]; eauto.
Qed.
Lemma collision_free_no hash o root lf r : root_ok root -> (root_bound root <= lf)%nat ->
  prepare_root hash lf o root = Ok r -> collision_free hash o root ->
  no_collision hash o lf (input_mode o) r.
Proof.
  intros RO Hlf Hp CF x y Hx Hy E.
  destruct (prepare_root_spec hash o lf (root_L root) root RO (root_below root) Hlf)
      as (r0 & Ep & N & Hs & Hc & W & Hev & Heq). rewrite Hp in Ep; inv Ep.
  assert (Hr : is_node hash (raws root) (root_n root) (root_L root) (root_K root) r0) by (split; auto).
  destruct (reach_node _ _ _ _ _ _ _ _ _ _ Hr Hlf Hx) as (Nx & _).
  destruct (reach_node _ _ _ _ _ _ _ _ _ _ Hr Hlf Hy) as (Ny & _).
  eapply (CF x y); eauto using reach_searched; eapply node_text; eauto.
Qed.
