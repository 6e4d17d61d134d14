(* PStack.v -- how deep the recursion that computes the statistics goes. *)
From Coq Require Import String Ascii ZArith List Bool Lia Permutation Sorted.
From Verif Require Import Spec PyBase MSet MText MQueue MDb MSolver MMain MStack SpecRun PLib PClause PRename PLo PNorm PEval PText PQueue PNode PStep PRun PStats PSolver PSolve PMain PP2.
Import ListNotations.
Open Scope Z_scope.

(* ---- the recursion in a graph whose edges go down a rank ---- *)
Section Rank.
  Variable g : graph.
  Variable rank : digest -> nat.
  Hypothesis down : forall n, In n (dkeys g) -> forall c, In c (succs g n) -> In c (dkeys g) /\ (rank c < rank n)%nat.
  Lemma ranked_node_stats : forall f n st, In n (dkeys g) -> (rank n < f)%nat -> exists st', node_stats f g n st = Ok st'.
  Proof.
    induction f as [|f IH]; intros n st Hn Hr; [lia|].
    cbn [node_stats]. destruct (existsb _ _); [eauto|].
    destruct (dget text_eqb n g) as [l|] eqn:E.
    2:{ exfalso. apply (dget_None _ tspec) in E. auto. }
    assert (Hl : forall c, In c l -> In c (dkeys g) /\ (rank c < f)%nat).
    { intros c Hc. destruct (down n Hn c) as [A B]; [unfold succs; rewrite E; auto|]. split; auto. lia. }
    generalize (mkDfs (d_desc st ++ [n]) (d_red st)). clear E.
    induction l as [|c l IHl]; intros s; [eauto|].
    destruct (IH c s) as (s1 & E1); [apply Hl; left; auto|apply Hl; left; auto|].
    rewrite E1. cbn [bind]. apply IHl. intros d Hd. apply Hl. right; auto.
  Qed.
  Lemma ranked_stats limit root : (forall n, In n (dkeys g) -> (rank n < limit)%nat) ->
    exists x, construct_graph_stats limit root g = Ok x.
  Proof.
    intros H. unfold construct_graph_stats.
    assert (G : forall ks acc rr, incl ks (dkeys g) -> exists x, graph_stats limit g root ks acc rr = Ok x).
    { induction ks as [|k ks IH]; intros acc rr Hi; cbn [graph_stats]; [eauto|].
      destruct (ranked_node_stats limit k (mkDfs [] [])) as (st & E); [apply Hi; left; auto|apply H, Hi; left; auto|].
      rewrite E. cbn [bind]. apply IH. intros x Hx. apply Hi. right; auto. }
    apply G. apply incl_refl.
  Qed.
End Rank.

(* ---- the limited program in terms of the run ---- *)
Lemma limited_run limit hash ifl o root db out r p done pend : root_ok root -> fresh_db o ifl db ->
  solved_by hash ifl o root db out (root_bound root) r p done pend ->
  exists N, forall fuel lf, (N <= fuel)%nat -> (N <= lf)%nat ->
    solve_set_limited limit hash ifl fuel lf o root db =
    if o_no_stats o then Ok out
    else '(stats, rr) <- limited_stats limit (sid r) (p_children p) ;;
         let '(u, rn, rh) := match dget text_eqb (sid r) stats with Some x => x | None => zero_stats end in
         Ok (mkOut (p_sat p) (p_solution p) (p_children p) u rn rh (p_found p)
                (if o_gdb o then save_in_global_db stats rr (p_db p) else p_db p) (p_dot p)).
Proof.
  intros RO FD S. destruct (sv_run _ _ _ _ _ _ _ _ _ _ _ S) as (f0 & E0).
  exists (Nat.max f0 (root_bound root)). intros fuel lf H1 H2. unfold solve_set_limited.
  destruct (to_pretty_total root) as [t Et]; [right; apply RO|]. rewrite Et; cbn [bind].
  rewrite (prepare_root_mono hash o root (root_bound root) lf r); [|lia|apply (sv_prep _ _ _ _ _ _ _ _ _ _ _ S)].
  cbn [bind]. rewrite (fresh_unsolved ifl o db FD).
  destruct (fresh_loaded ifl o db FD (Z.of_nat (List.length (clauses r)))) as [_ ->].
  assert (E1 : process_nodes_queue hash ifl o [] fuel lf (input_mode o) r db = Ok p).
  { unfold process_nodes_queue in *. apply bind_ok in E0 as (p0 & Es & E0). rewrite Es. cbn [bind].
    apply (run_mono hash ifl o [] (root_bound root) lf ltac:(lia) (input_mode o) f0 fuel p0 ltac:(lia) p E0). }
  rewrite E1. cbn [bind]. destruct (o_no_stats o) eqn:Ns; auto.
  destruct (sv_nostats _ _ _ _ _ _ _ _ _ _ _ S Ns) as (A1 & A2 & A3 & A4).
  pose proof (sv_sat _ _ _ _ _ _ _ _ _ _ _ S). pose proof (sv_sol _ _ _ _ _ _ _ _ _ _ _ S).
  pose proof (sv_children _ _ _ _ _ _ _ _ _ _ _ S). pose proof (sv_found _ _ _ _ _ _ _ _ _ _ _ S).
  pose proof (sv_dot _ _ _ _ _ _ _ _ _ _ _ S).
  pose proof (i_found _ _ _ _ _ _ _ _ _ _ _ _ _ (sv_inv _ _ _ _ _ _ _ _ _ _ _ S)).
  destruct out; cbn in *. congruence.
Qed.
Lemma limited_ok limit hash ifl o root db out r p done pend x : root_ok root -> fresh_db o ifl db ->
  solved_by hash ifl o root db out (root_bound root) r p done pend ->
  (o_no_stats o = false -> construct_graph_stats limit (sid r) (p_children p) = Ok x) ->
  exists N, forall fuel lf, (N <= fuel)%nat -> (N <= lf)%nat ->
    solve_set_limited limit hash ifl fuel lf o root db = Ok out.
Proof.
  intros RO FD S Hx. destruct (limited_run limit _ _ _ _ _ _ _ _ _ _ RO FD S) as (N & HN).
  exists N. intros fuel lf H1 H2. rewrite HN by auto. destruct (o_no_stats o) eqn:Ns; auto.
  specialize (Hx eq_refl).
  destruct (sv_stats _ _ _ _ _ _ _ _ _ _ _ S Ns) as (f & stats & rr & Es & Eg & _ & Ed).
  unfold limited_stats. unfold construct_graph_stats in *.
  apply (graph_stats_mono _ _ f (Nat.max f limit)) in Es; [|lia].
  pose proof (graph_stats_mono _ _ limit (Nat.max f limit) ltac:(lia) _ _ _ _ Hx) as Hx'.
  rewrite Es in Hx'. inv Hx'. rewrite Hx. cbn [bind]. change digest with text in *. rewrite Eg.
  pose proof (sv_sat _ _ _ _ _ _ _ _ _ _ _ S). pose proof (sv_sol _ _ _ _ _ _ _ _ _ _ _ S).
  pose proof (sv_children _ _ _ _ _ _ _ _ _ _ _ S). pose proof (sv_found _ _ _ _ _ _ _ _ _ _ _ S).
  pose proof (sv_dot _ _ _ _ _ _ _ _ _ _ _ S).
  pose proof (i_found _ _ _ _ _ _ _ _ _ _ _ _ _ (sv_inv _ _ _ _ _ _ _ _ _ _ _ S)).
  destruct out; cbn in *. congruence.
Qed.

(* ---- one nested call per variable ---- *)
Lemma nvars_pos F s : node F s -> (0 < nvars (raws s))%nat.
Proof.
  intros N. pose proof (n_ready _ _ N) as R.
  destruct (node_evaluate F s N) as (l & r & po & _ & Hp & _).
  unfold nvars. destruct (dedup (fvars (raws s))) eqn:E; [|simpl; lia].
  exfalso. apply dedup_In in Hp. rewrite E in Hp. auto.
Qed.

Definition rank_in (l : list cset) (h : digest) : nat :=
  match find (fun x => text_eqb (sid x) h) l with Some x => (nvars (raws x) - 1)%nat | None => 0%nat end.
Lemma rank_in_spec l x : In x l -> (forall y, In y l -> sid y = sid x -> raws y = raws x) ->
  rank_in l (sid x) = (nvars (raws x) - 1)%nat.
Proof.
  intros Hx H. unfold rank_in. destruct (find _ l) as [y|] eqn:E.
  - apply find_some in E as [Hy Ey]. destruct (tspec (sid y) (sid x)) as [Ey'|]; [|discriminate]. rewrite (H y Hy Ey'). auto.
  - exfalso. eapply find_none in E; [|exact Hx]. cbn in E. destruct (tspec (sid x) (sid x)); [discriminate|congruence].
Qed.
Lemma stack_suffices limit hash ifl o root db out : root_ok root -> fresh_db o ifl db ->
  collision_free hash o root -> (root_n root <= limit)%nat -> ends_with hash ifl o root db out ->
  exists N, forall fuel lf, (N <= fuel)%nat -> (N <= lf)%nat ->
    solve_set_limited limit hash ifl fuel lf o root db = Ok out.
Proof.
  intros RO FD CF Hl E. destruct (ends_solved hash ifl o root db RO FD out E) as (r & p & done & pend & S).
  pose proof (sv_inv _ _ _ _ _ _ _ _ _ _ _ S) as I. pose proof (sv_prep _ _ _ _ _ _ _ _ _ _ _ S) as Hp.
  pose proof (sv_bound _ _ _ _ _ _ _ _ _ _ _ S) as Hb.
  pose proof (collision_free_no hash o root _ r RO Hb Hp CF) as NC.
  assert (Hr : In r (ys done pend)).
  { pose proof (i_root _ _ _ _ _ _ _ _ _ _ _ _ _ I) as Hr. destruct (ys done pend); [discriminate|]. inv Hr. left; auto. }
  destruct (i_nodes _ _ _ _ _ _ _ _ _ _ _ _ _ I r Hr) as [Nr _].
  assert (Same : forall x y, In x (ys done pend) -> In y (ys done pend) -> sid y = sid x -> raws y = raws x).
  { intros x y Hx Hy Ei. destruct (i_nodes _ _ _ _ _ _ _ _ _ _ _ _ _ I x Hx) as [Nx Rx].
    destruct (i_nodes _ _ _ _ _ _ _ _ _ _ _ _ _ I y Hy) as [Ny Ry].
    eapply same_id_same; [exact NC|exact Ny|exact Nx|exact Ry|exact Rx|exact Ei]. }
  assert (Rk : forall x, In x (ys done pend) -> rank_in (ys done pend) (sid x) = (nvars (raws x) - 1)%nat).
  { intros x Hx. apply rank_in_spec; auto. }
  destruct (ranked_stats (p_children p) (rank_in (ys done pend))) with (limit := limit) (root := sid r) as (x & Ex).
  - intros h Hh c Hc. rewrite (i_keys _ _ _ _ _ _ _ _ _ _ _ _ _ I) in *.
    apply in_map_iff in Hh as (y & <- & Hy).
    assert (Hd : exists k1 k2, In (y, k1, k2) done).
    { unfold ys in Hy. apply in_app_iff in Hy as [Hy|Hy].
      - apply in_map_iff in Hy as ([[y' k1] k2] & Ey & He). cbn in Ey. subst. eauto.
      - unfold succs in Hc. rewrite (i_pend _ _ _ _ _ _ _ _ _ _ _ _ _ I y Hy) in Hc. destruct Hc. }
    destruct Hd as (k1 & k2 & He).
    destruct (i_done _ _ _ _ _ _ _ _ _ _ _ _ _ I _ He) as [Eg Hi]. unfold succs in Hc. cbn [e_node] in Eg.
    change (e_node (y, k1, k2)) with y in Eg. rewrite Eg in Hc.
    split; [apply Hi; auto|].
    destruct (i_exp _ _ _ _ _ _ _ _ _ _ _ _ _ I _ _ _ He) as (EX & K1 & K2).
    assert (Hk : exists c', (k1 = KNode c' \/ k2 = KNode c') /\ c = sid c').
    { unfold e_kids in Hc. cbn [fst snd] in Hc. apply in_app_iff in Hc as [Hc|Hc].
      - destruct k1 as [v d|c']; [destruct Hc|]. destruct Hc as [<-|[]]. eauto.
      - destruct k2 as [v d|c']; [destruct Hc|]. destruct Hc as [<-|[]]. eauto. }
    destruct Hk as (c' & Hk & ->).
    assert (Rc : reach hash o (root_bound root) (input_mode o) r c').
    { eapply reach_step; [|exact EX|exact Hk]. apply (i_nodes _ _ _ _ _ _ _ _ _ _ _ _ _ I y Hy). }
    specialize (Hi _ Hc). apply in_map_iff in Hi as (w & Ew & Hw). rewrite <- Ew, !Rk by auto.
    destruct (i_nodes _ _ _ _ _ _ _ _ _ _ _ _ _ I w Hw) as [Nw Rw].
    assert (Er : raws w = raws c').
    { eapply same_id_same; [exact NC|exact Nw| |exact Rw|exact Rc|exact Ew].
      eapply reach_node; [exact Nr|exact Hb|exact Rc]. }
    rewrite Er.
    assert (Hn : (nvars (raws c') < nvars (raws y))%nat).
    { destruct Hk as [->| ->]; [destruct K1 as [(_ & _ & _ & Hn & _) _]|destruct K2 as [(_ & _ & _ & Hn & _) _]];
        rewrite view_raws in Hn; auto. }
    rewrite <- Er in *. pose proof (nvars_pos _ _ (proj1 Nw)). lia.
  - intros h Hh. rewrite (i_keys _ _ _ _ _ _ _ _ _ _ _ _ _ I) in Hh.
    apply in_map_iff in Hh as (y & <- & Hy). rewrite Rk by auto.
    destruct (i_nodes _ _ _ _ _ _ _ _ _ _ _ _ _ I y Hy) as [Ny _]. pose proof (nvars_pos _ _ (proj1 Ny)).
    destruct Ny as (_ & _ & _ & W). destruct W as (W & _). lia.
  - eapply limited_ok; eauto.
Qed.
