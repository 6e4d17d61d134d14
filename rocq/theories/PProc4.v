(* PProc4.v -- the multi-process run: from the split to the outcome. *)
From Coq Require Import String Ascii ZArith List Bool Lia Permutation Sorted.
From Verif Require Import Spec PyBase MSet MText MQueue MDb MSolver MProc SpecRun SpecProc PLib PClause PRename PLo
  PNorm PEval PText PQueue PNode PStep PRun PStats PSolver PSolve PSearch PGraph PProc PProc2 PProc3.
Import ListNotations.
Open Scope Z_scope.

Lemma reach_trans hash o lf m r x y : reach hash o lf m r x -> reach hash o lf m x y -> reach hash o lf m r y.
Proof. intros R H. induction H; auto. eapply reach_step; eauto. Qed.
Lemma expands_view hash o lf m x y k1 k2 : view (o_rdb o) x = view (o_rdb o) y ->
  expands hash o lf m x k1 k2 -> expands hash o lf m y k1 k2.
Proof. intros E (l & r & H). exists l, r. rewrite <- E. auto. Qed.

(* what is known about a reported solution *)
Definition good_sol (F : list (list Z)) (r : cset) (sol : list (Z * bool)) : Prop :=
  (forall a, extends a sol -> cnf_true a F) /\ NoDup (dkeys sol) /\ sol <> [] /\
  incl (evaluated_vars r) sol /\
  (forall v, In v (dkeys sol) -> In v (dkeys (evaluated_vars r)) \/ In v (fvars F)) /\
  StronglySorted Z.lt (dkeys sol).
Definition sound_state (F : list (list Z)) (r : cset) (p : pstate) : Prop :=
  p_sat p = solution_truthy (p_solution p) /\ (forall sol, p_solution p = Some sol -> good_sol F r sol) /\
  two_kids (p_children p) /\ In (sid r) (dkeys (p_children p)).

Section Merge.
  Variable hash : text -> digest.
  Variable insert_fails : digest -> bool.
  Variable o : opts.
  Hypothesis Hg : o_gdb o = false.
  Variable F : list (list Z).
  Variables n L K lf : nat.
  Variable m : mode.
  Hypothesis Hlf : (lo_bound n L K <= lf)%nat.
  Variable db : table.
  Notation INV := (Inv hash o F n L K lf m db).
  Notation WORKED := (worked hash insert_fails o F n L K lf m db).
  Notation NODE := (is_node hash F n L K).
  Notation REACH := (reach hash o lf m).

  Lemma inv_root_key r p done pend : INV r p done pend -> In (sid r) (dkeys (p_children p)).
  Proof.
    intros I. rewrite (i_keys _ _ _ _ _ _ _ _ _ _ _ _ _ I). apply in_map.
    pose proof (i_root _ _ _ _ _ _ _ _ _ _ _ _ _ I) as Hr. destruct (ys done pend); [discriminate|].
    injection Hr as ->. simpl; auto.
  Qed.
  Lemma inv_state r p done pend : INV r p done pend -> sound_state F r p.
  Proof.
    intros I. destruct (sol_sat _ _ _ _ _ _ _ _ _ _ _ _ _ I) as [A B]. split; auto. split; [exact B|].
    split; [exact (inv_closed _ _ _ _ _ _ _ _ _ _ _ _ _ I)|eapply inv_root_key; eauto].
  Qed.
  Lemma inv_root_node r p done pend : INV r p done pend -> NODE r.
  Proof.
    intros I. apply (i_nodes _ _ _ _ _ _ _ _ _ _ _ _ _ I).
    pose proof (i_root _ _ _ _ _ _ _ _ _ _ _ _ _ I) as Hr. destruct (ys done pend); [discriminate|].
    injection Hr as ->. simpl; auto.
  Qed.
  Lemma inv_cover r p done : INV r p done [] -> cover hash o F n L K lf m r done.
  Proof.
    intros I. assert (Eys : ys done [] = map e_node done) by (unfold ys; rewrite app_nil_r; auto).
    constructor.
    - intros x k1 k2 He. destruct (i_exp _ _ _ _ _ _ _ _ _ _ _ _ _ I _ _ _ He) as (A & B & C).
      assert (Hx : In x (ys done [])) by (rewrite Eys; apply in_map_iff; exists (x, k1, k2); auto).
      destruct (i_nodes _ _ _ _ _ _ _ _ _ _ _ _ _ I x Hx) as [Nx Rx].
      split; auto. split; auto. split; auto. split; auto. exists x. auto.
    - intros e He. destruct (i_done _ _ _ _ _ _ _ _ _ _ _ _ _ I e He) as [_ A]. unfold ids. rewrite Eys, map_map in A. exact A.
    - pose proof (inv_root_key _ _ _ _ I) as A. rewrite (i_keys _ _ _ _ _ _ _ _ _ _ _ _ _ I), Eys, map_map in A. exact A.
    - eapply inv_root_node; eauto.
  Qed.
  Lemma inv_graph r p done : INV r p done [] ->
    (forall h, In h (dkeys (p_children p)) <-> In h (ids done)) /\
    (forall e, In e done -> dget text_eqb (sid (e_node e)) (p_children p) = Some (e_kids e)).
  Proof.
    intros I. split.
    - intros h. rewrite (i_keys _ _ _ _ _ _ _ _ _ _ _ _ _ I). unfold ys, ids. rewrite app_nil_r, map_map. tauto.
    - intros e He. apply (i_done _ _ _ _ _ _ _ _ _ _ _ _ _ I e He).
  Qed.

  (* the state at the split and the workers *)
  Variable r : cset.
  Variable p1 : pstate.
  Variable done1 : list entry.
  Variable pend1 : list cset.
  Hypothesis I1 : INV r p1 done1 pend1.
  Lemma pend_node x : In x pend1 -> NODE x /\ REACH r x.
  Proof. intros Hx. apply (i_nodes _ _ _ _ _ _ _ _ _ _ _ _ _ I1). apply in_app_iff; auto. Qed.

  Lemma worker_sound x pk : In x pend1 -> WORKED x pk ->
    p_sat pk = solution_truthy (p_solution pk) /\ (forall sol, p_solution pk = Some sol -> good_sol F r sol) /\
    two_kids (p_children pk).
  Proof.
    intros Hx (_ & dk & pe & I & Hl). destruct (sol_sat _ _ _ _ _ _ _ _ _ _ _ _ _ I) as [A B]. split; auto. split.
    - intros sol Hs. destruct (B sol Hs) as (B1 & B2 & B3 & B4 & B5 & B6).
      destruct (i_evs _ _ _ _ _ _ _ _ _ _ _ _ _ I1 x) as [E1 E2]; [apply in_app_iff; auto|].
      assert (HP : Permutation (evaluated_vars (wroot (o_rdb o) x)) (evaluated_vars x)) by apply view_ev.
      split; auto. split; auto. split; auto. split; [|split; auto].
      + intros w Hw. apply B4. apply (Permutation_in _ (Permutation_sym HP)), E1; auto.
      + intros v Hv. destruct (B5 v Hv) as [H|H]; auto. apply E2.
        apply (Permutation_in _ (Permutation_map fst HP)); auto.
    - exact (inv_closed _ _ _ _ _ _ _ _ _ _ _ _ _ I).
  Qed.
  Lemma absorb_sound x pk p : In x pend1 -> WORKED x pk -> sound_state F r p ->
    sound_state F r (absorb p (p_sat pk) (p_children pk) (p_solution pk)).
  Proof.
    intros Hx Hw (A & B & C & D). destruct (worker_sound x pk Hx Hw) as (A' & B' & C').
    unfold sound_state, absorb. destruct (solution_truthy (p_solution pk)) eqn:E;
      cbn [p_sat p_solution p_children with_sat with_children with_solution].
    - rewrite A', ?E, ?orb_true_r. split; auto. split; [auto|]. split; [apply merge_two; auto|].
      apply merge_keys; auto. apply C'.
    - rewrite A', ?E, orb_false_r. split; auto. split; [auto|]. split; [apply merge_two; auto|].
      apply merge_keys; auto. apply C'.
  Qed.
  Lemma queue_sound p q : sound_state F r p -> sound_state F r (with_queue p q).
  Proof. intros H. exact H. Qed.

  Variable pks : list pstate.
  Hypothesis HW : Forall2 WORKED pend1 pks.
  Variable wf : nat -> bool.
  Notation CREW := (crew o wf 0 pend1 pks).

  (* every worker has answered: the main process and the workers together cover the search *)
  Lemma workers_cover : (forall pk, In pk pks -> p_sat pk = false \/ o_exit o = false) ->
    exists dks, cover hash o F n L K lf m r (done1 ++ List.concat dks) /\
      Forall2 (fun pk dk => exists x, In x pend1 /\ INV (wroot (o_rdb o) x) pk dk []) pks dks.
  Proof.
    intros Hq.
    assert (Hall : exists dks, Forall2 (fun pk dk => exists x, In x pend1 /\ INV (wroot (o_rdb o) x) pk dk []) pks dks /\
              forall x, In x pend1 -> exists pk dk, In dk dks /\ INV (wroot (o_rdb o) x) pk dk []).
    { assert (G : forall xs ps, Forall2 WORKED xs ps -> incl xs pend1 -> incl ps pks ->
        exists dks, Forall2 (fun pk dk => exists x, In x pend1 /\ INV (wroot (o_rdb o) x) pk dk []) ps dks /\
          forall x, In x xs -> exists pk dk, In dk dks /\ INV (wroot (o_rdb o) x) pk dk []).
      { induction 1 as [|x pk xs t Hx H IH]; intros Hi1 Hi2.
        - exists []. split; [constructor|intros x []].
        - destruct IH as (dks & A & B); [intros y Hy; apply Hi1; right; auto|intros y Hy; apply Hi2; right; auto|].
          destruct Hx as (_ & dk & pe & I & Hl).
          assert (pe = []) as ->.
          { unfold loop_done in Hl. rewrite (inv_empty _ _ _ _ _ _ _ _ _ _ _ _ _ I) in Hl. destruct pe; auto.
            cbn [orb] in Hl. apply andb_true_iff in Hl as [Hl1 Hl2].
            destruct (Hq pk) as [Hf|Hf]; [apply Hi2; left; auto| |congruence].
            rewrite (proj1 (sol_sat _ _ _ _ _ _ _ _ _ _ _ _ _ I)) in Hf. congruence. }
          exists (dk :: dks). split.
          + constructor; auto. exists x. split; auto. apply Hi1; left; auto.
          + intros y [<-|Hy]; [exists pk, dk; simpl; auto|]. destruct (B y Hy) as (pk' & dk' & B1 & B2).
            exists pk', dk'. simpl; auto. }
      apply (G pend1 pks HW); apply incl_refl. }
    destruct Hall as (dks & A & B). exists dks. split; auto.
    assert (Hdk : forall dk, In dk dks -> exists x pk, In x pend1 /\ INV (wroot (o_rdb o) x) pk dk []).
    { clear -A. induction A as [|pk dk ps ds (x & Hx & I) H IH]; intros d Hd; [destruct Hd|].
      destruct Hd as [<-|Hd]; eauto. }
    constructor.
    - intros y k1 k2 Hin. apply in_app_iff in Hin as [Hin|Hin].
      + destruct (i_exp _ _ _ _ _ _ _ _ _ _ _ _ _ I1 _ _ _ Hin) as (E1 & E2 & E3).
        assert (Hy : In y (ys done1 pend1)) by (apply in_app_iff; left; apply in_map_iff; exists (y, k1, k2); auto).
        destruct (i_nodes _ _ _ _ _ _ _ _ _ _ _ _ _ I1 y Hy) as [Ny Ry].
        split; auto. split; auto. split; auto. split; auto. exists y; auto.
      + apply in_concat in Hin as (dk & Hd & Hin). destruct (Hdk dk Hd) as (x & pk & Hx & I).
        destruct (cv_node _ _ _ _ _ _ _ _ _ _ (inv_cover _ _ _ I) _ _ _ Hin) as (Ny & Ey & K1 & K2 & y0 & R0 & E0 & X0).
        split; auto. split; auto. split; auto. split; auto.
        destruct (pend_node x Hx) as [Nx Rx].
        assert (Hv : view (o_rdb o) (wroot (o_rdb o) x) = view (o_rdb o) x) by (apply wroot_view; apply Nx).
        assert (G : forall z, REACH (wroot (o_rdb o) x) z -> z = wroot (o_rdb o) x \/ REACH x z).
        { intros z Hz. induction Hz as [|u j1 j2 c Hu IHu Eu Hj]; auto. right. destruct IHu as [->|Ru].
          - eapply reach_step; [constructor| |exact Hj]. eapply expands_view; [exact Hv|exact Eu].
          - eapply reach_step; eauto. }
        destruct (G y0 R0) as [->|R0'].
        * exists x. split; auto. split; [rewrite wroot_raws in E0; auto|]. eapply expands_view; [exact Hv|exact X0].
        * exists y0. split; [eapply reach_trans; eauto|]. auto.
    - intros e Hin h Hh. unfold ids. rewrite map_app, in_app_iff.
      apply in_app_iff in Hin as [Hin|Hin].
      + destruct (i_done _ _ _ _ _ _ _ _ _ _ _ _ _ I1 e Hin) as [_ Hi]. apply Hi in Hh.
        unfold ys in Hh. rewrite map_app, in_app_iff, map_map in Hh. destruct Hh as [Hh|Hh]; [left; exact Hh|right].
        apply in_map_iff in Hh as (x & <- & Hx). destruct (B x Hx) as (pk & dk & Hd & I).
        pose proof (cv_root _ _ _ _ _ _ _ _ _ _ (inv_cover _ _ _ I)) as Hr. rewrite wroot_sid in Hr.
        unfold ids in Hr. apply in_map_iff in Hr as (e' & Ee & He'). apply in_map_iff. exists e'. split; auto.
        apply in_concat. eauto.
      + right. apply in_concat in Hin as (dk & Hd & Hin). destruct (Hdk dk Hd) as (x & pk & Hx & I).
        apply (cv_kids _ _ _ _ _ _ _ _ _ _ (inv_cover _ _ _ I) _ Hin) in Hh.
        unfold ids in Hh. apply in_map_iff in Hh as (e' & Ee & He'). apply in_map_iff. exists e'. split; auto.
        apply in_concat. eauto.
    - unfold ids. rewrite map_app, in_app_iff.
      pose proof (inv_root_key _ _ _ _ I1) as Hr. rewrite (i_keys _ _ _ _ _ _ _ _ _ _ _ _ _ I1) in Hr.
      unfold ys in Hr. rewrite map_app, in_app_iff, map_map in Hr. destruct Hr as [Hr|Hr]; [left; exact Hr|right].
      apply in_map_iff in Hr as (x & Ex & Hx). destruct (B x Hx) as (pk & dk & Hd & I).
      pose proof (cv_root _ _ _ _ _ _ _ _ _ _ (inv_cover _ _ _ I)) as Hr. rewrite wroot_sid, Ex in Hr.
      unfold ids in Hr. apply in_map_iff in Hr as (e' & Ee & He'). apply in_map_iff. exists e'. split; auto.
      apply in_concat. eauto.
    - eapply inv_root_node; eauto.
  Qed.

  (* no worker fails *)
  Hypothesis Hwf : forall k, wf k = false.
  Lemma crew_graphs : forall xs ps, Forall2 WORKED xs ps -> forall k, map w_graph (crew o wf k xs ps) = map p_children ps.
  Proof.
    induction 1 as [|x pk xs ps Hx H IH]; intros k; cbn [crew map]; auto.
    rewrite IH. f_equal. unfold w_graph. cbn [w_reply]. rewrite Hwf. reflexivity.
  Qed.
  Lemma crew_answers : Forall answers CREW.
  Proof.
    apply Forall_forall. intros w Hw. destruct (crew_in _ _ _ _ _ _ _ _ _ Hlf _ _ _ _ HW _ _ Hw) as (x & pk & _ & _ & _ & _ & _ & E).
    rewrite Hwf in E. unfold answers. rewrite E. unfold answer_of. eauto.
  Qed.
  Lemma fold_sound : forall cs p, incl cs CREW -> sound_state F r p -> sound_state F r (fold_left absorb_w cs p).
  Proof.
    induction cs as [|w cs IH]; intros p Hi Hp; cbn [fold_left]; auto.
    apply IH; [intros v Hv; apply Hi; right; auto|].
    destruct (crew_in _ _ _ _ _ _ _ _ _ Hlf _ _ _ _ HW _ _ (Hi w (or_introl eq_refl))) as (x & pk & Hx & _ & Hk & _ & _ & E).
    rewrite Hwf in E. unfold absorb_w. rewrite E. cbn [answer_of]. eapply absorb_sound; eauto.
  Qed.
  Lemma truthy_sat cs p w : incl cs CREW -> In w cs -> w_truthy w = true -> p_sat (fold_left absorb_w cs p) = true.
  Proof.
    intros Hi Hw Ht. rewrite (proj2 (absorbed_fields cs p)). apply orb_true_iff. right.
    apply existsb_exists. exists w. split; auto.
    destruct (crew_in _ _ _ _ _ _ _ _ _ Hlf _ _ _ _ HW _ _ (Hi w Hw)) as (x & pk & Hx & _ & Hk & _ & _ & E).
    unfold w_truthy in Ht. rewrite E, Hwf in *. cbn [answer_of] in *.
    destruct (worker_sound x pk Hx Hk) as [-> _]. auto.
  Qed.
  Lemma crew_pks : forall xs ps, Forall2 WORKED xs ps -> forall k pk, In pk ps ->
    exists w, In w (crew o wf k xs ps) /\ w_reply w = Some (answer_of pk).
  Proof.
    induction 1 as [|x q xs ps Hx H IH]; intros k pk Hin; [destruct Hin|]. cbn [crew]. destruct Hin as [->|Hin].
    - eexists. split; [left; reflexivity|]. cbn [w_reply]. rewrite Hwf. auto.
    - destruct (IH (S k) pk Hin) as (w & A & B). exists w. split; auto. right; auto.
  Qed.
  Lemma all_verdict cs p : Permutation CREW cs -> p_sat p = p_sat p1 -> no_collision hash o lf m r ->
    satisfiable (raws r) -> p_sat (fold_left absorb_w cs p) = true.
  Proof.
    intros HP Hp NC Hs. rewrite (proj2 (absorbed_fields cs p)), Hp.
    destruct (p_sat p1) eqn:E1; auto. cbn [orb].
    destruct (existsb (fun w => match w_reply w with Some (Answer b _ _) => b | _ => false end) cs) eqn:Ex; auto.
    exfalso.
    assert (Hq : forall pk, In pk pks -> p_sat pk = false).
    { intros pk Hin. destruct (crew_pks _ _ HW 0%nat pk Hin) as (w & Hw & Er).
      destruct (p_sat pk) eqn:E; auto. assert (Hb : existsb (fun w => match w_reply w with Some (Answer b _ _) => b | _ => false end) cs = true).
      { apply existsb_exists. exists w. split; [apply (Permutation_in _ HP); auto|]. rewrite Er. exact E. }
      congruence. }
    destruct workers_cover as (dks & C & HD); [intros pk Hin; left; auto|].
    apply (cover_complete _ _ _ _ _ _ _ _ Hlf r _ C NC Hs).
    assert (T1 : true_leaves done1 = []).
    { pose proof (i_sat _ _ _ _ _ _ _ _ _ _ _ _ _ I1) as A. rewrite E1 in A. destruct (true_leaves done1); congruence. }
    unfold true_leaves in *. rewrite flat_map_app, T1. cbn [app].
    clear - HD Hq. induction HD as [|pk dk ps ds (x & Hx & I) H IH]; cbn [List.concat flat_map]; auto.
    rewrite flat_map_app, IH by (intros; apply Hq; right; auto). rewrite app_nil_r.
    pose proof (i_sat _ _ _ _ _ _ _ _ _ _ _ _ _ I) as A. rewrite (Hq pk (or_introl eq_refl)) in A.
    unfold true_leaves in A. destruct (flat_map e_true dk); congruence.
  Qed.
  Lemma all_graph cs p : Permutation CREW cs -> p_children p = p_children p1 -> no_collision hash o lf m r ->
    o_exit o = false -> o_thief o = false ->
    exists E, cover hash o F n L K lf m r E /\
      (forall h, In h (dkeys (p_children (fold_left absorb_w cs p))) <-> In h (ids E)) /\
      (forall e, In e E -> dget text_eqb (sid (e_node e)) (p_children (fold_left absorb_w cs p)) = Some (e_kids e)).
  Proof.
    intros HP Hp NC Hx Ht. destruct workers_cover as (dks & C & HD); [intros pk Hin; right; auto|].
    exists (done1 ++ List.concat dks). split; auto.
    assert (Hans : forall w, In w cs -> answers w).
    { intros w Hw. apply (proj1 (Forall_forall _ _) crew_answers). apply (Permutation_in _ (Permutation_sym HP)); auto. }
    rewrite (absorbed_children cs p Hans), Hp. set (gs := map w_graph cs).
    assert (HPg : Permutation (map p_children pks) gs).
    { rewrite <- (crew_graphs _ _ HW 0%nat). apply Permutation_map; auto. }
    assert (Hgs : forall g', In g' gs <-> exists pk, In pk pks /\ g' = p_children pk).
    { intros g'. rewrite <- (Permutation_in' (eq_refl g') HPg), in_map_iff. split; intros (pk & A & B); eauto. }
    assert (HDk : forall pk, In pk pks -> exists dk x, In dk dks /\ In x pend1 /\ INV (wroot (o_rdb o) x) pk dk []).
    { clear -HD. induction HD as [|pk dk ps ds (x & Hx & I) H IH]; intros q Hq; [destruct Hq|].
      destruct Hq as [<-|Hq]; [exists dk, x; simpl; auto|]. destruct (IH q Hq) as (dk' & x' & A & B). exists dk', x'. simpl; auto. }
    assert (HDd : forall dk, In dk dks -> exists pk x, In pk pks /\ In x pend1 /\ INV (wroot (o_rdb o) x) pk dk []).
    { clear -HD. induction HD as [|pk dk ps ds (x & Hx & I) H IH]; intros q Hq; [destruct Hq|].
      destruct Hq as [<-|Hq]; [exists pk, x; simpl; auto|]. destruct (IH q Hq) as (pk' & x' & A & B). exists pk', x'. simpl; auto. }
    assert (Hnd : forall g', In g' gs -> NoDup (dkeys g')).
    { intros g' Hi. apply Hgs in Hi as (pk & Hk & ->). destruct (HDk pk Hk) as (dk & x & _ & _ & I).
      apply (inv_closed _ _ _ _ _ _ _ _ _ _ _ _ _ I). }
    assert (Hpk : forall x, In x pend1 -> In (sid x) (ids (List.concat dks)) /\ exists g', In g' gs /\ In (sid x) (dkeys g')).
    { intros x Hin. destruct (In_nth_error _ _ Hin) as [j Hj].
      destruct (crew_nth _ _ _ _ _ _ _ _ _ _ wf _ _ HW 0%nat j x Hj) as (pk & Hk & Hpk & _).
      destruct Hk as (_ & dk0 & pe & I0 & _). pose proof (inv_root_key _ _ _ _ I0) as Hr. rewrite wroot_sid in Hr.
      split; [|exists (p_children pk); split; auto; apply Hgs; eauto].
      destruct (HDk pk Hpk) as (dk & x' & Hd & _ & I). apply (proj1 (inv_graph _ _ _ I)) in Hr. unfold ids in *.
      apply in_map_iff in Hr as (e & Ee & He). apply in_map_iff. exists e. split; auto. apply in_concat; eauto. }
    split.
    - intros h. rewrite merge_all_keys by exact Hnd. unfold ids. rewrite map_app, in_app_iff.
      rewrite (i_keys _ _ _ _ _ _ _ _ _ _ _ _ _ I1). unfold ys. rewrite map_app, map_map, in_app_iff. split.
      + intros [[H|H]|(g' & Hg' & Hh)]; auto.
        * right. apply in_map_iff in H as (x & <- & Hxx). apply Hpk; auto.
        * right. apply Hgs in Hg' as (pk & Hk & ->). destruct (HDk pk Hk) as (dk & x & Hd & _ & I).
          apply (proj1 (inv_graph _ _ _ I)) in Hh. unfold ids in Hh. apply in_map_iff in Hh as (e & Ee & He).
          apply in_map_iff. exists e. split; auto. apply in_concat; eauto.
      + intros [H|H]; auto. right. apply in_map_iff in H as (e & <- & He). apply in_concat in He as (dk & Hd & He).
        destruct (HDd dk Hd) as (pk & x & Hk & _ & I). exists (p_children pk). split; [apply Hgs; eauto|].
        apply (proj1 (inv_graph _ _ _ I)). unfold ids. apply in_map_iff. eauto.
    - intros e He. set (h := sid (e_node e)). set (R := e_kids e).
      assert (Hfun : forall e', In e' (done1 ++ List.concat dks) -> sid (e_node e') = h -> e_kids e' = R).
      { intros e' He' Es. eapply (cover_kids_fun hash o F n L K lf m Hlf Ht); eauto. }
      apply merge_all_right; [exact Hnd| | |].
      + destruct (dget text_eqb h (p_children p1)) as [l|] eqn:El; auto. right.
        assert (Hk : In h (dkeys (p_children p1))) by (apply key_get; eauto).
        rewrite (i_keys _ _ _ _ _ _ _ _ _ _ _ _ _ I1) in Hk. unfold ys in Hk. rewrite map_app, map_map, in_app_iff in Hk.
        destruct Hk as [Hk|Hk].
        * right. apply in_map_iff in Hk as (e' & Ee & He'). rewrite <- El, <- Ee.
          rewrite (proj1 (i_done _ _ _ _ _ _ _ _ _ _ _ _ _ I1 e' He')). f_equal. apply Hfun; auto. apply in_app_iff; auto.
        * left. apply in_map_iff in Hk as (x & Ee & Hxx). rewrite <- El, <- Ee.
          rewrite (i_pend _ _ _ _ _ _ _ _ _ _ _ _ _ I1 x Hxx). auto.
      + intros g' l Hg' El. apply Hgs in Hg' as (pk & Hk & ->). destruct (HDk pk Hk) as (dk & x & Hd & _ & I).
        assert (Hh : In h (dkeys (p_children pk))) by (apply key_get; eauto).
        apply (proj1 (inv_graph _ _ _ I)) in Hh. unfold ids in Hh. apply in_map_iff in Hh as (e' & Ee & He').
        pose proof (proj2 (inv_graph _ _ _ I) e' He') as Eg. rewrite Ee, El in Eg. injection Eg as ->.
        apply Hfun; auto. apply in_app_iff. right. apply in_concat; eauto.
      + apply in_app_iff in He as [He|He].
        * left. apply (i_done _ _ _ _ _ _ _ _ _ _ _ _ _ I1 e He).
        * right. apply in_concat in He as (dk & Hd & He). destruct (HDd dk Hd) as (pk & x & Hk & _ & I).
          exists (p_children pk). split; [apply Hgs; eauto|]. apply (proj1 (inv_graph _ _ _ I)). unfold ids. apply in_map_iff.
          exists e. auto.
  Qed.
End Merge.
