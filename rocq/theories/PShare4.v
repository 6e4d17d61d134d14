(* PShare4.v -- workers on a shared table: from start to end. *)
From Coq Require Import String Ascii ZArith List Bool Lia Permutation Sorted.
From Verif Require Import Spec PyBase MSet MText MQueue MDb MSolver MProc MShare SpecRun SpecProc SpecShare PLib PClause
  PRename PLo PNorm PEval PText PQueue PNode PStep PRun PStats PSolver PSolve PSearch PGraph PDb PProc PProc2 PProc3 PProc4
  PShare1 PShare2 PShare3.
Import ListNotations.
Open Scope Z_scope.

(* merging graphs whose lists are right or empty *)
Lemma merge_all_some : forall gs g h R, (forall g', In g' gs -> NoDup (dkeys g')) ->
  (dget text_eqb h g = None \/ dget text_eqb h g = Some [] \/ dget text_eqb h g = Some R) ->
  (forall g' l, In g' gs -> dget text_eqb h g' = Some l -> l = R \/ l = []) ->
  (dget text_eqb h g = Some R \/ exists g', In g' gs /\ dget text_eqb h g' = Some R) ->
  dget text_eqb h (fold_left merge_children gs g) = Some R.
Proof.
  induction gs as [|g1 gs IH]; intros g h R ND H1 H2 H3; cbn [fold_left].
  - destruct H3 as [H3|(g' & [] & _)]; auto.
  - assert (M : dget text_eqb h (merge_children g g1) =
      match dget text_eqb h g1 with Some v => Some (merged (dget text_eqb h g) v) | None => dget text_eqb h g end)
      by (apply merge_get; apply ND; left; auto).
    apply IH.
    + intros; apply ND; right; auto.
    + rewrite M. destruct (dget text_eqb h g1) as [v|] eqn:E; auto.
      destruct (H2 g1 v (or_introl eq_refl) E) as [->| ->]; unfold merged; destruct H1 as [->|[->| ->]]; auto.
      * destruct R; auto. rewrite Nat.leb_refl. auto.
      * destruct R; auto.
    + intros; eapply H2; eauto. right; auto.
    + destruct H3 as [H3|(g' & [->|Hg] & Hh)]; [| |right; eauto].
      * left. rewrite M, H3. destruct (dget text_eqb h g1) as [v|] eqn:E; auto. f_equal.
        destruct (H2 g1 v (or_introl eq_refl) E) as [->| ->]; unfold merged; destruct R; auto. rewrite Nat.leb_refl. auto.
      * left. rewrite M, Hh. f_equal. unfold merged. destruct H1 as [->|[->| ->]]; auto. destruct R; auto. rewrite Nat.leb_refl. auto.
Qed.

Lemma absorb_gen F r p sat ch sol : sound_state F r p ->
  sat = solution_truthy sol /\ (forall s, sol = Some s -> good_sol F r s) /\ two_kids ch ->
  sound_state F r (absorb p sat ch sol).
Proof.
  intros (A & B & C & D) (A' & B' & C'). unfold sound_state, absorb. destruct (solution_truthy sol) eqn:E;
    cbn [p_sat p_solution p_children with_sat with_children with_solution].
  - rewrite A', ?E, ?orb_true_r. split; auto. split; [auto|]. split; [apply merge_two; auto|].
    apply merge_keys; auto. apply C'.
  - rewrite A', orb_false_r. split; auto. split; [auto|]. split; [apply merge_two; auto|].
    apply merge_keys; auto. apply C'.
Qed.

Section Split.
  Variable hash : text -> digest.
  Variable insert_fails : digest -> bool.
  Hypothesis Hif : forall h, insert_fails h = false.
  Variable o : opts.
  Hypothesis Hg : o_gdb o = true.
  Hypothesis Hnm : o_no_mem o = false.
  Variable F : list (list Z).
  Variables n L K lf : nat.
  Variable m : mode.
  Hypothesis Hlf : (lo_bound n L K <= lf)%nat.
  Variable r : cset.
  Variables (p1 : pstate) (done1 : list entry) (pend1 : list cset).
  Hypothesis I1 : Inv hash o F n L K lf m [] r p1 done1 pend1.
  Notation NODE := (is_node hash F n L K).
  Notation EXPANDS := (expands hash o lf m).
  Notation CORE := (core hash o F n L K lf m r done1 pend1).
  Notation FULL := (full hash o F n L K lf m r done1 pend1).
  Notation ENDED := (ended hash o F n L K lf m r done1 pend1).
  Notation TWIN := (twin hash o lf m r).
  Variable wf : nat -> bool.
  Hypothesis Hwf : forall k, wf k = false.

  Lemma crew_up T : forall xs k, incl xs pend1 -> exists W, map wk_x W = xs /\
    (forall w, In w W -> wi hash o F n L K lf m r w /\ wk_done w = [] /\ wk_pend w = [wroot (o_rdb o) (wk_x w)] /\ wk_over w = false) /\
    enter_all hash o wf k (map (view (o_rdb o)) xs) T = map proc W /\
    map w_no (threads k (map (view (o_rdb o)) xs) (map proc W)) = seq k (List.length xs) /\
    (forall v, In v (threads k (map (view (o_rdb o)) xs) (map proc W)) -> w_reply v = None).
  Proof.
    induction xs as [|x xs IH]; intros k Hi.
    - exists []. cbn. split; auto. split; [intros w []|]. split; auto. split; auto. intros v [].
    - destruct (IH (S k)) as (W & A1 & A2 & A3 & A4 & A5); [intros y Hy; apply Hi; right; auto|].
      assert (Hx : In x pend1) by (apply Hi; left; auto).
      destruct (pend1_ok hash o F n L K lf m r p1 done1 pend1 I1 x Hx) as [Nx Rx].
      destruct (i_evs _ _ _ _ _ _ _ _ _ _ _ _ _ I1 x) as [E1 E2]; [apply in_app_iff; auto|].
      destruct (worker_start hash o F n L K lf m r x T Nx Rx E1 E2) as (p & Es & I).
      set (w := mkWk x p [] [wroot (o_rdb o) x] false). exists (w :: W). cbn [map]. split; [cbn; congruence|].
      split. { intros v [<-|Hv]; auto. split; [split; [exact I|discriminate]|]. auto. }
      split.
      { cbn [enter_all]. rewrite A3. f_equal. unfold enter. rewrite Hwf, Es. reflexivity. }
      cbn [threads map w_no seq List.length proc wk_over w]. split; [f_equal; auto|].
      intros v [<-|Hv]; auto.
  Qed.

  Lemma core_start W : map wk_x W = pend1 ->
    (forall w, In w W -> wi hash o F n L K lf m r w /\ wk_done w = [] /\ wk_pend w = [wroot (o_rdb o) (wk_x w)] /\ wk_over w = false) ->
    CORE done1 (p_db p1) W.
  Proof.
    intros A1 A2.
    assert (Ed : dall done1 W = done1).
    { unfold dall. replace (flat_map wk_done W) with (@nil entry); [apply app_nil_r|]. symmetry. clear A1.
      induction W as [|w W IH]; auto. cbn [flat_map]. destruct (A2 w (or_introl eq_refl)) as (_ & -> & _). apply IH. intros; apply A2; right; auto. }
    assert (Hheld : forall z, In z (ys done1 pend1) -> exists z', raws z' = raws z /\ held done1 W z').
    { intros z Hz. apply in_app_iff in Hz as [Hz|Hz].
      - exists z. split; auto. left; auto.
      - rewrite <- A1 in Hz. apply in_map_iff in Hz as (w & Ew & Hw). exists (wroot (o_rdb o) z). split; [apply wroot_raws|].
        right. exists w. split; auto. destruct (A2 w Hw) as (_ & _ & -> & _). rewrite Ew. left; auto. }
    constructor; auto.
    - intros w Hw. apply A2; auto.
    - rewrite (i_db _ _ _ _ _ _ _ _ _ _ _ _ _ I1), Hg. reflexivity.
    - pose proof (i_nodup _ _ _ _ _ _ _ _ _ _ _ _ _ I1) as ND. unfold ys in ND. rewrite map_app in ND.
      apply NoDup_app_left in ND. rewrite map_map in ND. exact ND.
    - rewrite Ed. apply incl_refl.
    - rewrite Ed. apply incl_refl.
    - intros NC c Hc. 
      assert (Hz : exists z, In z (ys done1 pend1) /\ raws z = raws c).
      { destruct Hc as [->|[Hc|(y & k1 & k2 & Hy & Hk)]].
        - exists r. split; auto. pose proof (i_root _ _ _ _ _ _ _ _ _ _ _ _ _ I1) as Hr.
          destruct (ys done1 pend1); [discriminate|]. injection Hr as ->. left; auto.
        - exists c. split; auto. apply in_app_iff; auto.
        - rewrite Ed in Hy.
          destruct (i_done _ _ _ _ _ _ _ _ _ _ _ _ _ I1 _ Hy) as [_ Hinc].
          assert (Hs : In (sid c) (map sid (ys done1 pend1))).
          { apply Hinc. unfold e_kids. cbn [fst snd]. apply in_app_iff. destruct Hk as [->| ->]; simpl; auto. }
          apply in_map_iff in Hs as (z & Es & Hz). exists z. split; auto.
          destruct (i_nodes _ _ _ _ _ _ _ _ _ _ _ _ _ I1 z Hz) as [Nz Rz].
          destruct (i_nodes _ _ _ _ _ _ _ _ _ _ _ _ _ I1 y) as [Ny Ry].
          { apply in_app_iff; left. apply in_map_iff. exists (y, k1, k2); auto. }
          assert (Rc : reach hash o lf m r c).
          { eapply reach_step; [exact Ry| |exact Hk]. apply (i_exp _ _ _ _ _ _ _ _ _ _ _ _ _ I1 y k1 k2 Hy). }
          pose proof (Nr hash o F n L K lf m r p1 done1 pend1 I1) as Nr0.
          eapply same_id_same; eauto. apply (reach_node hash o F n L K lf m r c Nr0 Hlf Rc). }
      destruct Hz as (z & Hz & Ez). destruct (Hheld z Hz) as (z' & Ez' & Hh). exists z'. split; auto. apply sim_raws. congruence.
  Qed.

  Variable max : nat.
  Variable sched : nat -> action.
  Variable linger : nat.
  Hypothesis Hfair : fair_sched max sched.
  Hypothesis Hlen : List.length pend1 = max.

  Lemma split_spec : exists q c N, queue_is_empty q = true /\ ENDED (with_queue p1 q) c /\
    forall fuel lf', (N <= fuel)%nat -> (lf <= lf')%nat ->
      split_sh hash insert_fails o [] max wf sched linger fuel lf' m p1 = Ok (with_db (pl_state (cr_poll c)) (cr_table c)).
  Proof.
    destruct (pop_n_spec _ _ _ _ (i_queue _ _ _ _ _ _ _ _ _ _ _ _ _ I1)) as (q & Epop & Qq).
    destruct (crew_up (p_db p1) pend1 0%nat (incl_refl _)) as (W & A1 & A2 & A3 & A4 & A5).
    set (ps := map proc W) in *. set (ws := threads 0 (map (view (o_rdb o)) pend1) ps) in *.
    set (c0 := mkCrew (p_db p1) ps (mkPoll ws 0 (with_queue p1 q))).
    assert (EW : List.length W = List.length pend1) by (rewrite <- A1, map_length; auto).
    assert (Fu : FULL (with_queue p1 q) W done1 [] c0).
    { constructor; cbn [cr_table cr_procs cr_poll pl_workers pl_state c0 fold_left]; auto.
      - apply core_start; auto.
      - intros v Hv. assert (Hno : In (w_no v) (seq 0 (List.length pend1))) by (rewrite <- A4; apply in_map; auto).
        apply in_seq in Hno. destruct (nth_error W (w_no v)) as [w|] eqn:Ew; [|apply nth_error_None in Ew; lia].
        exists w. split; auto. rewrite (A5 v Hv). unfold reply_of. destruct (A2 w (nth_error_In _ _ Ew)) as (_ & _ & _ & ->). auto.
      - intros v [].
      - cbn [map]. rewrite app_nil_r, A4, EW. auto. }
    destruct (loop_ends hash insert_fails Hif o Hg Hnm F n L K lf m Hlf r p1 done1 pend1 I1 sched (with_queue p1 q) max linger Hfair
      _ W done1 [] c0 0%nat ltac:(lia) Fu (le_n _)) as (c & N & He & EN).
    exists q, c, N. split; [rewrite (qrep_empty _ _ _ _ Qq); auto|]. split; auto.
    intros fuel lf' H1 H2. unfold split_sh. rewrite <- Hlen, Epop. cbn [bind]. rewrite A3. fold ps ws c0.
    pose proof (loop_mono hash insert_fails o n L K lf m Hlf sched linger N fuel lf' 0%nat c0 c H1) as Hmono.
    rewrite Hmono by auto. reflexivity.
  Qed.

  (* what the end state says *)
  Record sh_result (pf : pstate) : Prop := mkShResult {
    sr_sound : sound_state F r pf;
    sr_verdict : no_collision hash o lf m r -> satisfiable (raws r) -> p_sat pf = true;
    sr_table : exists Won, p_db pf = map (row_of_entry hash) Won /\ NoDup (ids Won) /\
      (forall x k1 k2, In (x, k1, k2) Won -> NODE x /\ EXPANDS x k1 k2 /\ TWIN x) /\
      (o_exit o = false -> incl (ids Won) (dkeys (p_children pf))) /\
      (no_collision hash o lf m r -> o_exit o = false -> o_thief o = false ->
        exists E, cover hash o F n L K lf m r E /\ (forall h, In h (dkeys (p_children pf)) <-> In h (ids E)) /\
        (forall e, In e E -> dget text_eqb (sid (e_node e)) (p_children pf) = Some (e_kids e)) /\
        incl Won E /\ incl (ids E) (ids Won))
  }.

  Lemma wi_of Won T W : CORE Won T W -> forall w, In w W -> wi hash o F n L K lf m r w.
  Proof. intros C. apply C. Qed.
  Lemma taken_wi Won T W cs v : CORE Won T W -> taken W cs -> In v cs -> exists w, In w W /\ wi hash o F n L K lf m r w /\
    loop_done o (wk_p w) = true /\ w_reply v = Some (Answer (p_sat (wk_p w)) (p_children (wk_p w)) (p_solution (wk_p w))).
  Proof.
    intros C Ht Hv. destruct (Ht v Hv) as (w & Hw & Ho & Er). exists w. apply nth_error_In in Hw. destruct (co_wi _ _ _ _ _ _ _ _ _ _ _ _ _ _ C w Hw) as [Hi Hl].
    split; auto. split; [split; auto|]. split; auto. rewrite Er. unfold reply_of. rewrite Ho. auto.
  Qed.
  Lemma ended_result q c : ENDED (with_queue p1 q) c -> sh_result (with_db (pl_state (cr_poll c)) (cr_table c)).
  Proof.
    intros (W & Won & cs & C & Ht & Hs & Est). rewrite Est. clear Est. set (T := cr_table c) in *.
    assert (Hans : forall w, In w cs -> answers w).
    { intros v Hv. destruct (taken_wi _ _ _ _ _ C Ht Hv) as (w & _ & _ & _ & Er). red. eauto. }
    assert (Hall : Permutation (map w_no cs) (seq 0 (List.length W)) -> forall w, In w W -> exists v, In v cs /\
      w_reply v = Some (Answer (p_sat (wk_p w)) (p_children (wk_p w)) (p_solution (wk_p w))) /\ loop_done o (wk_p w) = true).
    { intros HP w Hw. destruct (In_nth_error _ _ Hw) as [j Hj].
      assert (Hjs : In j (map w_no cs)).
      { apply (Permutation_in _ (Permutation_sym HP)), in_seq. split; [lia|]. cbn. apply nth_error_Some. congruence. }
      apply in_map_iff in Hjs as (v & Ev & Hv). destruct (Ht v Hv) as (w' & Hw' & Ho & Er). rewrite Ev, Hj in Hw'. injection Hw' as <-.
      exists v. split; auto. rewrite Er. unfold reply_of. rewrite Ho. split; auto. apply (co_wi _ _ _ _ _ _ _ _ _ _ _ _ _ _ C w Hw); auto. }
    assert (Hsat : p_sat (fold_left absorb_w cs (with_queue p1 q)) = true <->
       p_sat p1 = true \/ exists v b ch sol, In v cs /\ w_reply v = Some (Answer b ch sol) /\ b = true).
    { rewrite (proj2 (absorbed_fields cs _)), orb_true_iff, existsb_exists. cbn [p_sat with_queue].
      split; intros [H|H]; auto; right.
      - destruct H as (v & Hv & Hb). destruct (w_reply v) as [[|b ch sol]|] eqn:Er; try discriminate. eauto 8.
      - destruct H as (v & b & ch & sol & Hv & Er & ->). exists v. rewrite Er. auto. }
    assert (Hsound : sound_state F r (fold_left absorb_w cs (with_queue p1 q))).
    { assert (G : forall l p, incl l cs -> sound_state F r p -> sound_state F r (fold_left absorb_w l p)).
      { induction l as [|v l IH]; intros p Hi Hp; cbn [fold_left]; auto. apply IH; [intros u Hu; apply Hi; right; auto|].
        destruct (taken_wi _ _ _ _ v C Ht (Hi v (or_introl eq_refl))) as (w & Hw & [Hwi _] & _ & Er). unfold absorb_w. rewrite Er.
        apply absorb_gen; auto. exact (wi_sound hash o F n L K lf m Hlf r _ _ _ _ Hwi). }
      apply G; [apply incl_refl|]. apply (inv_state _ _ _ _ _ _ _ _ _ _ _ _ _ I1). }
    assert (Hempty : o_exit o = false \/ (forall w, In w W -> p_sat (wk_p w) = false) ->
      Permutation (map w_no cs) (seq 0 (List.length W)) -> forall w, In w W -> wk_pend w = []).
    { intros Hx HP w Hw. destruct (Hall HP w Hw) as (_ & _ & _ & Hl). destruct (co_wi _ _ _ _ _ _ _ _ _ _ _ _ _ _ C w Hw) as [Hi _].
      unfold loop_done in Hl. rewrite (wi_empty _ _ _ _ _ _ _ _ _ _ _ _ _ Hi) in Hl. destruct (wk_pend w); auto. cbn [orb] in Hl.
      apply andb_true_iff in Hl as [Hl Hl2].
      destruct Hx as [Hx|Hx]; [congruence|]. specialize (Hx w Hw).
      rewrite (proj1 (wi_sound hash o F n L K lf m Hlf r _ _ _ _ Hi)) in Hx. congruence. }
    constructor.
    - exact Hsound.
    - intros NC HS. change (p_sat (fold_left absorb_w cs (with_queue p1 q)) = true). apply Hsat.
      destruct Hs as [HP|(_ & v & Hv & Htr)].
      2:{ right. destruct (taken_wi _ _ _ _ v C Ht Hv) as (w & Hw & [Hwi _] & _ & Er). do 4 eexists. split; [exact Hv|]. split; [exact Er|].
          unfold w_truthy in Htr. rewrite Er in Htr. rewrite (proj1 (wi_sound hash o F n L K lf m Hlf r _ _ _ _ Hwi)). exact Htr. }
      destruct (existsb (fun w => p_sat (wk_p w)) W) eqn:Ex.
      { apply existsb_exists in Ex as (w & Hw & Hb). right. destruct (Hall HP w Hw) as (v & Hv & Er & _). do 4 eexists. eauto. }
      left. assert (Hf : forall w, In w W -> p_sat (wk_p w) = false).
      { intros w Hw. destruct (p_sat (wk_p w)) eqn:E; auto. rewrite <- Ex. symmetry. apply existsb_exists. eauto. }
      pose proof (Hempty (or_intror Hf) HP) as Hem.
      assert (Hleaf : true_leaves (dall done1 W) <> []).
      { assert (Main : forall k z, In z (map e_node Won) -> (nvars (raws z) < k)%nat -> satisfiable (raws z) -> true_leaves (dall done1 W) <> []).
        { induction k as [|k IHk]; intros z Hz Hk (a & Ha); [lia|].
          apply in_map_iff in Hz as ([[z' k1] k2] & Ez & He). cbn [e_node fst] in Ez. subst z'.
          pose proof (co_sub _ _ _ _ _ _ _ _ _ _ _ _ _ _ C _ He) as Hd.
          destruct (dall_entry hash o F n L K lf m r p1 done1 pend1 I1 _ _ _ _ _ _ C Hd) as (_ & _ & B1 & B2 & _).
          assert (Hkid : forall b kk, kid_ok hash F n L K (view (o_rdb o) z) b kk -> (kk = k1 \/ kk = k2) ->
                a (pivot_of (view (o_rdb o) z)) = b -> true_leaves (dall done1 W) <> []).
          { intros b kk [HK _] Hor Hb. destruct kk as [[] d|c'].
            - intros E0. assert (Hin : In d (true_leaves (dall done1 W))).
              { unfold true_leaves. apply in_flat_map. exists (z, k1, k2). split; auto. unfold e_true. apply in_app_iff.
                destruct Hor as [<-|<-]; simpl; auto. }
              rewrite E0 in Hin. destruct Hin.
            - exfalso. apply (HK a Hb). rewrite view_raws; auto.
            - destruct HK as (N & S1 & S2 & Hlt & W' & _ & _ & Hst & _). rewrite view_raws in *.
              assert (Hor' : k1 = KNode c' \/ k2 = KNode c') by (destruct Hor as [<-|<-]; auto).
              destruct (co_cov _ _ _ _ _ _ _ _ _ _ _ _ _ _ C NC c') as (z2 & (Z1 & Z2 & _) & Hh).
              { right; right. exists z, k1, k2. auto. }
              destruct Hh as [Hh|(w & Hw & Hh)]; [|rewrite (Hem w Hw) in Hh; destruct Hh].
              apply (IHk z2 Hh); [lia|]. apply Z1. eapply Hst; eauto. }
          destruct (a (pivot_of (view (o_rdb o) z))) eqn:Eb; [apply (Hkid true k1)|apply (Hkid false k2)]; auto. }
        destruct (co_cov _ _ _ _ _ _ _ _ _ _ _ _ _ _ C NC r (or_introl eq_refl)) as (z & (Z1 & Z2 & _) & Hh).
        destruct Hh as [Hh|(w & Hw & Hh)]; [|rewrite (Hem w Hw) in Hh; destruct Hh].
        apply (Main (S (nvars (raws z))) z Hh); [lia|]. tauto. }
      assert (T0 : forall w, In w W -> true_leaves (wk_done w) = []).
      { intros w Hw. destruct (co_wi _ _ _ _ _ _ _ _ _ _ _ _ _ _ C w Hw) as [Hi _]. pose proof (w_sat _ _ _ _ _ _ _ _ _ _ _ _ _ Hi) as E.
        rewrite (Hf w Hw) in E. destruct (true_leaves (wk_done w)); auto. discriminate. }
      rewrite (i_sat _ _ _ _ _ _ _ _ _ _ _ _ _ I1). destruct (true_leaves done1) eqn:E1; auto. exfalso. apply Hleaf.
      unfold true_leaves in *. unfold dall. rewrite flat_map_app, E1. cbn [app].
      clear -T0. induction W as [|w W IH]; auto. cbn [flat_map]. rewrite flat_map_app, IH, app_nil_r by (intros; apply T0; right; auto).
      apply T0. left; auto.
    - exists Won. cbn [p_db with_db p_children]. split; [apply C|]. split; [apply C|]. split.
      { intros x k1 k2 Hx. destruct (dall_entry hash o F n L K lf m r p1 done1 pend1 I1 _ _ _ _ _ _ C (co_sub _ _ _ _ _ _ _ _ _ _ _ _ _ _ C _ Hx)) as (B1 & B2 & _ & _ & B5). auto. }
      rewrite (absorbed_children cs _ Hans). cbn [p_children with_queue]. set (gs := map w_graph cs).
      assert (Hgs : forall g', In g' gs -> exists w, In w W /\ g' = p_children (wk_p w)).
      { intros g' Hg'. apply in_map_iff in Hg' as (v & Ev & Hv). destruct (taken_wi _ _ _ _ v C Ht Hv) as (w & Hw & _ & _ & Er).
        exists w. split; auto. rewrite <- Ev. unfold w_graph. rewrite Er. auto. }
      assert (Hnd : forall g', In g' gs -> NoDup (dkeys g')).
      { intros g' Hg'. destruct (Hgs g' Hg') as (w & Hw & ->). apply (w_nd _ _ _ _ _ _ _ _ _ _ _ _ _ (proj1 (wi_of _ _ _ C w Hw))). }
      assert (HPx : o_exit o = false -> Permutation (map w_no cs) (seq 0 (List.length W))).
      { intros Hx. destruct Hs as [HP|(Hx' & _)]; auto. congruence. }
      assert (Hgs' : o_exit o = false -> forall w, In w W -> In (p_children (wk_p w)) gs).
      { intros Hx w Hw. destruct (Hall (HPx Hx) w Hw) as (v & Hv & Er & _). apply in_map_iff. exists v. split; auto. unfold w_graph. rewrite Er. auto. }
      assert (Hkeys : o_exit o = false -> incl (ids (dall done1 W)) (dkeys (fold_left merge_children gs (p_children p1)))).
      { intros Hx h Hh. apply merge_all_keys; auto. apply in_map_iff in Hh as (e & <- & He). apply in_dall in He as [He|(w & Hw & He)].
        - left. rewrite (i_keys _ _ _ _ _ _ _ _ _ _ _ _ _ I1). apply in_map. apply in_app_iff. left. apply in_map; auto.
        - right. exists (p_children (wk_p w)). split; auto. apply (w_keys _ _ _ _ _ _ _ _ _ _ _ _ _ (proj1 (wi_of _ _ _ C w Hw))).
          apply in_map, in_app_iff. left. apply in_map; auto. }
      split.
      { intros Hx h Hh. apply Hkeys; auto. apply in_map_iff in Hh as (e & <- & He). apply in_map_iff. exists e. split; auto.
        apply (co_sub _ _ _ _ _ _ _ _ _ _ _ _ _ _ C); auto. }
      intros NC Hx Hth. pose proof (Hempty (or_introl Hx) (HPx Hx)) as Hem.
      assert (Hdue : forall c', due r done1 pend1 W c' -> In (sid c') (ids (dall done1 W))).
      { intros c' Hc. destruct (due_ok hash o F n L K lf m Hlf r p1 done1 pend1 I1 _ _ _ _ C Hc) as [(_ & Sc & _) _].
        destruct (co_cov _ _ _ _ _ _ _ _ _ _ _ _ _ _ C NC c' Hc) as (z & (_ & _ & Z) & Hh).
        destruct Hh as [Hh|(w & Hw & Hh)]; [|rewrite (Hem w Hw) in Hh; destruct Hh].
        apply in_map_iff in Hh as ([[z' k1] k2] & Ez & He). cbn [e_node fst] in Ez. subst z'.
        pose proof (co_sub _ _ _ _ _ _ _ _ _ _ _ _ _ _ C _ He) as Hd.
        destruct (dall_entry hash o F n L K lf m r p1 done1 pend1 I1 _ _ _ _ _ _ C Hd) as ((_ & Sz & _) & _).
        rewrite Sc, (Z Hth), <- Sz. apply in_map_iff. exists (z, k1, k2); auto. }
      assert (Hkid : forall e h, In e (dall done1 W) -> In h (e_kids e) -> In h (ids (dall done1 W))).
      { intros [[y k1] k2] h He Hh. unfold e_kids in Hh. cbn [fst snd] in Hh. apply in_app_iff in Hh.
        assert (Hd : exists d, sid d = h /\ (k1 = KNode d \/ k2 = KNode d)).
        { destruct Hh as [Hh|Hh]; [destruct k1|destruct k2]; cbn [kid_ids In] in Hh; destruct Hh as []; eauto; contradiction. }
        destruct Hd as (d & <- & Hd). apply Hdue. right; right. exists y, k1, k2. auto. }
      assert (CV : cover hash o F n L K lf m r (dall done1 W)).
      { constructor.
        - intros x k1 k2 He. destruct (dall_entry hash o F n L K lf m r p1 done1 pend1 I1 _ _ _ _ _ _ C He) as (B1 & B2 & B3 & B4 & (x0 & B5 & B6 & B7)).
          split; auto. split; auto. split; auto. split; auto. exists x0. split; auto. split; auto. eapply expands_view; [|exact B2]. auto.
        - intros e He h Hh. eapply Hkid; eauto.
        - apply Hdue. left; auto.
        - eapply Nr; eauto. }
      assert (Hfun : forall e e', In e (dall done1 W) -> In e' (dall done1 W) -> sid (e_node e') = sid (e_node e) -> e_kids e' = e_kids e).
      { intros e e' He He' Es. eapply (cover_kids_fun hash o F n L K lf m Hlf Hth); eauto. }
      exists (dall done1 W). split; auto. split; [|split; [|split; [apply C|apply C]]].
      + intros h. split; [|apply Hkeys; auto]. rewrite merge_all_keys by auto. intros [Hh|(g' & Hg' & Hh)].
        * rewrite (i_keys _ _ _ _ _ _ _ _ _ _ _ _ _ I1) in Hh. unfold ys in Hh. rewrite map_app, map_map, in_app_iff in Hh.
          destruct Hh as [Hh|Hh].
          -- apply in_map_iff in Hh as (e & <- & He). apply in_map_iff. exists e. split; auto. apply in_dall; auto.
          -- apply in_map_iff in Hh as (x & <- & Hxx). apply Hdue. right; left; auto.
        * destruct (Hgs g' Hg') as (w & Hw & ->). pose proof (proj1 (wi_of _ _ _ C w Hw)) as I.
          destruct (w_conn _ _ _ _ _ _ _ _ _ _ _ _ _ I h Hh) as [->|(e & He & Hk)].
          -- apply Hdue. right; left. rewrite <- (co_roots _ _ _ _ _ _ _ _ _ _ _ _ _ _ C). apply in_map; auto.
          -- eapply Hkid; [|exact Hk]. apply in_dall. right; eauto.
      + intros e He. apply merge_all_some; auto.
        * set (h := sid (e_node e)). destruct (dget text_eqb h (p_children p1)) as [l|] eqn:El; auto. right.
          assert (Hk : In h (dkeys (p_children p1))) by (apply key_get; eauto).
          rewrite (i_keys _ _ _ _ _ _ _ _ _ _ _ _ _ I1) in Hk. unfold ys in Hk. rewrite map_app, map_map, in_app_iff in Hk.
          destruct Hk as [Hk|Hk].
          -- right. apply in_map_iff in Hk as (e' & Ee & He'). rewrite <- El, <- Ee.
             rewrite (proj1 (i_done _ _ _ _ _ _ _ _ _ _ _ _ _ I1 e' He')). f_equal. apply Hfun; auto. apply in_dall; auto.
          -- left. apply in_map_iff in Hk as (x & Ee & Hxx). rewrite <- El, <- Ee.
             rewrite (i_pend _ _ _ _ _ _ _ _ _ _ _ _ _ I1 x Hxx). auto.
        * intros g' l Hg' El. destruct (Hgs g' Hg') as (w & Hw & ->). pose proof (proj1 (wi_of _ _ _ C w Hw)) as I.
          destruct (in_dec text_dec (sid (e_node e)) (ids (wk_done w))) as [Hd|Hd].
          -- apply in_map_iff in Hd as (e' & Ee & He'). left. rewrite <- Ee in El.
             rewrite (proj1 (w_done _ _ _ _ _ _ _ _ _ _ _ _ _ I e' He')) in El. injection El as <-. apply Hfun; auto. apply in_dall. right; eauto.
          -- right. rewrite (w_rest _ _ _ _ _ _ _ _ _ _ _ _ _ I) in El; auto; [congruence|]. apply key_get; eauto.
        * apply in_dall in He as [He|(w & Hw & He)].
          -- left. apply (i_done _ _ _ _ _ _ _ _ _ _ _ _ _ I1 e He).
          -- right. exists (p_children (wk_p w)). split; auto. apply (w_done _ _ _ _ _ _ _ _ _ _ _ _ _ (proj1 (wi_of _ _ _ C w Hw)) e He).
  Qed.
End Split.
