(* PStats.v -- the statistics of the recorded graph (PatternSolver.py:231-257). *)
From Coq Require Import String Ascii ZArith List Bool Lia Permutation Sorted.
From Verif Require Import Spec PyBase MSet MText MQueue MDb MSolver SpecRun PLib.
Import ListNotations.
Open Scope Z_scope.


Definition wsum (w : digest -> Z) (l : list digest) : Z := fold_right (fun x z => w x + z) 0 l.
Definition rsum (w : digest -> Z) (d : list (digest * Z)) : Z :=
  fold_right (fun kv z => w (fst kv) * snd kv + z) 0 d.
Lemma wsum_app w l l' : wsum w (l ++ l') = wsum w l + wsum w l'.
Proof. induction l; simpl; lia. Qed.
Lemma rsum_dset w k v d : 
  rsum w (dset text_eqb k v d) = rsum w d + w k * (v - match dget text_eqb k d with Some x => x | None => 0 end).
Proof.
  induction d as [|[a b] d IH]; simpl; [lia|].
  destruct (text_eqb_spec k a) as [->|]; simpl; [lia|]. rewrite IH. lia.
Qed.
Lemma rsum_bump w k d : rsum w (bump k d) = rsum w d + w k.
Proof. unfold bump. rewrite rsum_dset. destruct (dget text_eqb k d); lia. Qed.

Definition red_ok (d : list (digest * Z)) : Prop := NoDup (dkeys d) /\ forall k v, In (k, v) d -> 1 <= v.
Lemma bump_ok k d : red_ok d -> red_ok (bump k d).
Proof.
  intros [H1 H2]. split; [apply (dset_NoDup _ tspec); auto|].
  intros k' v' Hi. unfold bump in Hi.
  assert (Hd : forall (v0 : Z), 1 <= v0 -> In (k', v') (dset text_eqb k v0 d) -> 1 <= v').
  { clear Hi. intros v0 Hv0. clear H1. induction d as [|[a b] d IH]; simpl.
    - intros [E|[]]. inversion E; subst; auto.
    - destruct (text_eqb k a); simpl.
      + intros [E|Hi]; [inversion E; subst; auto | eapply H2; simpl; eauto].
      + intros [E|Hi]; [inversion E; subst; eapply H2; simpl; eauto|].
        apply IH; auto. intros ? ? ?; eapply H2; simpl; eauto. }
  eapply Hd; [|exact Hi]. destruct (dget text_eqb k d) eqn:E; [|lia].
  apply (dget_In _ tspec) in E. specialize (H2 _ _ E). lia.
Qed.

Section Stats.
  Variable g : graph.
  Hypothesis G : closed_graph g.
  Notation keys := (dkeys g).

  Record good (st : dfs) : Prop := mkGood {
    gd_nodup : NoDup (d_desc st);
    gd_incl : incl (d_desc st) keys;
    gd_red : red_ok (d_red st)
  }.
  (* effect of arriving at the nodes cs, one after the other *)
  Record post (cs : list digest) (st st' : dfs) (added : list digest) : Prop := mkPost {
    po_desc : d_desc st' = d_desc st ++ added;
    po_good : good st';
    po_src : forall x, In x added -> exists c, In c cs /\ reaches (succs g) c x;
    po_closed : forall x, In x added -> incl (succs g x) (d_desc st');
    po_in : incl cs (d_desc st');
    po_sum : forall w, wsum w added + rsum w (d_red st') =
               rsum w (d_red st) + wsum w cs + wsum (fun x => wsum w (succs g x)) added
  }.
  Lemma post_nil st : good st -> post [] st st [].
  Proof.
    intros H. constructor; auto; try (intros x []). - rewrite app_nil_r; auto. - intros w. simpl. lia.
  Qed.
  Lemma post_app cs cs' st st1 st2 a1 a2 : post cs st st1 a1 -> post cs' st1 st2 a2 ->
    post (cs ++ cs') st st2 (a1 ++ a2).
  Proof.
    intros P1 P2.
    assert (Hi : incl (d_desc st1) (d_desc st2)).
    { rewrite (po_desc _ _ _ _ P2). intros x Hx; apply in_app_iff; auto. }
    constructor.
    - rewrite (po_desc _ _ _ _ P2), (po_desc _ _ _ _ P1), app_assoc; auto.
    - apply P2.
    - intros x Hx. apply in_app_iff in Hx as [Hx|Hx].
      + destruct (po_src _ _ _ _ P1 x Hx) as (c & ? & ?). exists c; rewrite in_app_iff; auto.
      + destruct (po_src _ _ _ _ P2 x Hx) as (c & ? & ?). exists c; rewrite in_app_iff; auto.
    - intros x Hx. apply in_app_iff in Hx as [Hx|Hx].
      + intros y Hy. apply Hi. apply (po_closed _ _ _ _ P1 x Hx); auto.
      + apply (po_closed _ _ _ _ P2 x Hx).
    - intros x Hx. apply in_app_iff in Hx as [Hx|Hx]; [apply Hi, P1|apply P2]; auto.
    - intros w. rewrite !wsum_app. pose proof (po_sum _ _ _ _ P1 w). pose proof (po_sum _ _ _ _ P2 w). lia.
  Qed.

  Lemma node_stats_spec : forall fuel n st, good st -> In n keys ->
    (List.length keys < fuel + List.length (d_desc st))%nat ->
    exists st' added, node_stats fuel g n st = Ok st' /\ post [n] st st' added.
  Proof.
    induction fuel as [|f IH]; intros n st Hg Hn Hf.
    - exfalso. pose proof (NoDup_incl_length (gd_nodup _ Hg) (gd_incl _ Hg)). unfold dkeys in *. simpl in Hf. lia.
    - cbn [node_stats]. destruct (existsb (text_eqb n) (d_desc st)) eqn:Ev.
      + exists (mkDfs (d_desc st) (bump n (d_red st))), []. split; auto.
        apply existsb_exists in Ev as (n' & Hn' & E). apply text_eqb_eq in E as <-.
        constructor; simpl.
        * rewrite app_nil_r; auto.
        * constructor; simpl; try apply Hg. apply bump_ok, Hg.
        * intros x []. * intros x []. * intros x [<-|[]]; auto.
        * intros w. rewrite rsum_bump. lia.
      + assert (Hnv : ~ In n (d_desc st)).
        { intros Hi. assert (existsb (text_eqb n) (d_desc st) = true); [|congruence].
          apply existsb_exists. exists n; split; auto. apply text_eqb_refl. }
        destruct (dget text_eqb n g) as [children|] eqn:Ec.
        2: { apply (dget_None _ tspec) in Ec. contradiction. }
        set (st1 := mkDfs (d_desc st ++ [n]) (d_red st)).
        assert (Hg1 : good st1).
        { constructor; simpl.
          - apply (Permutation_NoDup (Permutation_cons_append _ _)). constructor; auto. apply Hg.
          - intros x Hx. apply in_app_iff in Hx as [Hx|[<-|[]]]; auto. apply Hg; auto.
          - apply Hg. }
        assert (Hs : succs g n = children) by (unfold succs; rewrite Ec; auto).
        assert (Hsub : incl children keys) by (rewrite <- Hs; apply G; auto).
        assert (Hgo : forall cs st0, good st0 -> incl cs keys ->
          (List.length keys < f + List.length (d_desc st0))%nat ->
          exists st' added, (fix go (cs : list digest) (st : dfs) : result dfs :=
               match cs with
               | [] => Ok st
               | c :: t => st' <- node_stats f g c st ;; go t st'
               end) cs st0 = Ok st' /\ post cs st0 st' added).
        { induction cs as [|c cs IHcs]; intros st0 Hg0 Hi0 Hf0.
          - exists st0, []. split; auto. apply post_nil; auto.
          - destruct (IH c st0 Hg0 (Hi0 c (or_introl eq_refl)) Hf0) as (sa & aa & Ea & Pa).
            destruct (IHcs sa (po_good _ _ _ _ Pa)) as (sb & ab & Eb & Pb).
            { intros x Hx; apply Hi0; simpl; auto. }
            { rewrite (po_desc _ _ _ _ Pa), app_length. lia. }
            exists sb, (aa ++ ab). rewrite Ea; cbn [bind]. split; auto.
            apply (post_app [c] cs _ _ _ _ _ Pa Pb). }
        destruct (Hgo children st1 Hg1 Hsub) as (st' & added & Eg & P).
        { simpl. rewrite app_length. simpl. lia. }
        exists st', (n :: added). split; auto.
        assert (Hdesc : d_desc st' = d_desc st ++ n :: added).
        { rewrite (po_desc _ _ _ _ P). simpl. rewrite <- app_assoc; auto. }
        constructor; auto.
        * apply P.
        * intros x [<-|Hx]; [exists n; split; simpl; auto; constructor|].
          destruct (po_src _ _ _ _ P x Hx) as (c & Hc & Hr). exists n; split; simpl; auto.
          rewrite <- Hs in Hc. clear -Hc Hr.
          induction Hr; [eapply reaches_step; [apply reaches_refl|auto]|]. eapply reaches_step; eauto.
        * intros x [<-|Hx]; [rewrite Hs; apply P | apply (po_closed _ _ _ _ P); auto].
        * intros x [<-|[]]. rewrite Hdesc. apply in_app_iff; simpl; auto.
        * intros w. pose proof (po_sum _ _ _ _ P w) as H. cbn [wsum fold_right] in *.
          fold (wsum w added) in *. fold (wsum (fun x => wsum w (succs g x)) added) in *.
          rewrite Hs. change (d_red st1) with (d_red st) in H. lia.
  Qed.

  Lemma dfs_from n fuel : In n keys -> (List.length keys < fuel)%nat ->
    exists st, node_stats fuel g n (mkDfs [] []) = Ok st /\
      NoDup (d_desc st) /\ (forall x, In x (d_desc st) <-> reaches (succs g) n x) /\
      red_ok (d_red st) /\
      (forall w, wsum w (d_desc st) + rsum w (d_red st) =
                 w n + wsum (fun x => wsum w (succs g x)) (d_desc st)).
  Proof.
    intros Hn Hf.
    destruct (node_stats_spec fuel n (mkDfs [] [])) as (st & added & E & P); auto.
    { constructor; simpl; [constructor | intros x [] | split; [constructor | intros k v []]]. }
    { simpl. lia. }
    exists st. split; auto. pose proof (po_desc _ _ _ _ P) as Hd. simpl in Hd. rewrite Hd.
    split; [rewrite <- Hd; apply P|]. split.
    - intros x. split.
      + intros Hx. destruct (po_src _ _ _ _ P x Hx) as (c & [<-|[]] & Hr). auto.
      + induction 1.
        * rewrite <- Hd. apply P; simpl; auto.
        * rewrite <- Hd. apply (po_closed _ _ _ _ P y (IHreaches Hn E P)); auto.
    - split; [apply P|]. intros w. pose proof (po_sum _ _ _ _ P w) as H. simpl in H. lia.
  Qed.

  (* the statistics of every node *)
  Definition stat_row (n : digest) (s : Z * Z * Z) : Prop :=
    exists st, s = stats_of st /\
      NoDup (d_desc st) /\ (forall x, In x (d_desc st) <-> reaches (succs g) n x) /\
      red_ok (d_red st) /\
      (forall w, wsum w (d_desc st) + rsum w (d_red st) =
                 w n + wsum (fun x => wsum w (succs g x)) (d_desc st)).
  Lemma graph_stats_spec fuel root : (List.length keys < fuel)%nat ->
    forall ks acc rr, incl ks keys -> NoDup ks -> (forall k, In k ks -> ~ In k (dkeys acc)) ->
    exists acc' rr', graph_stats fuel g root ks acc rr = Ok (acc', rr') /\
      (forall k, In k ks -> exists s, dget text_eqb k acc' = Some s /\ stat_row k s) /\
      (forall k, ~ In k ks -> dget text_eqb k acc' = dget text_eqb k acc).
  Proof.
    intros Hf. induction ks as [|k ks IH]; intros acc rr Hi ND Hd.
    - exists acc, rr. split; auto. split; auto. intros k [].
    - cbn [graph_stats]. destruct (dfs_from k fuel (Hi k (or_introl eq_refl)) Hf) as (st & E & D).
      rewrite E; cbn [bind]. inversion ND; subst.
      destruct (IH (dset text_eqb k (stats_of st) acc) (if text_eqb k root then d_red st else rr))
        as (acc' & rr' & Eg & A & B); auto.
      { intros x Hx; apply Hi; simpl; auto. }
      { intros x Hx Hin. apply (dset_keys_incl _ tspec) in Hin as [->|Hin]; auto.
        eapply Hd; simpl; eauto. }
      exists acc', rr'. split; [exact Eg|]. split.
      + intros x [<-|Hx]; auto. rewrite B by auto. rewrite (dget_dset_same _ tspec).
        exists (stats_of st). split; auto. exists st; auto.
      + intros x Hx. rewrite B by (intros Hi'; apply Hx; simpl; auto).
        apply (dget_dset_other _ tspec). intros ->. apply Hx; simpl; auto.
  Qed.
  Lemma construct_stats_spec fuel root : (List.length keys < fuel)%nat -> In root keys ->
    exists stats rr, construct_graph_stats fuel root g = Ok (stats, rr) /\
      (forall k, In k keys -> exists s, dget text_eqb k stats = Some s /\ stat_row k s).
  Proof.
    intros Hf Hr.
    destruct (graph_stats_spec fuel root Hf keys [] []) as (a & rr & E & A & _); auto.
    - intros x; auto. - apply G.
    - exists a, rr; auto.
  Qed.
End Stats.

Lemma wsum_flat_map w f l : wsum (fun x => wsum w (f x)) l = wsum w (flat_map f l).
Proof. induction l; simpl; auto. rewrite wsum_app. simpl in IHl. rewrite IHl. auto. Qed.
Lemma wsum_one l : wsum (fun _ => 1) l = Z.of_nat (List.length l).
Proof. induction l; cbn [wsum fold_right List.length]; auto. fold (wsum (fun _ => 1) l). lia. Qed.
Lemma rsum_one d : rsum (fun _ => 1) d = fold_right Z.add 0 (map snd d).
Proof. induction d as [|[k v] d IH]; cbn [rsum fold_right map snd fst]; auto. fold (rsum (fun _ => 1) d). rewrite IH. lia. Qed.
Definition ind (x y : digest) : Z := if text_eqb x y then 1 else 0.
Lemma wsum_ind x l : wsum (ind x) l = Z.of_nat (count_occ text_dec l x).
Proof.
  induction l as [|y l IH]; cbn [wsum fold_right count_occ]; auto. fold (wsum (ind x) l). rewrite IH. unfold ind.
  destruct (text_dec y x) as [->|Hn].
  - rewrite text_eqb_refl. lia.
  - destruct (text_eqb_spec x y); [congruence|lia].
Qed.
Lemma rsum_ind x d : red_ok d -> 0 <= rsum (ind x) d /\ (In x (dkeys d) <-> 1 <= rsum (ind x) d).
Proof.
  intros [_ H]. induction d as [|[k v] d IH]; cbn [rsum fold_right dkeys map fst snd].
  - split; [lia|]. split; [intros [] | lia].
  - fold (rsum (ind x) d). destruct IH as [A B]; [intros; eapply H; simpl; eauto|].
    assert (1 <= v) by (eapply H; simpl; eauto). unfold ind at 1 3.
    destruct (text_eqb_spec x k) as [->|Hn]; (split; [lia|]); split.
    + intros _. lia.
    + simpl; auto.
    + intros [E|Hi]; [congruence|]. apply B in Hi. lia.
    + intros Hi. right. apply B. lia.
Qed.
Lemma stat_counts g n u rn rh : stat_row g n (u, rn, rh) ->
  exists R T, NoDup R /\ (forall x, In x R <-> reaches (succs g) n x) /\
    u = Z.of_nat (List.length R) /\
    rh = Z.of_nat (List.length (flat_map (succs g) R)) - Z.of_nat (List.length R) + 1 /\
    NoDup T /\ rn = Z.of_nat (List.length T) /\
    (forall x, In x T <-> In x R /\ (2 <= count_occ text_dec (n :: flat_map (succs g) R) x)%nat).
Proof.
  intros (st & E & ND & HR & RO & W). unfold stats_of in E. inversion E; subst; clear E.
  exists (d_desc st), (dkeys (d_red st)).
  assert (Wf : forall w, wsum w (d_desc st) + rsum w (d_red st) = wsum w (n :: flat_map (succs g) (d_desc st))).
  { intros w. rewrite (W w), wsum_flat_map. auto. }
  split; auto. split; auto. split; auto. split.
  { specialize (Wf (fun _ => 1)). rewrite !wsum_one, rsum_one in Wf. cbn [List.length] in Wf. lia. }
  split; [apply RO|]. split; [unfold dkeys; rewrite map_length; auto|].
  intros x. pose proof (rsum_ind x _ RO) as [A B]. pose proof (Wf (ind x)) as Hx. rewrite !wsum_ind in Hx.
  rewrite B.
  assert (Hin : In x (d_desc st) -> count_occ text_dec (d_desc st) x = 1%nat).
  { intros Hi. apply NoDup_count_occ'; auto. }
  assert (Hout : ~ In x (d_desc st) -> count_occ text_dec (n :: flat_map (succs g) (d_desc st)) x = 0%nat).
  { intros Hi. apply count_occ_not_In. intros [<-|Hc].
    - apply Hi, HR. constructor.
    - apply in_flat_map in Hc as (y & Hy & Hyx). apply Hi, HR. eapply reaches_step; eauto. apply HR; auto. }
  destruct (in_dec text_dec x (d_desc st)) as [Hi|Hi].
  - rewrite (Hin Hi) in Hx. split; [intros; split; auto; lia | lia].
  - rewrite (Hout Hi) in Hx. apply (count_occ_not_In text_dec) in Hi as Hi0. rewrite Hi0 in Hx.
    split; [lia | intros [? _]; contradiction].
Qed.
Lemma graph_stats_mono g root f1 f2 : (f1 <= f2)%nat -> forall ks acc rr x,
  graph_stats f1 g root ks acc rr = Ok x -> graph_stats f2 g root ks acc rr = Ok x.
Proof.
  intros Hle.
  assert (M : forall f1 f2 n st st', (f1 <= f2)%nat -> node_stats f1 g n st = Ok st' -> node_stats f2 g n st = Ok st').
  { clear. induction f1 as [|f1 IH]; intros [|f2] n st st' Hle H; try discriminate; [lia|].
    cbn [node_stats] in *. destruct (existsb _ _); auto. destruct (dget _ _ _) as [l|]; auto.
    revert st' H. generalize (mkDfs (d_desc st ++ [n]) (d_red st)). induction l as [|c l IHl]; intros s st' H; auto.
    apply bind_ok in H as (s1 & H1 & H2). rewrite (IH f2 c s s1) by (auto; lia). cbn [bind]. apply IHl; auto. }
  induction ks as [|k ks IH]; intros acc rr x H; cbn [graph_stats] in *; auto.
  apply bind_ok in H as (s1 & H1 & H2). rewrite (M f1 f2 _ _ _ Hle H1). cbn [bind]. auto.
Qed.
