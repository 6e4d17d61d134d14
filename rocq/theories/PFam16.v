(* PFam16.v -- stone formulas *)
From Coq Require Import String Ascii ZArith List Bool Lia Arith Permutation Sorted.
From Verif Require Import Spec PyBase MSet MText MCnf MFam MFam2 SpecCnf SpecFam SpecFam2 PText PLib PCnf1 PCnf2 PFam1 PFam2 PFam3 PFam4 PFam5 PFam6 PFam7 PFam10 PFam12 PFam13 PFam15.
Import ListNotations.
Open Scope Z_scope.

Lemma uniqify_In l x : In x (uniqify l) <-> In x l.
Proof.
  induction l as [|y l IH]; cbn [uniqify]; [tauto|]. cbn [In]. rewrite filter_In, IH. split; [tauto|]. intros [->|H]; auto.
  destruct (Z.eqb_spec x y) as [->|N]; auto.
Qed.
Lemma uniqify_NoDup l : NoDup (uniqify l).
Proof.
  induction l as [|y l IH]; cbn [uniqify]; constructor; [|apply NoDup_filter; auto]. intros H. apply filter_In in H as [_ H]. rewrite Z.eqb_refl in H. discriminate.
Qed.
Definition rule_clause (P : Z -> Z -> text) (pred : list Z) (v j : Z) (tuple : list Z) : list (bool * text) :=
  map (fun ps => (false, P (fst ps) (snd ps))) (combine pred tuple) ++ [(false, P v j)] ++
  map (fun s => (false, stone_R s)) (uniqify tuple) ++ [(true, stone_R j)].
Lemma rule_clause_holds a P pred v j tuple :
  clause_holds a (rule_clause P pred v j tuple) <->
  (exists p s, In (p, s) (combine pred tuple) /\ a (P p s) = false) \/ a (P v j) = false \/ (exists s, In s tuple /\ a (stone_R s) = false) \/ a (stone_R j) = true.
Proof.
  unfold rule_clause. rewrite !holds_app, !one_holds, (holds_map a false (fun ps : Z * Z => P (fst ps) (snd ps))), (holds_map a false stone_R).
  assert (E1 : (exists x, In x (combine pred tuple) /\ a (P (fst x) (snd x)) = false) <-> exists p s, In (p, s) (combine pred tuple) /\ a (P p s) = false).
  { split; [intros ([p s] & H); exists p, s; auto|intros (p & s & H); exists (p, s); auto]. }
  assert (E2 : (exists x, In x (uniqify tuple) /\ a (stone_R x) = false) <-> exists s, In s tuple /\ a (stone_R s) = false).
  { split; intros (s & Hs & E); exists s; split; auto; apply uniqify_In; auto. }
  rewrite E1, E2. tauto.
Qed.
Lemma tuples_In (images : Z -> list Z) j pred tuple :
  In tuple (products (map (fun p => filter (fun s => negb (s =? j)) (images p)) pred)) <-> Forall2 (fun p s => In s (images p) /\ s <> j) pred tuple.
Proof.
  rewrite products_In. revert tuple. induction pred as [|p pred IH]; intros tuple; cbn [map]; split; intros H; inversion H; subst; constructor; auto.
  - match goal with K : In _ (filter _ _) |- _ => apply filter_In in K as [K1 K2] end. rewrite negb_true_iff, Z.eqb_neq in K2. auto.
  - apply IH. auto.
  - apply filter_In. rewrite negb_true_iff, Z.eqb_neq. auto.
  - apply IH. auto.
Qed.
Lemma f2_combine {A B} (R : A -> B -> Prop) l l' x y : Forall2 R l l' -> In (x, y) (combine l l') -> R x y.
Proof. induction 1; cbn; [intros []|]. intros [E|E]; auto. injection E as <- <-. auto. Qed.
Lemma f2_right {A B} (R : A -> B -> Prop) l l' y : Forall2 R l l' -> In y l' -> exists x, In (x, y) (combine l l').
Proof. induction 1; cbn; [intros []|]. intros [->|E]; eauto. destruct IHForall2 as (z & Hz); eauto. Qed.
Lemma f2_left {A B} (R : A -> B -> Prop) l l' x : Forall2 R l l' -> In x l -> exists y, In y l' /\ R x y /\ In (x, y) (combine l l').
Proof.
  induction 1 as [|x0 y0 l l' H0 F IH]; cbn; [intros []|]. intros [->|E]; [exists y0; auto|]. destruct (IH E) as (z & Hz & ? & ?). exists z; auto.
Qed.
Lemma rule_holds a d P images v j : proper_digraph d ->
  ((forall tuple, In tuple (products (map (fun p => filter (fun s => negb (s =? j)) (images p)) (predecessors d v))) -> clause_holds a (rule_clause P (predecessors d v) v j tuple)) <->
   (a (P v j) = true -> (forall u, arc d u v -> exists s, In s (images u) /\ s <> j /\ a (P u s) = true /\ a (stone_R s) = true) -> a (stone_R j) = true)).
Proof.
  intros PD. split.
  - intros H T U. destruct (choose_images (predecessors d v) (fun u s => In s (images u) /\ s <> j /\ a (P u s) = true /\ a (stone_R s) = true)) as (tuple & F).
    { intros u Hu. apply predecessors_In in Hu; auto. }
    specialize (H tuple). rewrite tuples_In, rule_clause_holds in H. destruct H as [(p & s & Hp & E)|[E|[(s & Hs & E)|E]]]; auto.
    + clear -F. induction F as [|x y l l' (A & B & _)]; constructor; auto.
    + apply (f2_combine _ _ _ _ _ F) in Hp as (_ & _ & E' & _). congruence.
    + congruence.
    + destruct (f2_right _ _ _ _ F Hs) as (p & Hp). apply (f2_combine _ _ _ _ _ F) in Hp as (_ & _ & _ & E'). congruence.
  - intros H tuple Ht. apply tuples_In in Ht. destruct (holds_dec a (rule_clause P (predecessors d v) v j tuple)) as [|N]; auto.
    exfalso. apply N. rewrite rule_clause_holds in *.
    destruct (a (P v j)) eqn:E1; [|auto]. destruct (a (stone_R j)) eqn:E2; [auto|]. assert (false = true); [|discriminate]. apply H; auto. intros u Hu.
    apply predecessors_In in Hu; auto. destruct (f2_left _ _ _ _ Ht Hu) as (s & Hs & (A & B) & C). exists s. split; auto. split; auto. split.
    + destruct (a (P u s)) eqn:E; auto. exfalso. apply N. left. eauto.
    + destruct (a (stone_R s)) eqn:E; auto. exfalso. apply N. right. right. left. eauto.
Qed.
Lemma stone_hold a d P images : proper_digraph d ->
  (all_hold a (stone_clauses d P images) <->
   (forall v j, In v (d_nodes d) -> In j (images v) -> a (P v j) = true ->
      (forall u, arc d u v -> exists s, In s (images u) /\ s <> j /\ a (P u s) = true /\ a (stone_R s) = true) -> a (stone_R j) = true) /\
   (forall v j, In v (d_nodes d) -> sink d v -> In j (images v) -> a (P v j) = true -> a (stone_R j) = false)).
Proof.
  intros PD. unfold stone_clauses. rewrite all_hold_flat_map.
  assert (K : forall v, all_hold a (flat_map (fun j =>
      let pred := predecessors d v in
      map (fun tuple => map (fun ps => (false, P (fst ps) (snd ps))) (combine pred tuple) ++ [(false, P v j)] ++
                        map (fun s => (false, stone_R s)) (uniqify tuple) ++ [(true, stone_R j)])
          (products (map (fun p => filter (fun s => negb (s =? j)) (images p)) pred))) (images v) ++
    (if is_sink d v then map (fun j => [(false, P v j); (false, stone_R j)]) (images v) else [])) <->
    (forall j, In j (images v) -> a (P v j) = true ->
      (forall u, arc d u v -> exists s, In s (images u) /\ s <> j /\ a (P u s) = true /\ a (stone_R s) = true) -> a (stone_R j) = true) /\
   (forall j, sink d v -> In j (images v) -> a (P v j) = true -> a (stone_R j) = false)).
  { intros v. rewrite all_hold_app, all_hold_flat_map, all_hold_if, is_sink_ok. cbv zeta.
    assert (E1 : forall j, all_hold a (map (fun tuple => map (fun ps => (false, P (fst ps) (snd ps))) (combine (predecessors d v) tuple) ++ [(false, P v j)] ++
                        map (fun s => (false, stone_R s)) (uniqify tuple) ++ [(true, stone_R j)])
          (products (map (fun p => filter (fun s => negb (s =? j)) (images p)) (predecessors d v)))) <->
       (a (P v j) = true -> (forall u, arc d u v -> exists s, In s (images u) /\ s <> j /\ a (P u s) = true /\ a (stone_R s) = true) -> a (stone_R j) = true)).
    { intros j. rewrite <- (rule_holds a d P images v j PD). exact (all_hold_map a (rule_clause P (predecessors d v) v j) _). }
    assert (E2 : all_hold a (map (fun j => [(false, P v j); (false, stone_R j)]) (images v)) <-> forall j, In j (images v) -> a (P v j) = true -> a (stone_R j) = false).
    { rewrite (all_hold_map a (fun j => [(false, P v j); (false, stone_R j)])). split; intros H j Hj; specialize (H j Hj).
      - apply two_hold in H. intros T. destruct H; congruence.
      - apply two_hold. destruct (a (P v j)); auto. }
    rewrite E2. split.
    - intros [H1 H2]. split; [|auto]. intros j Hj. apply E1. auto.
    - intros [H1 H2]. split; [|auto]. intros j Hj. apply E1. auto. }
  split.
  - intros H. split; intros v j Hv; destruct (proj1 (K v) (H v Hv)) as [A B]; auto.
  - intros [H1 H2] v Hv. apply K. split; intros j; [apply H1; auto|apply (H2 v j Hv)].
Qed.
(* there is no way to satisfy the rules *)
Lemma no_fit d may on red : proper_digraph d -> is_dag d = true -> stones_fit d may on red -> d_nodes d = [].
Proof.
  intros PD D [S1 S2 S3]. destruct (d_nodes d) as [|x t] eqn:EN; auto. exfalso. rewrite <- EN in *.
  assert (Q : forall v, In v (d_nodes d) -> forall j, may v j -> on v j -> red j).
  { apply (dag_induction d (fun v => forall j, may v j -> on v j -> red j)); auto. intros v Hv IH j M O.
    assert (X : forall l, (forall u, In u l -> arc d u v) -> red j \/ forall u, In u l -> exists s, may u s /\ s <> j /\ on u s /\ red s).
    { induction l as [|u l IHl]; intros Hl; [right; intros ? []|]. destruct IHl as [R|IHl]; [intros; apply Hl; right; auto|auto|].
      assert (A : arc d u v) by (apply Hl; left; auto). pose proof (pd_ends _ PD _ _ A) as [Hu _]. destruct (S1 u Hu) as (s & Ms & Os).
      pose proof (IH u A s Ms Os) as R. destruct (Z.eq_dec s j) as [->|N]; [auto|]. right. intros w [<-|Hw]; [exists s; auto|auto]. }
    destruct (X (predecessors d v)) as [R|R]; auto; [intros u Hu; apply predecessors_In; auto|].
    apply (S2 v j Hv M O). intros u A. apply R. apply predecessors_In; auto. }
  destruct (has_sink d D PD) as (v & Hv & S); [congruence|]. destruct (S1 v Hv) as (j & M & O). apply (S3 v j Hv S M O). eapply Q; eauto.
Qed.

(* ---- the two generators ---- *)
Lemma stone_vars d P images cl x : proper_digraph d -> In cl (stone_clauses d P images) -> In x (map snd cl) ->
  (exists v j, In v (d_nodes d) /\ In j (images v) /\ x = P v j) \/ (exists v j, In v (d_nodes d) /\ In j (images v) /\ x = stone_R j).
Proof.
  intros PD Hc Hx. unfold stone_clauses in Hc. apply in_flat_map in Hc as (v & Hv & Hc). apply in_app_iff in Hc as [Hc|Hc].
  - apply in_flat_map in Hc as (j & Hj & Hc). cbv zeta in Hc. apply in_map_iff in Hc as (tuple & <- & Ht). apply tuples_In in Ht.
    assert (PN : forall p, In p (predecessors d v) -> In p (d_nodes d)). { intros p Hp. apply predecessors_In in Hp; auto. apply (pd_ends _ PD _ _ Hp). }
    rewrite !map_app, !map_map in Hx. cbn [map snd] in Hx. apply in_app_iff in Hx as [Hx|Hx]; [|apply in_app_iff in Hx as [Hx|Hx]; [|apply in_app_iff in Hx as [Hx|Hx]]].
    + apply in_map_iff in Hx as ([p s] & <- & Hp). left. exists p, s. split; [apply PN; eapply in_combine_l; eauto|]. split; [|auto].
      apply (f2_combine _ _ _ _ _ Ht) in Hp. tauto.
    + destruct Hx as [<-|[]]. left. eauto.
    + apply in_map_iff in Hx as (s & <- & Hs). apply (proj1 (uniqify_In _ _)) in Hs. destruct (f2_right _ _ _ _ Ht Hs) as (p & Hp). right. exists p, s.
      split; [apply PN; eapply in_combine_l; eauto|]. split; auto. apply (f2_combine _ _ _ _ _ Ht) in Hp. tauto.
    + destruct Hx as [<-|[]]. right. eauto.
  - destruct (is_sink d v); [|destruct Hc]. apply in_map_iff in Hc as (j & <- & Hj). destruct Hx as [<-|[<-|[]]]; [left|right]; eauto.
Qed.
Definition stone_all (d : digraph) (n : Z) : list (list (bool * text)) :=
  map (fun v => map (fun j => (true, stone_P v j)) (range 1 (n + 1))) (d_nodes d) ++ stone_clauses d stone_P (fun _ => range 1 (n + 1)).
Lemma stone_built d n : proper_digraph d -> is_dag d = true -> 0 <= n -> exists c, StoneFormula d n = Ok c /\ made c /\ cnf_clauses c = stone_all d n.
Proof.
  intros PD D Hn. unfold StoneFormula. rewrite D. cbn [negb]. destruct (Z.ltb_spec n 0); [lia|]. cbv zeta.
  destruct (build_unsafe (flat_map (fun v => map (stone_P v) (range 1 (n + 1))) (d_nodes d) ++ map stone_R (range 1 (n + 1))) (stone_all d n)) as (c & A & B & C & _); [|eauto].
  assert (V : forall v j, In v (d_nodes d) -> In j (range 1 (n + 1)) -> In (stone_P v j) (flat_map (fun v => map (stone_P v) (range 1 (n + 1))) (d_nodes d))).
  { intros v j Hv Hj. apply in_flat_map. exists v. split; auto. apply (in_map (stone_P v)). auto. }
  intros cl x Hc Hx. unfold stone_all in Hc. apply in_app_iff in Hc as [Hc|Hc].
  - apply in_map_iff in Hc as (v & <- & Hv). rewrite map_map in Hx. apply in_map_iff in Hx as (j & <- & Hj). apply in_app_iff. left. cbn [snd]. apply V; auto.
  - apply in_app_iff. destruct (stone_vars _ _ _ _ _ PD Hc Hx) as [(v & j & Hv & Hj & ->)|(v & j & Hv & Hj & ->)]; [left; auto|right; apply (in_map stone_R); auto].
Qed.
Lemma stone_models d n a : proper_digraph d ->
  (all_hold a (stone_all d n) <-> stones_fit d (fun _ j => 1 <= j <= n) (fun v j => a (stone_P v j) = true) (fun j => a (stone_R j) = true)).
Proof.
  intros PD. unfold stone_all. rewrite all_hold_app, (all_hold_map a (fun v => map (fun j => (true, stone_P v j)) (range 1 (n + 1)))), stone_hold by auto.
  assert (R : forall j, In j (range 1 (n + 1)) <-> 1 <= j <= n) by (intros; rewrite range_In; lia).
  split.
  - intros (H1 & H2 & H3). split.
    + intros v Hv. specialize (H1 v Hv). apply holds_map in H1 as (j & Hj & E). exists j. rewrite <- R. auto.
    + intros v j Hv Hj O U. apply (H2 v j Hv); [apply R; auto|auto|]. intros u A. destruct (U u A) as (s & Hs & K). exists s. rewrite R. auto.
    + intros v j Hv S Hj O. rewrite (H3 v j Hv S); [discriminate|apply R; auto|auto].
  - intros [H1 H2 H3]. split; [|split].
    + intros v Hv. apply holds_map. destruct (H1 v Hv) as (j & Hj & E). exists j. rewrite R. auto.
    + intros v j Hv Hj O U. apply R in Hj. apply (H2 v j Hv Hj O). intros u A. destruct (U u A) as (s & Hs & K). exists s. rewrite <- R. auto.
    + intros v j Hv S Hj O. apply R in Hj. specialize (H3 v j Hv S Hj O). destruct (a (stone_R j)); auto. congruence.
Qed.
Lemma stone_satisfiable d n : proper_digraph d -> is_dag d = true -> (has_model (stone_all d n) <-> d_nodes d = []).
Proof.
  intros PD D. split.
  - intros (a & H). apply stone_models in H; auto. eapply no_fit; eauto.
  - intros E. exists (fun _ => true). unfold stone_all, stone_clauses. rewrite E. intros c [].
Qed.

(* ---- the sparse variant ---- *)
Lemma rank_of_nth l j e k : NoDup l -> nth_error l j = Some e -> rank_of e l k = k + Z.of_nat j.
Proof.
  revert j k. induction l as [|x l IH]; intros j k N H; [destruct j; discriminate|]. inversion N as [|? ? N1 N2]; subst. destruct j as [|j]; cbn [rank_of].
  - cbn in H. injection H as ->. rewrite Z.eqb_refl. lia.
  - cbn in H. destruct (Z.eqb_spec e x) as [->|_]; [exfalso; apply N1; eapply nth_error_In; eauto|]. rewrite (IH j (k + 1)); auto. lia.
Qed.
Lemma sparse_In d b v j : proper_digraph d -> bipartite_graph b -> List.length (b_left b) = List.length (d_nodes d) -> In v (d_nodes d) ->
  (In j (sparse_images d b v) <-> stone_allowed d b v j).
Proof.
  intros PD B L Hv. unfold sparse_images, stone_allowed. rewrite in_map_iff. apply In_nth_error in Hv as (i & Hi).
  rewrite (rank_of_nth _ i v 0 (pd_nodes _ PD) Hi). rewrite Z.add_0_l, Nat2Z.id.
  assert (Li : (i < List.length (b_left b))%nat) by (rewrite L; eapply nth_error_Some_length; eauto). split.
  - intros (s & <- & Hs). apply left_In in Hs. pose proof (bg_ends _ B _ _ Hs) as [_ Hr]. apply In_nth_error in Hr as (k & Hk).
    exists i, k, (nth i (b_left b) 0), s. split; auto. split; [apply nth_error_nth'; auto|]. split; auto. split; auto. rewrite (rank_of_nth _ k s 1 (bg_right _ B) Hk). lia.
  - intros (i' & k & u & s & Hi' & Hu & Hk & -> & He). assert (i' = i).
    { apply (proj1 (NoDup_nth_error _) (pd_nodes _ PD)); [eapply nth_error_Some_length; eauto|congruence]. }
    subst i'. exists s. split; [rewrite (rank_of_nth _ k s 1 (bg_right _ B) Hk); lia|]. apply left_In. rewrite (nth_error_nth _ _ 0 Hu). auto.
Qed.
Lemma sparse_NoDup d b v : bipartite_graph b -> NoDup (sparse_images d b v).
Proof.
  intros B. unfold sparse_images. apply NoDup_map_in; [apply left_NoDup; auto|]. intros x y Hx Hy E. apply left_In in Hx, Hy.
  pose proof (bg_ends _ B _ _ Hx) as [_ Rx]. pose proof (bg_ends _ B _ _ Hy) as [_ Ry]. apply In_nth_error in Rx as (i & Hi). apply In_nth_error in Ry as (k & Hk).
  rewrite (rank_of_nth _ i x 1 (bg_right _ B) Hi), (rank_of_nth _ k y 1 (bg_right _ B) Hk) in E. assert (i = k) by lia. subst. congruence.
Qed.
Definition sparse_complete (d : digraph) (b : bipartite) : list (list (bool * text)) :=
  flat_map (fun v => greater_or_equal_constraint (map (sparse_X v) (sparse_images d b v)) 1) (d_nodes d).
Definition sparse_all (d : digraph) (b : bipartite) : list (list (bool * text)) :=
  sparse_complete d b ++ stone_clauses d sparse_X (sparse_images d b).
Lemma X_not_R v j s : sparse_X v j <> stone_R s.
Proof. discriminate. Qed.
Lemma sparse_clean d b cl : proper_digraph d -> is_dag d = true -> In cl (stone_clauses d sparse_X (sparse_images d b)) -> clean cl.
Proof.
  intros PD D Hc. apply is_dag_ok in D; auto. unfold stone_clauses in Hc. apply in_flat_map in Hc as (v & Hv & Hc). apply in_app_iff in Hc as [Hc|Hc].
  - apply in_flat_map in Hc as (j & Hj & Hc). cbv zeta in Hc. apply in_map_iff in Hc as (tuple & <- & Ht). apply tuples_In in Ht.
    apply clean_vars. rewrite !map_app, !map_map. cbn [map snd].
    assert (NC : NoDup (combine (predecessors d v) tuple)).
    { assert (G : forall (l l' : list Z), NoDup l -> NoDup (combine l l')).
      { induction l as [|x l IH]; intros [|y l'] N; cbn; constructor; inversion N; subst; auto. intros K. apply in_combine_l in K. auto. }
      apply G. apply predecessors_NoDup. auto. }
    apply NoDup_app_intro; [| |].
    + apply NoDup_map_in; auto. intros [x y] [x' y'] _ _ E. apply name2_inj in E as [A B]. cbn in A, B. congruence.
    + constructor.
      * intros K. apply in_app_iff in K as [K|[K|[]]]; [|discriminate]. apply in_map_iff in K as (s & E & _). discriminate.
      * apply NoDup_app_intro; [apply FinFun.Injective_map_NoDup; [intros x y E; apply name1_inj in E; auto|apply uniqify_NoDup]|constructor; [intros []|constructor]|].
        intros x Hx [<-|[]]. apply in_map_iff in Hx as (s & E & Hs). apply name1_inj in E. subst s. apply (proj1 (uniqify_In _ _)) in Hs.
        destruct (f2_right _ _ _ _ Ht Hs) as (p & Hp). apply (f2_combine _ _ _ _ _ Ht) in Hp. tauto.
    + intros x Hx K. apply in_map_iff in Hx as ([p s] & <- & Hp). cbn [fst snd] in K. destruct K as [E|K].
      * apply name2_inj in E as [<- _]. apply in_combine_l in Hp. apply predecessors_In in Hp; auto. apply (D v). constructor. auto.
      * change ([] ++ ?x) with x in K. destruct (proj1 (in_app_iff _ _ _) K) as [K1|[K1|[]]]; [|discriminate]. apply in_map_iff in K1 as (s' & E & _). discriminate.
  - destruct (is_sink d v); [|destruct Hc]. apply in_map_iff in Hc as (j & <- & Hj). apply two_clean. discriminate.
Qed.
Lemma made_unsafe_all c cls : made c -> (forall cl v, In cl cls -> In v (map snd cl) -> In v (cn_names c)) ->
  exists c', add_all add_clause_unsafe cls c = Ok c' /\ made c' /\ cn_names c' = cn_names c /\ cnf_clauses c' = cnf_clauses c ++ cls.
Proof.
  intros M K. destruct (add_all_unsafe cls c (made_well c M) K) as (c' & E & W & N & L). exists c'. split; auto. split; [|auto].
  eapply add_all_made; [apply unsafe_made|exact M|exact E].
Qed.
Lemma sparse_built d b : proper_digraph d -> is_dag d = true -> bipartite_graph b -> List.length (b_left b) = List.length (d_nodes d) ->
  exists c, SparseStoneFormula d b = Ok c /\ made c /\ cnf_clauses c = sparse_all d b.
Proof.
  intros PD D B L. unfold SparseStoneFormula. rewrite D, L, Nat.eqb_refl. cbn [negb]. cbv zeta.
  set (stones := range 1 (Z.of_nat (List.length (b_right b)) + 1)).
  set (m := mkUnary (d_nodes d) stones (sparse_images d b) (sparse_counterimages d b) (fun r => r) sparse_X true false false false false).
  assert (EM : um_clauses m = sparse_complete d b). { unfold um_clauses. cbn [um_complete um_surjective um_injective um_functional um_nondecreasing m um_domain um_images um_name]. rewrite !app_nil_r. reflexivity. }
  set (c0 := add_variables (um_variables m ++ map stone_R stones) empty_cnf).
  assert (M0 : made c0) by (apply add_variables_made; constructor).
  assert (L0 : cnf_clauses c0 = []) by (unfold c0; rewrite add_variables_clauses by constructor; reflexivity).
  assert (N0 : forall v, In v (cn_names c0) <-> In v (um_variables m ++ map stone_R stones)). { intros v. unfold c0. rewrite add_variables_names, with_new_In. cbn. tauto. }
  assert (V : forall v j, In v (d_nodes d) -> In j (sparse_images d b v) -> In (sparse_X v j) (um_variables m)).
  { intros v j Hv Hj. unfold um_variables. apply in_flat_map. exists v. split; auto. apply (in_map (sparse_X v)). auto. }
  assert (VR : forall v j, In v (d_nodes d) -> In j (sparse_images d b v) -> In j stones).
  { intros v j Hv Hj. apply sparse_In in Hj; auto. destruct Hj as (i & k & u & s & _ & _ & Hk & -> & _). apply range_In. apply nth_error_Some_length in Hk. lia. }
  destruct (made_unsafe_all c0 (um_clauses m) M0) as (c1 & -> & M1 & N1 & L1).
  { intros cl x Hc Hx. apply N0. apply in_app_iff. left. rewrite EM in Hc. apply in_flat_map in Hc as (v & Hv & Hc). eapply inequality_vars in Hc; [|exact Hx].
    apply in_map_iff in Hc as (j & <- & Hj). auto. }
  cbn [bind]. destruct (made_strict c1 (stone_clauses d sparse_X (sparse_images d b)) M1) as (c2 & E2 & M2 & _ & L2).
  { intros cl Hc. eapply sparse_clean; eauto. }
  { intros cl x Hc Hx. rewrite N1. apply N0. apply in_app_iff.
    destruct (stone_vars _ _ _ _ _ PD Hc Hx) as [(v & j & Hv & Hj & ->)|(v & j & Hv & Hj & ->)]; [left; auto|right; apply (in_map stone_R); eauto]. }
  exists c2. split; auto. split; auto. rewrite L2, L1, L0, EM. reflexivity.
Qed.
Lemma sparse_models d b a : proper_digraph d -> bipartite_graph b -> List.length (b_left b) = List.length (d_nodes d) ->
  (all_hold a (sparse_all d b) <-> stones_fit d (stone_allowed d b) (fun v j => a (sparse_X v j) = true) (fun j => a (stone_R j) = true)).
Proof.
  intros PD B L. unfold sparse_all, sparse_complete. rewrite all_hold_app, all_hold_flat_map, stone_hold by auto.
  assert (R : forall v j, In v (d_nodes d) -> (In j (sparse_images d b v) <-> stone_allowed d b v j)) by (intros; apply sparse_In; auto).
  assert (C : forall v, In v (d_nodes d) -> (all_hold a (greater_or_equal_constraint (map (sparse_X v) (sparse_images d b v)) 1) <-> exists j, stone_allowed d b v j /\ a (sparse_X v j) = true)).
  { intros v Hv. rewrite greater_or_equal_ok, how_many_map, how_many_ge1. split; intros (j & Hj & E); exists j; split; auto; apply R; auto. }
  assert (PN : forall u v, arc d u v -> In u (d_nodes d)) by (intros u v A; apply (pd_ends _ PD _ _ A)).
  split.
  - intros (H1 & H2 & H3). split.
    + intros v Hv. apply C; auto.
    + intros v j Hv Hj O U. apply (H2 v j Hv); [apply R; auto|auto|]. intros u A. destruct (U u A) as (s & Hs & K). exists s. rewrite R by eauto. auto.
    + intros v j Hv S Hj O. rewrite (H3 v j Hv S); [discriminate|apply R; auto|auto].
  - intros [H1 H2 H3]. split; [|split].
    + intros v Hv. apply C; auto.
    + intros v j Hv Hj O U. apply R in Hj; auto. apply (H2 v j Hv Hj O). intros u A. destruct (U u A) as (s & Hs & K). exists s. rewrite <- R by eauto. auto.
    + intros v j Hv S Hj O. apply R in Hj; auto. specialize (H3 v j Hv S Hj O). destruct (a (stone_R j)); auto. congruence.
Qed.
Lemma sparse_satisfiable d b : proper_digraph d -> is_dag d = true -> bipartite_graph b -> List.length (b_left b) = List.length (d_nodes d) ->
  (has_model (sparse_all d b) <-> d_nodes d = []).
Proof.
  intros PD D B L. split.
  - intros (a & H). apply sparse_models in H; auto. eapply no_fit; eauto.
  - intros E. exists (fun _ => true). unfold sparse_all, sparse_complete, stone_clauses. rewrite E. intros c [].
Qed.
