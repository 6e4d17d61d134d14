(* PFam11.v -- Tseitin formulas *)
From Coq Require Import String Ascii ZArith List Bool Lia Arith Permutation.
From Verif Require Import Spec PyBase MSet MText MCnf MFam SpecCnf SpecFam PText PLib PCnf1 PCnf2 PFam1 PFam2 PFam3 PFam4 PFam5 PFam6 PFam7 PFam9.
Import ListNotations.
Open Scope Z_scope.

Definition tname (e : Z * Z) : text := name2 (txt "E_{") (fst e) (snd e).
Lemma tname_inj e e' : tname e = tname e' -> e = e'.
Proof. intros E. apply name2_inj in E as [E1 E2]. destruct e, e'. cbn in *. congruence. Qed.
Lemma tse_name_edge g u v : simple_graph g -> In (u, v) (g_edges g) -> tse_name g u v = tname (u, v) /\ tse_name g v u = tname (u, v).
Proof.
  intros G H.
  assert (K : forall x y, (x = u /\ y = v) \/ (x = v /\ y = u) -> tse_name g x y = tname (u, v)).
  { intros x y XY. unfold tse_name. destruct (find (is_edge x y) (g_edges g)) as [[p q]|] eqn:F.
    - apply find_some in F as [F1 F2]. unfold is_edge in F2. cbn [fst snd] in *. apply orb_true_iff in F2.
      assert ((p = u /\ q = v) \/ (p = v /\ q = u)) as [[-> ->]|[-> ->]]; auto.
      + destruct F2 as [F2|F2]; apply andb_true_iff in F2 as [F2 F3]; apply Z.eqb_eq in F2, F3; intuition congruence.
      + exfalso. apply (sg_once g G u v H). auto.
    - exfalso. apply find_none with (x := (u, v)) in F; auto. unfold is_edge in F. cbn [fst snd] in F. apply orb_false_iff in F as [F1 F2].
      destruct XY as [[-> ->]|[-> ->]]; rewrite !Z.eqb_refl in *; discriminate. }
  auto.
Qed.
Definition tse_charges (g : graph) (charges : option (list Z)) : list Z :=
  let ch := match charges with None => 1 :: repeat 0 (List.length (g_nodes g) - 1) | Some l => map charge_bit l end in
  ch ++ repeat 0 (List.length (g_nodes g) - List.length ch).
Definition tse_clauses (g : graph) (charges : option (list Z)) : list (list (bool * text)) :=
  flat_map (fun vc => parity_constraint (map (fun u => tse_name g u (fst vc)) (neighbors g (fst vc))) (snd vc)) (combine (g_nodes g) (tse_charges g charges)).
Lemma tse_known g u v : simple_graph g -> adjacent g u v ->
  exists e, In e (g_edges g) /\ tse_name g u v = tname e /\ (e = (u, v) \/ e = (v, u)).
Proof.
  intros G [H|H].
  - exists (u, v). split; auto. split; auto. apply tse_name_edge; auto.
  - exists (v, u). split; auto. split; auto. apply tse_name_edge; auto.
Qed.
Lemma tse_names_NoDup g v : simple_graph g -> NoDup (map (fun u => tse_name g u v) (neighbors g v)).
Proof.
  intros G. apply NoDup_map_in; [apply neighbors_NoDup; auto|]. intros x y Hx Hy E. apply neighbors_In in Hx, Hy; auto. apply adjacent_sym in Hx, Hy.
  destruct (tse_known g x v G Hx) as (e & _ & Ex & Qx). destruct (tse_known g y v G Hy) as (e' & _ & Ey & Qy). rewrite Ex, Ey in E. apply tname_inj in E. subst e'.
  pose proof (adjacent_neq g x v G Hx). destruct Qx, Qy; congruence.
Qed.
Lemma parity_clause (l : list text) k cl : NoDup l -> In cl (parity_constraint l k) -> clean cl /\ forall t, In t (map snd cl) -> In t l.
Proof.
  intros N H. assert (K : map snd cl = l).
  { unfold parity_constraint in H. apply filter_In in H as [H _]. clear -H. revert cl H. induction l as [|v l IH]; intros cl H.
    - cbn in H. destruct H as [<-|[]]. auto.
    - cbn [map products flat_map] in H. repeat (apply in_app_iff in H as [H|H]); try destruct H;
        apply in_map_iff in H as (c & <- & Hc); cbn [map snd]; f_equal; auto. }
  split; [apply clean_vars; rewrite K; auto|]. rewrite K. auto.
Qed.

Lemma tse_built g charges : simple_graph g -> exists c, TseitinFormula g charges = Ok c /\ made c /\ cnf_clauses c = tse_clauses g charges.
Proof.
  intros G. destruct (build_strict (map tname (sort_by (fun a b => edge_ltb (sorted_pair a) (sorted_pair b)) (g_edges g))) (tse_clauses g charges)) as (c & A & B & C & _); [| |eauto].
  - intros cl H. apply in_flat_map in H as ([v k] & _ & H). eapply parity_clause; [|exact H]. apply tse_names_NoDup; auto.
  - intros cl t H Ht. apply in_flat_map in H as ([v k] & _ & H). cbn [fst snd] in H. apply (proj2 (parity_clause _ _ _ (tse_names_NoDup g v G) H)) in Ht.
    apply in_map_iff in Ht as (u & <- & Hu). apply neighbors_In in Hu; auto. apply adjacent_sym in Hu. destruct (tse_known g u v G Hu) as (e & He & -> & _).
    apply in_map. apply sorted_In. auto.
Qed.
Lemma tse_models g charges a : simple_graph g ->
  (all_hold a (tse_clauses g charges) <->
   forall v k, In (v, k) (combine (g_nodes g) (tse_charges g charges)) -> how_many (fun u => a (tse_name g u v)) (neighbors g v) mod 2 = k).
Proof.
  intros G. unfold tse_clauses. rewrite all_hold_flat_map. split.
  - intros H v k K. specialize (H _ K). cbn [fst snd] in H. apply parity_ok in H. rewrite how_many_map in H. auto.
  - intros H [v k] K. cbn [fst snd]. apply parity_ok. rewrite how_many_map. apply H. auto.
Qed.
(* the parity at a vertex, as a sum over all edges *)
Definition bit (b : bool) : Z := if b then 1 else 0.
Definition parity_at (g : graph) (a : text -> bool) (v : Z) : Z := total (fun e => bit (a (tname e)) * ends v e) (g_edges g).
Lemma parity_at_ok g a v : simple_graph g -> how_many (fun u => a (tse_name g u v)) (neighbors g v) = parity_at g a v.
Proof.
  intros G. rewrite how_many_total. rewrite (around g (fun v u => if a (tse_name g u v) then 1 else 0) v G). apply total_ext. intros [x y] H. cbn [fst snd].
  destruct (tse_name_edge g x y G H) as [-> ->]. unfold ends, one, bit. cbn [fst snd]. destruct (a (tname (x, y))), (x =? v), (y =? v); lia.
Qed.
Lemma flip_edge g a u v : simple_graph g -> adjacent g u v ->
  exists a', forall x, parity_at g a' x mod 2 = (parity_at g a x + one x u + one x v) mod 2.
Proof.
  intros G A. destruct (tse_known g u v G A) as (e & He & _ & Ee). exists (fun t => xorb (a t) (text_eqb t (tname e))). intros x.
  assert (EN : ends x e = one x u + one x v) by (unfold ends; destruct Ee as [-> | ->]; cbn; lia).
  unfold parity_at. pose proof (sg_edges g G) as N. apply in_split in He as (E1 & E2 & E). rewrite E in *. clear E.
  assert (O : forall l, ~ In e l -> total (fun e' => bit (xorb (a (tname e')) (text_eqb (tname e') (tname e))) * ends x e') l = total (fun e' => bit (a (tname e')) * ends x e') l).
  { intros l Hl. apply total_ext. intros e' He'. destruct (text_eqb_spec (tname e') (tname e)) as [K|K]; [apply tname_inj in K; subst; contradiction|]. rewrite xorb_false_r. auto. }
  apply NoDup_remove_2 in N. rewrite in_app_iff in N. rewrite !total_app, !total_cons, !O by tauto. rewrite text_eqb_refl, <- Z.add_assoc, <- EN.
  destruct (a (tname e)); cbn [xorb bit]; parity.
Qed.
Lemma flip_path g v w : simple_graph g -> linked g v w -> forall a,
  exists a', forall x, parity_at g a' x mod 2 = (parity_at g a x + one x v + one x w) mod 2.
Proof.
  intros G. induction 1 as [v|u v w A L IH]; intros a.
  - exists a. intros x. parity.
  - destruct (flip_edge g a u v G A) as (a1 & H1). destruct (IH a1) as (a2 & H2). exists a2. intros x. specialize (H1 x). specialize (H2 x). parity.
Qed.
Lemma linked_closed g l v w : (forall u w, In u l -> adjacent g u w -> In w l) -> linked g v w -> In v l -> In w l.
Proof. intros C. induction 1; eauto. Qed.
Lemma linked_sym g v w : linked g v w -> linked g w v.
Proof.
  assert (T : forall a b, linked g a b -> forall c, adjacent g b c -> linked g a c) by (induction 1; intros; econstructor; eauto; constructor).
  induction 1; [constructor|]. eapply T; eauto. apply adjacent_sym. auto.
Qed.
Lemma tse_exists g n : simple_graph g -> forall c : Z -> bool, (Z.to_nat (total (fun x => bit (c x)) (g_nodes g)) <= n)%nat ->
  (forall l, NoDup l -> incl l (g_nodes g) -> (forall u w, In u l -> adjacent g u w -> In w l) -> total (fun x => bit (c x)) l mod 2 = 0) ->
  exists a, forall x, In x (g_nodes g) -> parity_at g a x mod 2 = bit (c x).
Proof.
  intros G. assert (NN : forall (c : Z -> bool) l, 0 <= total (fun x => bit (c x)) l).
  { intros c l. induction l as [|x l IH]; [cbn; lia|]. rewrite total_cons. unfold bit at 1. destruct (c x); lia. }
  induction n as [n IH] using lt_wf_ind. intros c L H.
  destruct (existsb c (g_nodes g)) eqn:E.
  - apply existsb_exists in E as (v & Hv & Cv).
    destruct (grow_component g (fun x => x <> v /\ c x = true /\ In x (g_nodes g)) v G Hv) as (w & Lw & NE & Cw & Hw).
    { intros l N I Il C. specialize (H l N I C). apply in_split in Il as (l1 & l2 & ->). rewrite total_app, total_cons, Cv in H. rewrite Z.add_comm, <- Z.add_assoc, <- total_app in H. cbn [bit] in H.
      destruct (existsb c (l2 ++ l1)) eqn:X.
      - apply existsb_exists in X as (x & Hx & Cx). apply in_app_iff in Hx. assert (In x (l1 ++ v :: l2)) by (apply in_app_iff; cbn; tauto). exists x. split; auto. split; auto.
        intros ->. apply NoDup_remove_2 in N. apply N, in_app_iff. tauto.
      - exfalso. rewrite (total_zero _ (l2 ++ l1)) in H; [discriminate|]. intros x Hx. destruct (c x) eqn:Cx; auto.
        assert (existsb c (l2 ++ l1) = true) by (apply existsb_exists; eauto). congruence. }
    set (c' := fun x => if x =? v then false else if x =? w then false else c x).
    assert (T : forall l, NoDup l -> total (fun x => bit (c x)) l = total (fun x => bit (c' x)) l + (if zmem v l then 1 else 0) + (if zmem w l then 1 else 0)).
    { intros l N. rewrite <- !total_at by auto. rewrite <- !total_add. apply total_ext. intros x _. unfold c'. rewrite (Z.eqb_sym v x), (Z.eqb_sym w x).
      destruct (Z.eqb_spec x v) as [->|]; [destruct (Z.eqb_spec v w); [congruence|]; rewrite Cv; cbn; lia|].
      destruct (Z.eqb_spec x w) as [->|]; [rewrite Cw; cbn; lia|]. lia. }
    assert (LT : (Z.to_nat (total (fun x => bit (c' x)) (g_nodes g)) < n)%nat).
    { specialize (T (g_nodes g) (sg_nodes g G)). rewrite (proj2 (zmem_In v (g_nodes g)) Hv), (proj2 (zmem_In w (g_nodes g)) Hw) in T. pose proof (NN c' (g_nodes g)). lia. }
    destruct (IH _ LT c' (le_n _)) as (a & Ha).
    + intros l N I C. specialize (H l N I C). rewrite (T l N) in H.
      assert (zmem w l = zmem v l).
      { destruct (zmem v l) eqn:Z1.
        - apply zmem_In. apply zmem_In in Z1. eapply linked_closed; eauto.
        - apply zmem_false. apply zmem_false in Z1. intros K. apply Z1. eapply linked_closed; [eauto|apply linked_sym; eauto|auto]. }
      rewrite H0 in H. destruct (zmem v l); parity.
    + destruct (flip_path g v w G Lw a) as (a' & Ha'). exists a'. intros x Hx. rewrite Ha'. specialize (Ha x Hx). unfold c' in Ha. unfold one. rewrite (Z.eqb_sym v x), (Z.eqb_sym w x).
      destruct (Z.eqb_spec x v) as [E0|E0]; [destruct (Z.eqb_spec x w); [congruence|]; rewrite E0 at 2; rewrite Cv; cbn [bit] in *; parity|].
      destruct (Z.eqb_spec x w) as [E1|E1]; [rewrite E1 at 2; rewrite Cw; cbn [bit] in *; parity|]. rewrite <- Ha. parity.
  - exists (fun _ => false). intros x Hx. unfold parity_at. rewrite total_zero by auto. destruct (c x) eqn:Cx; auto.
    assert (existsb c (g_nodes g) = true) by (apply existsb_exists; eauto). congruence.
Qed.
Lemma tse_necessary g a l : simple_graph g -> NoDup l -> (forall u w, In u l -> adjacent g u w -> In w l) -> total (parity_at g a) l mod 2 = 0.
Proof.
  intros G N C. unfold parity_at. rewrite total_swap. apply total_even. intros [x y] He.
  rewrite total_scale. unfold ends, one. cbn [fst snd]. rewrite total_add, !total_at by auto.
  assert (zmem y l = zmem x l).
  { destruct (zmem x l) eqn:Z1.
    - apply zmem_In in Z1. apply zmem_In. apply (C x); auto. left; auto.
    - apply zmem_false in Z1. apply zmem_false. intros K. apply Z1. apply (C y); auto. right; auto. }
  rewrite H. unfold bit. destruct (a (tname (x, y))), (zmem x l); reflexivity.
Qed.
Lemma repeat_nth n i (d : Z) : nth i (repeat d n) d = d.
Proof. revert i. induction n as [|n IH]; intros [|i]; cbn; auto. Qed.
Lemma tse_charges_ok g charges v k : In (v, k) (combine (g_nodes g) (tse_charges g charges)) <->
  exists i, nth_error (g_nodes g) i = Some v /\ k = bit (charge_at charges i).
Proof.
  assert (NT : forall i, nth i (tse_charges g charges) 0 = bit (charge_at charges i)).
  { intros i. unfold tse_charges, charge_at. destruct charges as [l|].
    - destruct (Nat.lt_ge_cases i (List.length (map charge_bit l))) as [K|K].
      + rewrite app_nth1 by auto. change 0 with (charge_bit 0) at 1. rewrite map_nth. unfold charge_bit, bit. destruct (nth i l 0 =? 0); auto.
      + rewrite app_nth2, repeat_nth by auto. rewrite map_length in K. rewrite nth_overflow by auto. auto.
    - destruct i as [|i]; [reflexivity|]. cbn [app nth Nat.eqb bit]. destruct (Nat.lt_ge_cases i (List.length (repeat 0 (List.length (g_nodes g) - 1)))) as [K|K].
      + rewrite app_nth1 by auto. apply repeat_nth.
      + rewrite app_nth2 by auto. apply repeat_nth. }
  assert (LN : (List.length (g_nodes g) <= List.length (tse_charges g charges))%nat) by (unfold tse_charges; rewrite app_length, repeat_length; lia).
  split.
  - intros H. apply In_nth_error in H as (i & H). apply nth_error_combine in H. cbn [fst snd] in H. destruct H as [H1 H2]. exists i. split; auto.
    rewrite <- NT. symmetry. apply nth_error_nth. auto.
  - intros (i & H1 & ->). apply nth_error_In with (n := i). apply nth_error_combine. cbn [fst snd]. split; auto. rewrite <- NT. apply nth_error_nth'.
    assert (i < List.length (g_nodes g))%nat by (apply nth_error_Some; congruence). lia.
Qed.
Lemma tse_satisfiable g charges : simple_graph g ->
  (has_model (tse_clauses g charges) <->
   forall l odd, NoDup l -> incl l (g_nodes g) -> (forall u w, In u l -> adjacent g u w -> In w l) ->
     NoDup odd -> (forall v, In v odd <-> In v l /\ odd_vertex g charges v) -> Z.of_nat (List.length odd) mod 2 = 0).
Proof.
  intros G. pose proof (sg_nodes g G) as N.
  set (c := fun v => existsb (fun i => match nth_error (g_nodes g) i with Some x => (x =? v) && charge_at charges i | None => false end) (seq 0 (List.length (g_nodes g)))).
  assert (CO : forall v, c v = true <-> odd_vertex g charges v).
  { intros v. unfold c. rewrite existsb_exists. split.
    - intros (i & _ & H). destruct (nth_error (g_nodes g) i) as [x|] eqn:E; [|discriminate]. apply andb_true_iff in H as [H1 H2]. apply Z.eqb_eq in H1. subst. exists i. auto.
    - intros (i & H1 & H2). exists i. rewrite H1, Z.eqb_refl, H2. split; auto. apply in_seq. split; [lia|]. cbn. apply nth_error_Some. congruence. }
  assert (CK : forall v k, In (v, k) (combine (g_nodes g) (tse_charges g charges)) <-> In v (g_nodes g) /\ k = bit (c v)).
  { intros v k. rewrite tse_charges_ok. split.
    - intros (i & H & ->). split; [eapply nth_error_In; eauto|]. destruct (charge_at charges i) eqn:K.
      + rewrite (proj2 (CO v)); auto. exists i. auto.
      + destruct (c v) eqn:X; auto. apply CO in X as (j & H' & K'). exfalso.
        assert (i = j) by (apply (proj1 (NoDup_nth_error (g_nodes g)) N); [apply nth_error_Some; congruence|congruence]). congruence.
    - intros (H & ->). apply In_nth_error in H as (i & H). exists i. split; auto. destruct (c v) eqn:X.
      + apply CO in X as (j & H' & K'). assert (i = j) by (apply (proj1 (NoDup_nth_error (g_nodes g)) N); [apply nth_error_Some; congruence|congruence]). subst. rewrite K'. auto.
      + destruct (charge_at charges i) eqn:K; auto. assert (c v = true) by (apply CO; exists i; auto). congruence. }
  assert (LEN : forall l odd, NoDup l -> NoDup odd -> (forall v, In v odd <-> In v l /\ odd_vertex g charges v) -> Z.of_nat (List.length odd) = total (fun x => bit (c x)) l).
  { intros l odd Nl No H. transitivity (Z.of_nat (List.length (filter c l))).
    - f_equal. apply Permutation_length. apply NoDup_Permutation; auto; [apply NoDup_filter; auto|]. intros x. rewrite H, filter_In, CO. tauto.
    - rewrite length_total, total_filter. auto. }
  split.
  - intros (a & H) l odd Nl I C No O. rewrite (LEN l odd Nl No O). rewrite <- (tse_necessary g a l G Nl C).
    assert (forall x, In x l -> parity_at g a x mod 2 = bit (c x)).
    { intros x Hx. rewrite <- parity_at_ok by auto. apply (proj1 (tse_models g charges a G) H). apply CK. split; auto. }
    clear -H0. induction l as [|x l IH]; auto. rewrite !total_cons. specialize (H0 x (or_introl eq_refl)) as K. assert (total (fun x => bit (c x)) l mod 2 = total (parity_at g a) l mod 2) by (apply IH; intros; apply H0; right; auto).
    unfold bit in *. destruct (c x); parity.
  - intros H. destruct (tse_exists g _ G c (le_n _)) as (a & Ha).
    + intros l Nl I C. rewrite <- (LEN l (filter c l) Nl (NoDup_filter _ Nl)); [|intros v; rewrite filter_In, CO; tauto]. apply (H l (filter c l)); auto; [apply NoDup_filter; auto|intros v; rewrite filter_In, CO; tauto].
    + exists a. apply tse_models; auto. intros v k K. apply CK in K as [Hv ->]. rewrite parity_at_ok by auto. auto.
Qed.
