(* PGenCmd0.v -- grids. *)
From Coq Require Import String Ascii ZArith List Bool Lia Arith Sorted Permutation.
From Verif Require Import Spec SpecInput SpecFile PyBase MSet MText MCnf MFam MFam2 MFile MTrans MTool MGraph MGenCmd SpecCnf SpecFam SpecFam2 SpecTrans SpecTool SpecGraph SpecGenCmd.
From Verif Require Import PLib PCnf1 PFam1 PFam2 PFam3 PFam4 PFam5 PFam6 PFam8.
Import ListNotations.
Open Scope Z_scope.

Lemma points_In dims p : In p (grid_points dims) <-> point dims p.
Proof.
  unfold grid_points, point. rewrite products_In. revert p. induction dims as [|d dims IH]; intros p; cbn [map]; (split; intros H; inversion H; subst; constructor).
  - apply range_In; auto.
  - apply IH; auto.
  - apply range_In; auto.
  - apply IH; auto.
Qed.
Lemma points_NoDup dims : NoDup (grid_points dims).
Proof.
  unfold grid_points. induction dims as [|d dims IH]; cbn [map products]; [repeat constructor; intros []|].
  generalize (range_NoDup 0 d). generalize (range 0 d). intros l N. induction N as [|x l NI N IHl]; cbn [flat_map]; [constructor|]. apply NoDup_app_intro; auto.
  - apply FinFun.Injective_map_NoDup; auto. intros a b Q. congruence.
  - intros p I J. apply in_map_iff in I as (q & <- & _). apply in_flat_map in J as (y & Iy & J). apply in_map_iff in J as (r & Q & _). injection Q as -> _. auto.
Qed.
Lemma points_count dims : (forall d, In d dims -> 0 < d) -> count (grid_points dims) = fold_right Z.mul 1 dims.
Proof.
  unfold grid_points, count. induction dims as [|d dims IH]; intros H; [reflexivity|]. cbn [map products fold_right]. rewrite <- IH by (intros x I; apply H; right; auto).
  assert (L : forall l : list Z, Z.of_nat (List.length (flat_map (fun x => map (cons x) (products (map (range 0) dims))) l)) = Z.of_nat (List.length l) * Z.of_nat (List.length (products (map (range 0) dims)))).
  { induction l as [|x l IHl]; [reflexivity|]. cbn [flat_map List.length]. rewrite app_length, map_length, !Nat2Z.inj_add, IHl. lia. }
  rewrite L, range_length. specialize (H d (or_introl eq_refl)). f_equal. lia.
Qed.
Lemma joined_next t d a b : joined_on_line t d a b = true <-> next_to t d a b.
Proof. unfold joined_on_line, next_to. destruct t; rewrite orb_true_iff, !Z.eqb_eq; intuition lia. Qed.
Lemma step_ok t : forall dims p q, one_step t dims p q = true <-> (step_apart t dims p q).
Proof.
  induction dims as [|d dims IH]; intros p q; [split; [discriminate|intros H; inversion H]|]. destruct p as [|a p]; [split; [discriminate|intros H; inversion H]|].
  destruct q as [|b q]; [split; [discriminate|intros H; inversion H]|]. cbn [one_step]. rewrite orb_true_iff, !andb_true_iff, joined_next, Z.eqb_eq, IH. split.
  - intros [(H & E)|(-> & H)]; [|apply step_later; auto]. destruct (list_eq_dec Z.eq_dec p q) as [->|]; [|discriminate]. apply step_here; auto.
  - intros H. inversion H; subst; auto. left. split; auto. destruct (list_eq_dec Z.eq_dec q q); congruence.
Qed.
Lemma step_symmetric t dims p q : step_apart t dims p q -> step_apart t dims q p.
Proof. intros H. induction H; [apply step_here|apply step_later; auto]. unfold next_to in *. destruct t; tauto. Qed.
Lemma step_irreflexive (t : bool) dims p q : point dims p -> (forall d, In d dims -> (if t then 1 else 0) < d) -> step_apart t dims p q -> p <> q.
Proof.
  intros P D H. revert P D. induction H as [d dims a b p N|d dims a p q H IH]; intros P D E; inversion P; subst.
  - injection E as ->. specialize (D d (or_introl eq_refl)). unfold next_to in N. destruct t; [|lia].
    assert (X : b = (b + 1) mod d) by (destruct N; auto). destruct (Z_lt_le_dec (b + 1) d) as [L|L]; [rewrite Z.mod_small in X by lia; lia|].
    assert (b + 1 = d) by lia. rewrite H in X. rewrite Z.mod_same in X by lia. lia.
  - injection E as E. apply IH; auto. intros x I. apply D. right. auto.
Qed.
(* the position of a point *)
Fixpoint place_in (P : list (list Z)) (p : list Z) (i : Z) : Z :=
  match P with [] => -1 | x :: t => if list_eq_dec Z.eq_dec x p then i else place_in t p (i + 1) end.
Lemma place_found P : forall p i, In p P -> i <= place_in P p i < i + count P /\ nth (Z.to_nat (place_in P p i - i)) P [] = p.
Proof.
  induction P as [|x P IH]; intros p i H; [destruct H|]. cbn [place_in]. unfold count in *. cbn [List.length]. destruct (list_eq_dec Z.eq_dec x p) as [->|N].
  - split; [lia|]. rewrite Z.sub_diag. reflexivity.
  - destruct H as [H|H]; [congruence|]. destruct (IH p (i + 1) H) as (A & B). split; [lia|].
    replace (Z.to_nat (place_in P p (i + 1) - i)) with (Datatypes.S (Z.to_nat (place_in P p (i + 1) - (i + 1)))) by lia. exact B.
Qed.
Lemma place_nth P k : NoDup P -> (k < List.length P)%nat -> place_in P (nth k P []) 0 = Z.of_nat k.
Proof.
  intros N L. destruct (place_found P (nth k P []) 0 (nth_In P [] L)) as (A & B). rewrite Z.sub_0_r in B. unfold count in A.
  assert (X : Z.to_nat (place_in P (nth k P []) 0) = k) by (apply (proj1 (NoDup_nth P []) N); auto; lia). lia.
Qed.
Lemma grid_edge t dims u v : In (u, v) (g_edges (grid_graph t dims)) <-> 0 <= u <= v /\ v < count (grid_points dims) /\
  step_apart t dims (nth (Z.to_nat u) (grid_points dims) []) (nth (Z.to_nat v) (grid_points dims) []).
Proof.
  unfold grid_graph. cbv zeta. cbn [g_edges]. rewrite filter_In. cbn [fst snd]. rewrite step_ok. rewrite (replacement_In _ u v (range_sorted 0 _)), !range_In. unfold count. intuition lia.
Qed.
Lemma grid_ok (t : bool) dims : (forall d, In d dims -> (if t then 1 else 0) < d) -> simple_graph (grid_graph t dims) /\ is_grid t dims (grid_graph t dims).
Proof.
  intros D. pose proof (points_NoDup dims) as ND. set (P := grid_points dims) in *.
  assert (PI : forall u, 0 <= u < count P -> point dims (nth (Z.to_nat u) P [])) by (intros u H; apply points_In; fold P; apply nth_In; unfold count in H; lia).
  assert (NE : forall u v, In (u, v) (g_edges (grid_graph t dims)) -> u < v).
  { intros u v I. apply grid_edge in I as (A & B & H). fold P in B, H. assert (u <> v); [|lia]. intros ->. apply (step_irreflexive t dims _ _ (PI v ltac:(lia)) D H). reflexivity. }
  split.
  - constructor.
    + unfold grid_graph. apply range_NoDup.
    + unfold grid_graph. cbv zeta. cbn [g_edges]. apply NoDup_filter. fold P. generalize (range_NoDup 0 (Z.of_nat (List.length P))). generalize (range 0 (Z.of_nat (List.length P))).
      intros l N. induction N as [|x l NI N IH]; cbn [pairs_with_replacement]; [constructor|]. apply NoDup_app_intro; auto.
      * apply FinFun.Injective_map_NoDup; [intros a b Q; congruence|]. constructor; auto.
      * intros [a b] I J. apply in_map_iff in I as (c & Q & _). injection Q as <- _. apply NI. clear - J.
        induction l as [|y l IH]; cbn [pairs_with_replacement] in J; [destruct J|]. apply in_app_iff in J as [J|J]; [|right; auto]. apply in_map_iff in J as (c & Q & _). left. congruence.
    + intros u v A B. apply NE in A, B. lia.
    + intros u v A. apply grid_edge in A as (A & B & _). unfold grid_graph. cbv zeta. cbn [g_nodes]. rewrite !range_In. fold P. unfold count in B. fold P in B. lia.
  - split.
    { transitivity (count P); [|apply points_count; intros d I; specialize (D d I); destruct t; lia]. unfold grid_graph. cbv zeta. cbn [g_nodes]. fold P. unfold count. rewrite range_length. lia. }
    exists (fun p => place_in P p 0).
    assert (F : forall p, point dims p -> 0 <= place_in P p 0 < count P /\ nth (Z.to_nat (place_in P p 0)) P [] = p).
    { intros p H. destruct (place_found P p 0) as (A & B); [apply points_In; auto|]. rewrite Z.sub_0_r in B. auto. }
    split; [|split].
    + intros v. unfold grid_graph. cbv zeta. cbn [g_nodes]. rewrite range_In. fold P. split.
      * intros H. exists (nth (Z.to_nat v) P []). split; [apply PI; unfold count; lia|]. rewrite place_nth by (auto; lia). lia.
      * intros (p & H & <-). destruct (F p H) as (A & _). unfold count in A. lia.
    + intros p q Hp Hq E. destruct (F p Hp) as (_ & A). destruct (F q Hq) as (_ & B). rewrite <- A, <- B, E. reflexivity.
    + intros p q Hp Hq. destruct (F p Hp) as (A1 & A2). destruct (F q Hq) as (B1 & B2). unfold adjacent. rewrite !grid_edge. fold P. rewrite A2, B2. split.
      * intros [(_ & _ & H)|(_ & _ & H)]; [exact H|apply step_symmetric; exact H].
      * intros H. destruct (Z_le_gt_dec (place_in P p 0) (place_in P q 0)); [left|right]; (split; [lia|split; [lia|]]); auto. apply step_symmetric. exact H.
Qed.
