(* PGenCmd4.v -- the formulas that the command line of the bundled generator builds. *)
From Coq Require Import String Ascii ZArith List Bool Lia Arith Sorted Permutation.
From Verif Require Import Spec SpecInput SpecFile SpecSat PyBase MSet MText MCnf MFam MFam2 MFile MTrans MTool MGraph MGenCmd SpecCnf SpecFam SpecFam2 SpecTrans SpecTool SpecGraph SpecGenCmd.
From Verif Require Import PLib PCnf1 PCnf2 PFam1 PFam2 PFam4 PP16 PP17 PP18 PP19 PP20 PP21 PP22 PGenCmd1 PGenCmd2 PGenCmd3.
Import ListNotations.
Open Scope Z_scope.

(* ---- charges ---- *)
Lemma charges_function (V : list Z) : forall bs : list bool, NoDup V -> List.length bs = List.length V -> exists odd : Z -> bool, map odd V = bs.
Proof.
  induction V as [|x V IH]; intros [|b bs] N L; try discriminate.
  - exists (fun _ => false). reflexivity.
  - inversion N as [|y l NI N']; subst. destruct (IH bs N' ltac:(cbn in L; lia)) as (odd & E). exists (fun v => if v =? x then b else odd v). cbn [map]. rewrite Z.eqb_refl. f_equal.
    rewrite <- E. apply map_ext_in. intros v I. destruct (Z.eqb_spec v x); auto. subst. contradiction.
Qed.
Lemma count_map {A} (f : A -> bool) l : count (filter f l) = count (filter (fun b => b) (map f l)).
Proof. unfold count. f_equal. induction l as [|x l IH]; [reflexivity|]. cbn [filter map]. destruct (f x); cbn [List.length]; auto. Qed.
Definition bit (z : Z) : bool := negb (z =? 0).
Lemma odd_charges g l odd : map odd (g_nodes g) = map bit l -> forall v, odd_vertex g (Some l) v <-> In v (g_nodes g) /\ odd v = true.
Proof.
  intros E v. unfold odd_vertex. cbn [charge_at].
  assert (X : forall i w, nth_error (g_nodes g) i = Some w -> negb (nth i l 0 =? 0) = odd w).
  { intros i w H. pose proof (map_nth_error odd _ _ H) as H'. rewrite E in H'. destruct (nth_error l i) as [z|] eqn:Z.
    - rewrite (map_nth_error bit _ _ Z) in H'. rewrite (nth_error_nth l i 0 Z). unfold bit in H'. congruence.
    - exfalso. apply nth_error_None in Z. assert (nth_error (map bit l) i = None) by (apply nth_error_None; rewrite map_length; auto). congruence. }
  split.
  - intros (i & H & C). split; [eapply nth_error_In; eauto|]. rewrite <- C. symmetry. auto.
  - intros (I & O). apply In_nth_error in I as (i & H). exists i. split; auto. rewrite (X i v H). auto.
Qed.
Definition even_components (g : graph) (odd : Z -> bool) : Prop :=
  forall l, NoDup l -> incl l (g_nodes g) -> (forall u w, In u l -> adjacent g u w -> In w l) -> count (filter odd l) mod 2 = 0.
Lemma tseitin_components g ch odd : (forall v, odd_vertex g ch v <-> In v (g_nodes g) /\ odd v = true) ->
  ((forall l odd, NoDup l -> incl l (g_nodes g) -> (forall u w, In u l -> adjacent g u w -> In w l) ->
       NoDup odd -> (forall v, In v odd <-> In v l /\ odd_vertex g ch v) -> Z.of_nat (List.length odd) mod 2 = 0) <-> even_components g odd).
Proof.
  intros O. split; intros H l.
  - intros N I C. apply (H l (filter odd l)); auto; [apply NoDup_filter; auto|]. intros v. rewrite filter_In, O. split; [|tauto]. intros (A & B). auto.
  - intros od N I C NO E. rewrite <- (H l N I C). f_equal. unfold count. f_equal. apply Permutation_length, NoDup_Permutation; auto; [apply NoDup_filter; auto|].
    intros v. rewrite E, filter_In, O. split; [tauto|]. intros (A & B). auto.
Qed.
Lemma bits_sum (f : nat -> Z) : (forall i, f i = 0 \/ f i = 1) -> forall l, fold_right Z.add 0 (map f l) = count (filter (fun b => b) (map bit (map f l))).
Proof.
  intros B l. induction l as [|i l IH]; [reflexivity|].
  transitivity (f i + count (filter (fun b => b) (map bit (map f l)))); [rewrite <- IH; reflexivity|]. cbn [map filter]. destruct (B i) as [X|X]; rewrite X.
  - reflexivity.
  - change (1 + count (filter (fun b => b) (map bit (map f l))) = count (true :: filter (fun b => b) (map bit (map f l)))). unfold count. cbn [List.length]. lia.
Qed.
Lemma count_app {A} (l m : list A) : count (l ++ m) = count l + count m.
Proof. unfold count. rewrite app_length. lia. Qed.
Lemma charges_obtained E c g : fair E -> simple_graph g ->
  exists odd, charges_drawn c g odd /\ forall v, odd_vertex g (charges_of E c g) v <-> In v (g_nodes g) /\ odd v = true.
Proof.
  intros F G. unfold charges_of, order. destruct (Z.ltb_spec (Z.of_nat (List.length (g_nodes g))) 1) as [L|L].
  { assert (V : g_nodes g = []) by (destruct (g_nodes g); auto; cbn in L; lia). exists (fun _ => false). split.
    - unfold charges_drawn. rewrite V. destruct c; cbn; auto; try congruence. intros v [].
    - intros v. rewrite V. unfold odd_vertex. rewrite V. split; [intros (i & H & _); destruct i; discriminate|intros ([] & _)]. }
  set (n := Z.to_nat (Z.of_nat (List.length (g_nodes g)) - 1)). assert (Ln : List.length (g_nodes g) = Datatypes.S n) by lia.
  set (rnd := map (ch_bit E) (seq 0 n)). set (par := fold_right Z.add 0 rnd mod 2).
  assert (Lr : List.length rnd = n) by (unfold rnd; rewrite map_length, seq_length; reflexivity).
  assert (SR : fold_right Z.add 0 rnd = count (filter (fun b => b) (map bit rnd))) by (apply bits_sum, (fc_bit _ F)).
  assert (Bp : par = 0 \/ par = 1) by (pose proof (Z.mod_pos_bound (fold_right Z.add 0 rnd) 2); unfold par; lia).
  assert (K : forall l, List.length l = Datatypes.S n -> exists odd, map odd (g_nodes g) = map bit l /\ count (filter odd (g_nodes g)) = count (filter (fun b => b) (map bit l)) /\
    forall v, odd_vertex g (Some l) v <-> In v (g_nodes g) /\ odd v = true).
  { intros l Ll. destruct (charges_function (g_nodes g) (map bit l)) as (odd & Eo); [apply G|rewrite map_length; congruence|]. exists odd. split; auto. split; [rewrite count_map, Eo; auto|]. apply odd_charges. auto. }
  assert (T : forall z, z = 0 \/ z = 1 -> count (filter (fun b => b) (map bit (rnd ++ [z]))) = fold_right Z.add 0 rnd + z).
  { intros z Bz. rewrite map_app, filter_app, count_app, <- SR. f_equal. destruct Bz as [-> | ->]; reflexivity. }
  destruct c.
  - destruct (K (1 :: repeat 0 n)) as (odd & Eo & _ & V); [cbn; rewrite repeat_length; auto|]. exists odd. split; auto. cbn [charges_drawn].
    pose proof (sg_nodes g G) as ND. destruct (g_nodes g) as [|x t] eqn:Vt; [cbn in Ln; lia|]. cbn [map] in Eo. change (bit 1) with true in Eo. injection Eo as E1 E2.
    inversion ND as [|y l NI ND']; subst. intros v I. cbn [hd_error]. split.
    + intros O. destruct I as [->|I]; auto. exfalso. assert (Ho : In (odd v) (map odd t)) by (apply in_map; auto). rewrite E2, O in Ho. apply in_map_iff in Ho as (z & Bz & Iz). apply repeat_spec in Iz. subst z. discriminate.
    + intros H. congruence.
  - destruct (K (rnd ++ [ch_bit E n])) as (odd & _ & _ & V); [rewrite app_length; cbn [List.length]; lia|]. exists odd. split; [exact I|auto].
  - destruct (K (rnd ++ [1 - par])) as (odd & _ & Ct & V); [rewrite app_length; cbn [List.length]; lia|]. exists odd. split; auto. cbn [charges_drawn]. intros _. rewrite Ct, T by lia.
    rewrite Z.add_mod by lia. fold par. destruct Bp as [X|X]; rewrite X; reflexivity.
  - destruct (K (rnd ++ [par])) as (odd & _ & Ct & V); [rewrite app_length; cbn [List.length]; lia|]. exists odd. split; auto. cbn [charges_drawn]. rewrite Ct, T by lia.
    rewrite Z.add_mod by lia. fold par. destruct Bp as [X|X]; rewrite X; reflexivity.
Qed.
