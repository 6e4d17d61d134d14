(* PTool2.v -- the order of the variables that substitutions create *)
From Coq Require Import String Ascii ZArith List Bool Lia Arith Permutation Sorted.
From Verif Require Import Spec PyBase MSet MText MCnf MFam MFam2 MTrans MFile MTool SpecCnf SpecFam SpecTrans SpecTool PText PLib PCnf1 PCnf2 PFam1 PFam2 PFam3 PFam4 PFam5 PFam6 PFam7 PFam8 PFam12 PFam13 PP16 PTrans1 PTrans2 PTrans3 PTrans4 PTrans5 PTrans6 PFile1 PFile2.
Import ListNotations.
Open Scope Z_scope.

Lemma with_new_apart vs : forall k j, (forall v, In v vs -> ~ In v k) -> with_new (k ++ j) vs = k ++ with_new j vs.
Proof.
  induction vs as [|v vs IH]; intros k j H; cbn [with_new]; [reflexivity|].
  destruct (in_dec (list_eq_dec ascii_dec) v (k ++ j)) as [I|I], (in_dec (list_eq_dec ascii_dec) v j) as [J|J].
  - apply IH. intros; apply H; right; auto.
  - exfalso. apply in_app_iff in I as [I|I]; auto. apply (H v); auto. left. auto.
  - exfalso. apply I. apply in_app_iff. auto.
  - rewrite <- app_assoc. apply IH. intros; apply H; right; auto.
Qed.
Lemma with_new_fresh k vs : (forall v, In v vs -> ~ In v k) -> with_new k vs = k ++ with_new [] vs.
Proof. intros H. rewrite <- (app_nil_r k) at 1. apply with_new_apart. auto. Qed.
Lemma first_block (B rest : list text) : NoDup B -> incl rest B -> with_new [] (B ++ rest) = B.
Proof. intros N I. rewrite with_new_app, (with_new_distinct [] B) by (auto; intros ? _ []). cbn [app]. apply with_new_known. auto. Qed.
Lemma then_known (A rest B : list text) : with_new [] A = B -> incl rest B -> with_new [] (A ++ rest) = B.
Proof. intros E I. rewrite with_new_app, E. apply with_new_known. auto. Qed.
(* x in front of every list *)
Lemma cons_known (x : text) cs : forall k, In x k -> with_new k (concat (map (cons x) cs)) = with_new k (concat cs).
Proof.
  induction cs as [|c cs IH]; intros k H; [reflexivity|]. cbn [map concat]. cbn [app with_new]. destruct (in_dec (list_eq_dec ascii_dec) x k) as [_|N]; [|contradiction].
  rewrite !with_new_app. apply IH. apply with_new_In. auto.
Qed.
Lemma cons_first (x : text) cs : cs <> [] -> ~ In x (concat cs) -> with_new [] (concat (map (cons x) cs)) = x :: with_new [] (concat cs).
Proof.
  intros N H. destruct cs as [|c cs]; [congruence|]. transitivity (with_new [x] (concat (c :: cs))).
  - cbn [map concat]. cbn [app with_new]. rewrite !with_new_app. cbn [in_dec]. apply cons_known. apply with_new_In. left. left. auto.
  - rewrite with_new_fresh; [reflexivity|]. intros v Hv [E|[]]. subst v. auto.
Qed.
Lemma combinations_order (l : list text) : NoDup l -> forall k, (1 <= k <= List.length l)%nat -> with_new [] (concat (combinations l k)) = l.
Proof.
  induction 1 as [|x l X N IH]; intros k K; cbn [List.length] in K; [lia|]. destruct k as [|k]; [lia|]. cbn [combinations]. rewrite concat_app.
  assert (I : forall k, incl (concat (combinations l k)) l).
  { intros j y Hy. apply in_concat in Hy as (s & Hs & Hy). eapply combinations_incl; eauto. }
  assert (C : combinations l k <> []).
  { intros E. pose proof (proj2 (combinations_filter l k (fun _ => true))) as W. rewrite E in W. destruct W as (s & [] & _).
    assert (FT : filter (fun _ : text => true) l = l) by (clear; induction l; cbn; congruence). rewrite FT. lia. }
  assert (X' : forall j, ~ In x (concat (combinations l j))) by (intros j H; apply X; eapply I; eauto).
  rewrite with_new_app, cons_first by auto. destruct k as [|k].
  - cbn [combinations concat app]. cbn [with_new]. destruct l as [|y l]; [reflexivity|]. rewrite with_new_fresh; [|intros v Hv [E|[]]; subst v; eapply X'; eauto].
    cbn [app]. f_equal. apply IH. cbn. lia.
  - rewrite (IH (S k)) by lia. apply with_new_known. intros v Hv. right. eapply I; eauto.
Qed.
(* all blocks one after the other *)
Lemma blocks_order (f B : text -> list text) vs : NoDup vs -> (forall v, In v vs -> with_new [] (f v) = B v) ->
  (forall v w x, In v vs -> In w vs -> In x (B v) -> In x (B w) -> v = w) -> with_new [] (flat_map f vs) = flat_map B vs.
Proof.
  intros N H D. enough (K : forall k, (forall v x, In v vs -> In x (B v) -> ~ In x k) -> with_new k (flat_map f vs) = k ++ flat_map B vs) by (apply (K []); intros ? ? _ _ []).
  revert H D. induction N as [|v vs V N IH]; intros H D k A; cbn [flat_map]; [cbn [with_new]; rewrite app_nil_r; auto|].
  assert (E : with_new k (f v) = k ++ B v).
  { rewrite with_new_fresh; [f_equal; apply H; left; auto|]. intros x Hx. apply (A v); [left; auto|]. rewrite <- H by (left; auto). apply with_new_In. auto. }
  rewrite with_new_app, E, IH; [apply eq_sym, app_assoc| | |].
  - intros; apply H; right; auto.
  - intros; eapply D; eauto; right; auto.
  - intros w x Hw Hx K. apply in_app_iff in K as [K|K]; [apply (A w x); auto; right; auto|]. apply V. rewrite (D v w x); auto; [left|right]; auto.
Qed.
Definition names_of (cls : list (list (plit text))) : list text := map snd (concat cls).
Lemma names_of_app a b : names_of (a ++ b) = names_of a ++ names_of b.
Proof. unfold names_of. rewrite concat_app, map_app. reflexivity. Qed.
Lemma names_of_In cls w : In w (names_of cls) <-> exists cl, In cl cls /\ In w (map snd cl).
Proof.
  unfold names_of. rewrite in_map_iff. split.
  - intros (l & <- & Hl). apply in_concat in Hl as (cl & Hc & Hl). exists cl. split; auto. apply in_map. auto.
  - intros (cl & Hc & Hw). apply in_map_iff in Hw as (l & <- & Hl). exists l. split; auto. apply in_concat. eauto.
Qed.
Lemma names_of_lists (p : bool) (cs : list (list text)) : names_of (map (map (pair p)) cs) = concat cs.
Proof. unfold names_of. rewrite concat_map, map_map. f_equal. rewrite <- (map_id cs) at 2. apply map_ext. intros c. rewrite map_map. apply map_id. Qed.
Lemma snd_pairs (p : bool) (l : list text) : map snd (map (pair p) l) = l.
Proof. rewrite map_map. apply map_id. Qed.
(* the names in the order of the block *)
Section Order.
  Variables (prefix : text) (rank : Z) (literal_to : bool -> text -> list (list (plit text))).
  Hypothesis lit_names : forall p v cl w, In cl (literal_to p v) -> In w (map snd cl) -> In w (block prefix rank v).
  Hypothesis lit_first : forall v, with_new [] (names_of (literal_to true v)) = block prefix rank v.
  Lemma substitution_order c F : made c -> base_substitution no_preamble literal_to None c = Ok F -> cn_names F = flat_map (block prefix rank) (cn_names c).
  Proof.
    intros M E. destruct (substitution_built no_preamble literal_to None c M) as (F' & E' & MF & NF & CF); [discriminate|]. rewrite E in E'. injection E' as <-. rewrite NF. cbn [new_names].
    apply blocks_order.
    - apply (made_well c M).
    - intros v _. unfold no_preamble. cbn [app]. fold (names_of (literal_to true v ++ literal_to false v)). rewrite names_of_app. apply then_known; auto.
      intros w Hw. apply names_of_In in Hw as (cl & Hc & Hw). eapply lit_names; eauto.
    - intros v w x _ _ H1 H2. apply block_In in H1 as (i & _ & ->). apply block_In in H2 as (j & _ & E2). apply block_name_inj in E2. tauto.
  Qed.
End Order.
Lemma block_length p rank v : 0 <= rank -> Z.of_nat (List.length (block p rank v)) = rank.
Proof. intros H. unfold block. rewrite map_length, range_length. lia. Qed.
Lemma or_order c rank F : made c -> 1 <= rank -> OrSubstitution c rank = Ok F -> cn_names F = flat_map (block [] rank) (cn_names c).
Proof.
  intros M R. apply substitution_order; auto; [apply or_names|]. intros v. unfold or_literal. cbv zeta. unfold names_of. cbn [concat]. rewrite app_nil_r, snd_pairs.
  apply (with_new_distinct []); [apply block_NoDup|intros ? _ []].
Qed.
Lemma maj_order c rank F : made c -> 1 <= rank -> MajoritySubstitution c rank = Ok F -> cn_names F = flat_map (block [] rank) (cn_names c).
Proof.
  intros M R. apply substitution_order; auto; [apply maj_names|]. intros v. unfold maj_literal. cbv zeta. unfold greater_or_equal_constraint, inequality_constraint. cbv zeta.
  rewrite block_length by lia. assert (T : 1 <= (rank + 1) / 2 <= rank) by (split; [apply Z.div_le_lower_bound|apply Z.div_le_upper_bound]; lia).
  destruct (Z.ltb_spec rank (rank - ((rank + 1) / 2 - 1))); [lia|]. destruct (Z.ltb_spec (rank - ((rank + 1) / 2 - 1)) 0); [lia|].
  rewrite names_of_lists. apply combinations_order; [apply block_NoDup|]. pose proof (block_length [] rank v). lia.
Qed.
Lemma product_names (vs : list text) cl : In cl (products (map (fun v => [(true, v); (false, v)]) vs)) -> map snd cl = vs.
Proof.
  rewrite products_In. remember (map (fun v => [(true, v); (false, v)]) vs) as ds eqn:E. intros H. revert vs E.
  induction H as [|l d cl ds Hl Hc IH]; intros vs E; destruct vs as [|v vs]; try discriminate; auto. cbn in E. injection E as -> ->. cbn. f_equal; [destruct Hl as [<-|[<-|[]]]; auto|apply IH; auto].
Qed.
Lemma xor_order c rank F : made c -> 1 <= rank -> XorSubstitution c rank = Ok F -> cn_names F = flat_map (block [] rank) (cn_names c).
Proof.
  intros M R. apply substitution_order; auto; [apply xor_names|]. intros v. unfold xor_literal, parity_constraint.
  assert (A : forall cl, In cl (xor_literal rank true v) -> map snd cl = block [] rank v).
  { intros cl Hc. unfold xor_literal, parity_constraint in Hc. apply filter_In in Hc as [Hc _]. apply product_names in Hc. auto. }
  assert (N : xor_literal rank true v <> []).
  { intros E. assert (K : all_hold (fun _ => false) (xor_literal rank true v)) by (rewrite E; intros ? []).
    apply xor_ok in K. rewrite count_block in K. assert (T : trues rank (fun _ => false) = 0). { unfold trues, how_many. induction (range 0 rank); auto. } rewrite T in K. discriminate. }
  change (with_new [] (names_of (xor_literal rank true v)) = block [] rank v). destruct (xor_literal rank true v) as [|cl cls] eqn:E; [congruence|].
  change (cl :: cls) with ([cl] ++ cls). rewrite names_of_app. unfold names_of at 1. cbn [concat]. rewrite app_nil_r, (A cl) by (left; auto). apply first_block; [apply block_NoDup|].
  intros w Hw. apply names_of_In in Hw as (d & Hd & Hw). rewrite (A d) in Hw by (right; auto). auto.
Qed.
Lemma eq_first (l : list text) : NoDup l -> (2 <= List.length l)%nat -> with_new [] (names_of (map (fun ab => [(false, fst ab); (true, snd ab)]) (permutations2 l))) = l.
Proof.
  intros N L. destruct l as [|x l]; [cbn in L; lia|]. inversion N as [|? ? X N']; subst. unfold permutations2. cbn [selections flat_map fst snd]. rewrite map_app, names_of_app. apply then_known.
  - rewrite map_map. cbn [fst snd]. transitivity (with_new [] (concat (map (cons x) (map (fun y => [y]) l)))).
    + f_equal. unfold names_of. clear. induction l as [|y l IH]; [reflexivity|]. cbn [map concat app fst snd]. rewrite IH. reflexivity.
    + assert (C : concat (map (fun y => [y]) l) = l) by (clear; induction l; cbn; congruence). rewrite cons_first; rewrite ?C; auto.
      * f_equal. apply (with_new_distinct []); auto.
      * destruct l; [cbn in L; lia|discriminate].
  - intros w Hw. apply names_of_In in Hw as (cl & Hc & Hw). apply in_map_iff in Hc as (ab & <- & Hab).
    assert (P : In ab (permutations2 (x :: l))) by (unfold permutations2; cbn [selections flat_map]; apply in_app_iff; right; auto).
    destruct ab as [a b]. apply permutations2_In in P; auto. cbn in Hw. destruct Hw as [<-|[<-|[]]]; tauto.
Qed.
Lemma eq_order c rank F : made c -> 2 <= rank -> AllEqualSubstitution c rank = Ok F -> cn_names F = flat_map (block [] rank) (cn_names c).
Proof.
  intros M R. apply substitution_order; auto; [apply eq_names|]. intros v. unfold eq_literal. cbv zeta. apply eq_first; [apply block_NoDup|]. pose proof (block_length [] rank v). lia.
Qed.
Lemma neq_order c rank F : made c -> 2 <= rank -> NotAllEqualSubstitution c rank = Ok F -> cn_names F = flat_map (block [] rank) (cn_names c).
Proof.
  intros M R. apply substitution_order; auto; [apply neq_names|]. intros v. unfold neq_literal, eq_literal. cbv zeta. cbn [negb]. unfold names_of. cbn [concat]. rewrite app_nil_r, map_app, !snd_pairs.
  apply first_block; [apply block_NoDup|apply incl_refl].
Qed.
Lemma one_order c rank F : made c -> 1 <= rank -> ExactlyOneSubstitution c rank = Ok F -> cn_names F = flat_map (block (txt "X_") rank) (cn_names c).
Proof.
  intros M R. apply substitution_order; auto; [apply one_names|]. intros v. unfold one_literal. cbv zeta.
  match goal with |- context [names_of (?a :: ?b)] => change (a :: b) with ([a] ++ b) end. rewrite names_of_app. unfold names_of at 1. cbn [concat]. rewrite app_nil_r, snd_pairs.
  apply first_block; [apply block_NoDup|]. intros w Hw. apply names_of_In in Hw as (cl & Hc & Hw). apply (one_names rank true v cl); auto. unfold one_literal. cbv zeta. right. auto.
Qed.
Lemma ite_order c F : made c -> IfThenElseSubstitution c = Ok F -> cn_names F = flat_map (block [] 3) (cn_names c).
Proof.
  intros M. apply substitution_order; auto; [apply ite_names|]. intros v. unfold ite_literal, names_of. cbv zeta. cbn [concat app map snd].
  change [block_name [] v 0; block_name [] v 1; block_name [] v 0; block_name [] v 2] with ([block_name [] v 0; block_name [] v 1] ++ [block_name [] v 0; block_name [] v 2]).
  change (block [] 3 v) with [block_name [] v 0; block_name [] v 1; block_name [] v 2]. pose proof (block_NoDup [] 3 v) as N. change (block [] 3 v) with [block_name [] v 0; block_name [] v 1; block_name [] v 2] in N.
  set (x := block_name [] v 0) in *. set (y := block_name [] v 1) in *. set (z := block_name [] v 2) in *. clearbody x y z. inversion N as [|? ? X N1]; subst. inversion N1 as [|? ? Y N2]; subst.
  rewrite with_new_app. rewrite (with_new_distinct [] [x; y]); [|constructor; [intros [E|[]]; apply X; left; auto|constructor; [intros []|constructor]]|intros ? _ []].
  cbn [app with_new]. destruct (in_dec (list_eq_dec ascii_dec) x [x; y]) as [_|K]; [|exfalso; apply K; left; auto].
  destruct (in_dec (list_eq_dec ascii_dec) z [x; y]) as [K|_]; [exfalso; destruct K as [K|[K|[]]]; [apply X|apply Y]; cbn; auto|reflexivity].
Qed.
(* lifting: first the selectors, then the values *)
Definition lift_block (rank : Z) (v : text) : list text := block (txt "Y_") rank v ++ block (txt "X_") rank v.
Lemma lift_order c rank F : made c -> 1 <= rank -> FormulaLifting c rank = Ok F -> cn_names F = flat_map (lift_block rank) (cn_names c).
Proof.
  intros M R E. destruct (substitution_built (lift_preamble rank) (lift_literal rank) None c M) as (F' & E' & MF & NF & CF); [discriminate|]. unfold FormulaLifting in E. rewrite E in E'. injection E' as <-. rewrite NF. cbn [new_names].
  assert (L : forall p v, names_of (lift_literal rank p v) = flat_map (fun i => [block_name (txt "Y_") v i; block_name (txt "X_") v i]) (range 0 rank)).
  { intros p v. unfold lift_literal, names_of. induction (range 0 rank) as [|i l IH]; [reflexivity|]. cbn [map concat app snd flat_map]. rewrite IH. reflexivity. }
  assert (K : forall l Y v, (forall i, In i l -> In (block_name (txt "Y_") v i) Y) -> NoDup l -> (forall i, In i l -> ~ In (block_name (txt "X_") v i) Y) ->
    with_new Y (flat_map (fun i => [block_name (txt "Y_") v i; block_name (txt "X_") v i]) l) = Y ++ map (block_name (txt "X_") v) l).
  { induction l as [|i l IH]; intros Y v HY N HX; cbn [flat_map map]; [cbn [with_new]; rewrite app_nil_r; auto|]. inversion N as [|? ? N1 N2]; subst. cbn [app with_new].
    destruct (in_dec (list_eq_dec ascii_dec) (block_name (txt "Y_") v i) Y) as [_|C]; [|exfalso; apply C, HY; left; auto].
    destruct (in_dec (list_eq_dec ascii_dec) (block_name (txt "X_") v i) Y) as [C|_]; [exfalso; eapply HX; [left; eauto|auto]|].
    rewrite IH; [rewrite <- app_assoc; reflexivity| |auto|].
    - intros j Hj. apply in_app_iff. left. apply HY. right. auto.
    - intros j Hj C. apply in_app_iff in C as [C|[C|[]]]; [eapply HX; [right; eauto|auto]|]. apply block_name_inj in C as [_ C]. subst j. auto. }
  apply blocks_order.
  - apply (made_well c M).
  - intros v _. fold (names_of (lift_preamble rank v ++ lift_literal rank true v ++ lift_literal rank false v)). rewrite !names_of_app, !L.
    assert (P : with_new [] (names_of (lift_preamble rank v)) = block (txt "Y_") rank v).
    { unfold lift_preamble. cbv zeta. match goal with |- context [names_of (?a :: ?b)] => change (a :: b) with ([a] ++ b) end. rewrite names_of_app. unfold names_of at 1. cbn [concat]. rewrite app_nil_r, snd_pairs.
      apply first_block; [apply block_NoDup|]. intros w Hw. apply names_of_In in Hw as (cl & Hc & Hw). eapply exactly_names; eauto. right. exact Hc. }
    rewrite !with_new_app, P. rewrite (K (range 0 rank) (block (txt "Y_") rank v) v); [|intros i Hi; apply block_In; exists i; split; [apply range_In; auto|reflexivity]|apply range_NoDup|].
    + unfold lift_block. apply with_new_known. intros w Hw. apply in_flat_map in Hw as (i & Hi & Hw). apply range_In in Hi. apply in_app_iff. destruct Hw as [<-|[<-|[]]]; [left; apply block_In; eauto|right].
      apply (in_map (block_name (txt "X_") v)). apply range_In. auto.
    + intros i Hi C. apply block_In in C as (j & _ & C). apply xy_apart in C. auto.
  - unfold lift_block. intros v w x _ _ H1 H2. apply in_app_iff in H1 as [H1|H1], H2 as [H2|H2]; apply block_In in H1 as (i & _ & ->); apply block_In in H2 as (j & _ & E2).
    all: try (apply block_name_inj in E2; tauto). { symmetry in E2. apply xy_apart in E2. destruct E2. } { apply xy_apart in E2. destruct E2. }
Qed.
