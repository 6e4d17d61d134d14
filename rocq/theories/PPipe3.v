(* PPipe3.v -- compression, shuffling, and all transformations: other names, the same result *)
From Coq Require Import String Ascii ZArith List Bool Lia Arith Permutation.
From Verif Require Import SpecCnf SpecFam SpecTrans PyBase MSet MText MCnf MFam MTrans MTool SpecTool PLib PCnf1 PCnf2 PFam1 PFam2 PFam4 PTrans1 PTrans4 PTrans6 PTool2 PPipe1 PPipe2.
Import ListNotations.
Open Scope Z_scope.

Lemma Forall2_index {A B} (P : A -> B -> Prop) (da : A) (db : B) : forall a b, List.length a = List.length b -> (forall j, (j < List.length a)%nat -> P (nth j a da) (nth j b db)) -> Forall2 P a b.
Proof.
  induction a as [|x a IH]; intros [|y b] L H; try discriminate; constructor; [apply (H 0%nat); cbn; lia|]. apply IH; [cbn in L; lia|]. intros j Hj. apply (H (S j)). cbn. lia.
Qed.
Section Two.
  Variables c1 c2 : cnf.
  Hypothesis N1 : NoDup (cn_names c1).
  Hypothesis N2 : NoDup (cn_names c2).
  Hypothesis R : renamed c1 c2.
  Lemma compression_vertex_at b c j : NoDup (cn_names c) -> (j < List.length (cn_names c))%nat -> compression_vertex c b (nth j (cn_names c) []) = nth j (b_right b) 0.
  Proof. intros N H. unfold compression_vertex. rewrite position_nth by auto. f_equal. lia. Qed.
  Lemma compression_renamed b f : same_result (VariableCompression c1 b f) (VariableCompression c2 b f).
  Proof.
    destruct R as [Ln Cl]. unfold VariableCompression. destruct (negb (text_eqb f (txt "xor") || text_eqb f (txt "maj"))); [reflexivity|].
    rewrite Ln. destruct (negb (Nat.eqb (List.length (b_right b)) (List.length (cn_names c2)))); [reflexivity|].
    unfold base_substitution. cbn [new_names]. set (names := cn_names (add_variables (map compress_name (b_left b)) empty_cnf)). set (m := negb (text_eqb f (txt "xor"))).
    assert (Q : forall p, mapM (fun v => mapM (compress_clause names) (compression_literal m c1 b p v)) (cn_names c1) = mapM (fun v => mapM (compress_clause names) (compression_literal m c2 b p v)) (cn_names c2)).
    { intros p. apply mapM_same. apply (Forall2_index _ ([] : text) ([] : text)); auto. intros j Hj. unfold compression_literal. rewrite (compression_vertex_at b c1 j N1 Hj). rewrite (compression_vertex_at b c2 j N2 ltac:(lia)). reflexivity. }
    assert (Q0 : mapM (fun v => mapM (compress_clause names) (no_preamble v)) (cn_names c1) = mapM (fun v => mapM (compress_clause names) (no_preamble v)) (cn_names c2)).
    { apply mapM_same. apply (Forall2_index _ ([] : text) ([] : text)); auto. }
    rewrite Q0, (Q true), (Q false).
    destruct (mapM (fun v => mapM (compress_clause names) (no_preamble v)) (cn_names c2)); cbn [bind same_result]; auto.
    destruct (mapM (fun v => mapM (compress_clause names) (compression_literal m c2 b true v)) (cn_names c2)); cbn [bind same_result]; auto.
    destruct (mapM (fun v => mapM (compress_clause names) (compression_literal m c2 b false v)) (cn_names c2)); cbn [bind same_result]; auto.
    split; cbn [cn_names cn_clauses]; [reflexivity|rewrite Cl; reflexivity].
  Qed.
  (* v under its other name *)
  Definition other (v : text) : text := match position v (cn_names c1) 0 with Some i => nth (Z.to_nat i) (cn_names c2) [] | None => v end.
  Lemma other_at j : (j < List.length (cn_names c1))%nat -> other (nth j (cn_names c1) []) = nth j (cn_names c2) [].
  Proof. intros H. unfold other. rewrite position_nth by auto. f_equal. lia. Qed.
  Lemma other_names : map other (cn_names c1) = cn_names c2.
  Proof.
    destruct R as [Ln _]. apply nth_ext with (d := other []) (d' := []); [rewrite map_length; auto|]. intros j Hj. rewrite map_length in Hj. rewrite map_nth. apply other_at; auto.
  Qed.
  Lemma other_inj v w : In v (cn_names c1) -> In w (cn_names c1) -> other v = other w -> v = w.
  Proof.
    intros Hv Hw E. destruct R as [Ln _]. apply (In_nth _ _ []) in Hv as (i & Hi & <-). apply (In_nth _ _ []) in Hw as (j & Hj & <-). rewrite !other_at in E by auto.
    assert (i = j) as -> by (apply (proj1 (NoDup_nth (cn_names c2) ([] : text)) N2); [rewrite <- Ln; exact Hi|rewrite <- Ln; exact Hj|exact E]). reflexivity.
  Qed.
  Lemma shuffle_renamed vs cp pf : incl vs (cn_names c1) -> same_result (Shuffle c1 vs cp pf) (Shuffle c2 (map other vs) cp pf).
  Proof.
    intros I. destruct R as [Ln Cl]. unfold Shuffle. rewrite map_length, <- Ln. destruct (negb (Nat.eqb (List.length vs) _)); [reflexivity|]. destruct (negb (Nat.eqb (List.length pf) _)); [reflexivity|].
    rewrite !add_variables_names. cbn [empty_cnf cn_names].
    assert (J : forall x y, In x (cn_names c1) -> In y (cn_names c1) -> (id x = id y <-> other x = other y)).
    { intros x y Hx Hy. unfold id. split; [congruence|apply other_inj; auto]. }
    destruct (same_new id other (cn_names c1) J [] (incl_nil_l _) vs I) as (N & W1 & W2 & HN). cbn [map] in W1, W2.
    assert (W1' : with_new [] vs = map id N) by (rewrite <- (map_id vs) at 1; exact W1). rewrite W1'.
    match goal with |- context [with_new ?a (map other vs)] => change (with_new a (map other vs)) with (with_new (map other []) (map other vs)) end. cbn [map].
    match goal with |- context [with_new ?a (map other vs)] => assert (W2' : with_new a (map other vs) = map other N) by exact W2; rewrite W2' end.
    assert (Q : mapM (fun v => of_option KeyError (position v (map id N) 1)) (cn_names c1) = mapM (fun v => of_option KeyError (position v (map other N) 1)) (cn_names c2)).
    { apply mapM_same. rewrite <- other_names. assert (X : incl (cn_names c1) (cn_names c1)) by (intros x Hx; auto). revert X. generalize (cn_names c1) at 1 3 4. 
      induction l as [|v l IH]; intros X; cbn [map]; constructor; [|apply IH; intros x Hx; apply X; right; auto].
      f_equal. exact (same_position id other N v 1 (fun y Hy => J v y (X v (or_introl eq_refl)) (HN y Hy))). }
    rewrite Q. destruct (mapM (fun v => of_option KeyError (position v (map other N) 1)) (cn_names c2)) as [idx|e|]; cbn [bind same_result]; auto.
    rewrite Cl. destruct (place_clauses _ _ _ _ _) as [pl|e|]; cbn [bind same_result]; auto. rewrite !map_length.
    destruct (coherent_clauses _ _) as [cls|e|]; cbn [bind same_result]; auto. split; cbn [cn_names cn_clauses]; [rewrite !map_length|]; auto.
  Qed.
End Two.
