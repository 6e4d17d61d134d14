(* PPipe1.v -- a transformation does not depend on the names of the variables *)
From Coq Require Import String Ascii ZArith List Bool Lia Arith Permutation.
From Verif Require Import SpecCnf SpecFam SpecTrans PyBase MSet MText MCnf MFam MTrans MTool SpecTool PLib PCnf1 PCnf2 PFam1 PFam2 PFam4 PTrans1 PTrans4.
Import ListNotations.
Open Scope Z_scope.

(* ---- lists of names, renamed ---- *)
Section Renamed.
  Context {X : Type}.
  Variables g1 g2 : X -> text.
  Lemma same_new (L : list X) : (forall x y, In x L -> In y L -> (g1 x = g1 y <-> g2 x = g2 y)) ->
    forall M, incl M L -> forall L', incl L' L -> exists N, with_new (map g1 M) (map g1 L') = map g1 N /\ with_new (map g2 M) (map g2 L') = map g2 N /\ incl N L.
  Proof.
    intros I M HM L'. revert M HM. induction L' as [|x L' IH]; intros M HM HL; cbn [map with_new].
    - exists M. auto.
    - assert (Hx : In x L) by (apply HL; left; auto). assert (HL' : incl L' L) by (intros y Hy; apply HL; right; auto).
      assert (K : In (g1 x) (map g1 M) <-> In (g2 x) (map g2 M)).
      { rewrite !in_map_iff. split; intros (y & E & Hy); exists y; split; auto; apply (I y x); auto. }
      destruct (in_dec (list_eq_dec ascii_dec) (g1 x) (map g1 M)) as [A|A], (in_dec (list_eq_dec ascii_dec) (g2 x) (map g2 M)) as [B|B]; try tauto.
      + apply IH; auto.
      + assert (A1 : forall g : X -> text, (map g M ++ [g x] : list text) = map g (M ++ [x])) by (intros; rewrite map_app; reflexivity).
        destruct (IH (M ++ [x])) as (N & R1 & R2 & R3); auto; [|exists N; split; [etransitivity; [|exact R1]; f_equal; apply (A1 g1)|split; [etransitivity; [|exact R2]; f_equal; apply (A1 g2)|exact R3]]].
        intros y Hy. apply in_app_iff in Hy as [Hy|[<-|[]]]; auto.
  Qed.
  Lemma same_position (M : list X) x i : (forall y, In y M -> (g1 x = g1 y <-> g2 x = g2 y)) -> position (g1 x) (map g1 M) i = position (g2 x) (map g2 M) i.
  Proof.
    revert i. induction M as [|y M IH]; intros i I; [reflexivity|]. cbn [map position].
    destruct (text_eqb_spec (g1 x) (g1 y)) as [A|A], (text_eqb_spec (g2 x) (g2 y)) as [B|B]; auto.
    - exfalso. apply B, (I y); [left; auto|auto].
    - exfalso. apply A, (I y); [left; auto|auto].
    - apply IH. intros; apply I; right; auto.
  Qed.
  Lemma same_compressed (N : list X) (cl : list (bool * X)) : (forall l, In l cl -> forall y, In y N -> (g1 (snd l) = g1 y <-> g2 (snd l) = g2 y)) ->
    compress_clause (map g1 N) (map (fun l => (fst l, g1 (snd l))) cl) = compress_clause (map g2 N) (map (fun l => (fst l, g2 (snd l))) cl).
  Proof.
    intros H. unfold compress_clause. induction cl as [|[p x] cl IH]; [reflexivity|]. cbn [map mapM]. cbn [fst snd].
    rewrite (same_position N x 1) by (apply (H (p, x)); left; auto). destruct (position (g2 x) (map g2 N) 1); cbn [of_option bind]; auto.
    rewrite IH by (intros; apply H; auto; right; auto). reflexivity.
  Qed.
End Renamed.

Lemma mapM_same {A B C} (f : A -> result C) (g : B -> result C) l m : Forall2 (fun a b => f a = g b) l m -> mapM f l = mapM g m.
Proof. induction 1 as [|a b l m E _ IH]; [reflexivity|]. cbn [mapM]. rewrite E, IH. reflexivity. Qed.
Lemma mapM_map_in {A C} (f g : A -> result C) l : (forall a, In a l -> f a = g a) -> mapM f l = mapM g l.
Proof. intros H. apply mapM_same. induction l as [|a l IH]; constructor; [apply H; left; auto|apply IH; intros; apply H; right; auto]. Qed.

(* the same formula under other names *)
Definition renamed (c1 c2 : cnf) : Prop := List.length (cn_names c1) = List.length (cn_names c2) /\ cn_clauses c1 = cn_clauses c2.
Definition same_result (r1 r2 : result cnf) : Prop :=
  match r1, r2 with Ok c1, Ok c2 => renamed c1 c2 | Err e1, Err e2 => e1 = e2 | OutOfFuel, OutOfFuel => True | _, _ => False end.

Section Blocks.
  Context {K : Type}.
  Variable place : text -> K -> text.
  Hypothesis place_inj : forall v w j k, place v j = place w k -> v = w /\ place v j = place v k.
  Hypothesis place_same : forall v w j k, place v j = place v k -> place w j = place w k.
  Variables (SP : list (list (bool * K))) (SL : bool -> list (list (bool * K))).
  Definition placed (v : text) (cls : list (list (bool * K))) : list (list (bool * text)) := map (map (fun l => (fst l, place v (snd l)))) cls.
  Variables (pre : text -> list (list (bool * text))) (lit : bool -> text -> list (list (bool * text))).
  Hypothesis pre_placed : forall v, pre v = placed v SP.
  Hypothesis lit_placed : forall p v, lit p v = placed v (SL p).
  Definition keys : list K := map snd (concat (SP ++ SL true ++ SL false)).
  Lemma new_placed names : new_names pre lit None names = map (fun x => place (fst x) (snd x)) (flat_map (fun v => map (pair v) keys) names).
  Proof.
    cbn [new_names]. assert (P : forall v S, map snd (concat (placed v S)) = map (place v) (map snd (concat S))).
    { intros v. unfold placed. induction S as [|cl S IH]; [reflexivity|]. cbn [map concat]. rewrite !map_app, IH. f_equal. rewrite !map_map. reflexivity. }
    induction names as [|v names IH]; [reflexivity|]. cbn [flat_map]. rewrite map_app, IH. f_equal. rewrite pre_placed, !lit_placed, map_map. cbn [fst snd].
    rewrite !concat_app, !map_app, !P. unfold keys. rewrite !concat_app, !map_app. reflexivity.
  Qed.
  Lemma base_renamed c1 c2 : NoDup (cn_names c1) -> NoDup (cn_names c2) -> renamed c1 c2 ->
    same_result (base_substitution pre lit None c1) (base_substitution pre lit None c2).
  Proof.
    intros N1 N2 [Ln Cl]. unfold base_substitution. rewrite !add_variables_names. cbn [cn_names empty_cnf]. rewrite !new_placed.
    set (n := List.length (cn_names c1)) in *.
    set (g1 := fun x : nat * K => place (nth (fst x) (cn_names c1) []) (snd x)). set (g2 := fun x : nat * K => place (nth (fst x) (cn_names c2) []) (snd x)).
    set (L := flat_map (fun j => map (pair j) keys) (seq 0 n)).
    assert (E : forall names : list text, List.length names = n -> flat_map (fun v => map (pair v) keys) names = map (fun x : nat * K => (nth (fst x) names [], snd x)) L).
    { intros names H. unfold L. rewrite !flat_map_concat_map, concat_map, map_map. f_equal.
      assert (X : names = map (fun j => nth j names []) (seq 0 n)).
      { apply nth_ext with (d := []) (d' := []); [rewrite map_length, seq_length; auto|]. intros k Hk. rewrite (nth_indep (map (fun j => nth j names []) (seq 0 n)) [] (nth 0 names [])) by (rewrite map_length, seq_length; lia).
        rewrite (map_nth (fun j => nth j names []) (seq 0 n) 0%nat k). rewrite seq_nth by lia. reflexivity. }
      rewrite X at 1. rewrite map_map. apply map_ext. intros j. rewrite map_map. reflexivity. }
    rewrite (E (cn_names c1)) by reflexivity. rewrite (E (cn_names c2)) by auto. rewrite !map_map. cbn [fst snd].
    change (fun x : nat * K => place (nth (fst x) (cn_names c1) []) (snd x)) with g1. change (fun x : nat * K => place (nth (fst x) (cn_names c2) []) (snd x)) with g2.
    assert (HL : forall x, In x L <-> (fst x < n)%nat /\ In (snd x) keys).
    { intros [j k]. unfold L. rewrite in_flat_map. cbn [fst snd]. split.
      - intros (i & Hi & H). apply in_map_iff in H as (k' & E' & Hk). apply in_seq in Hi. assert (i = j /\ k' = k) as [-> ->] by (split; congruence). split; [lia|auto].
      - intros [Hj Hk]. exists j. split; [apply in_seq; lia|]. apply in_map; auto. }
    assert (I : forall x y, In x L -> In y L -> (g1 x = g1 y <-> g2 x = g2 y)).
    { intros [i a] [j b] Hx Hy. apply HL in Hx, Hy. cbn [fst snd] in Hx, Hy. unfold g1, g2. cbn [fst snd].
      split; intros H; pose proof H as H'; apply place_inj in H' as [H' H'']; apply NoDup_nth in H'; auto; try lia; subst j; apply (place_same _ _ a b H''). }
    destruct (same_new g1 g2 L I [] (incl_nil_l L) L (incl_refl L)) as (N & W1 & W2 & HN).
    match goal with |- context [with_new ?a (map g1 L)] => change (with_new a (map g1 L)) with (with_new (map g1 []) (map g1 L)); rewrite W1 end.
    match goal with |- context [with_new ?a (map g2 L)] => change (with_new a (map g2 L)) with (with_new (map g2 []) (map g2 L)); rewrite W2 end.
    assert (Q : forall (S : list (list (bool * K))), incl (map snd (concat S)) keys ->
      mapM (fun v => mapM (compress_clause (map g1 N)) (placed v S)) (cn_names c1) = mapM (fun v => mapM (compress_clause (map g2 N)) (placed v S)) (cn_names c2)).
    { intros S HS. apply mapM_same.
      assert (F : forall a b : list text, List.length a = List.length b -> (forall j, (j < List.length a)%nat ->
        mapM (compress_clause (map g1 N)) (placed (nth j a []) S) = mapM (compress_clause (map g2 N)) (placed (nth j b []) S)) ->
        Forall2 (fun v w => mapM (compress_clause (map g1 N)) (placed v S) = mapM (compress_clause (map g2 N)) (placed w S)) a b).
      { induction a as [|x a IH]; intros [|y b] HE H; try discriminate; constructor; [apply (H 0%nat); cbn; lia|]. apply IH; [cbn in HE; lia|]. intros j Hj. apply (H (Datatypes.S j)). cbn. lia. }
      apply F; [exact Ln|]. intros j Hj. unfold placed. apply mapM_same.
      assert (HS' : forall cl l, In cl S -> In l cl -> In (snd l) keys) by (intros cl l H1 H2; apply HS, in_map, in_concat; eauto). clear HS F.
      induction S as [|cl S IH]; cbn [map]; [constructor|]. constructor; [|apply IH; intros; eapply HS'; eauto; right; auto].
      pose proof (same_compressed g1 g2 N (map (fun l => (fst l, (j, snd l))) cl)) as SC. rewrite !map_map in SC. cbn [fst snd] in SC. apply SC.
      intros l Hl y Hy. apply in_map_iff in Hl as (l0 & <- & Hl0). cbn [snd]. apply I; [|apply HN; auto]. apply HL. cbn [fst snd]. split; [exact Hj|]. apply (HS' cl l0); [left; auto|auto]. }
    assert (KS : incl (map snd (concat SP)) keys /\ incl (map snd (concat (SL true))) keys /\ incl (map snd (concat (SL false))) keys).
    { unfold keys. rewrite !concat_app, !map_app. split; [|split]; intros x Hx; rewrite !in_app_iff; auto. }
    destruct KS as (K1 & K2 & K3).
    rewrite (mapM_map_in _ (fun v => mapM (compress_clause (map g1 N)) (placed v SP)) (cn_names c1)) by (intros; rewrite pre_placed; auto).
    rewrite (mapM_map_in _ (fun v => mapM (compress_clause (map g2 N)) (placed v SP)) (cn_names c2)) by (intros; rewrite pre_placed; auto).
    rewrite (mapM_map_in (fun v => mapM (compress_clause (map g1 N)) (lit true v)) (fun v => mapM (compress_clause (map g1 N)) (placed v (SL true))) (cn_names c1)) by (intros; rewrite lit_placed; auto).
    rewrite (mapM_map_in (fun v => mapM (compress_clause (map g2 N)) (lit true v)) (fun v => mapM (compress_clause (map g2 N)) (placed v (SL true))) (cn_names c2)) by (intros; rewrite lit_placed; auto).
    rewrite (mapM_map_in (fun v => mapM (compress_clause (map g1 N)) (lit false v)) (fun v => mapM (compress_clause (map g1 N)) (placed v (SL false))) (cn_names c1)) by (intros; rewrite lit_placed; auto).
    rewrite (mapM_map_in (fun v => mapM (compress_clause (map g2 N)) (lit false v)) (fun v => mapM (compress_clause (map g2 N)) (placed v (SL false))) (cn_names c2)) by (intros; rewrite lit_placed; auto).
    rewrite (Q SP K1), (Q (SL true) K2), (Q (SL false) K3).
    destruct (mapM (fun v => mapM (compress_clause (map g2 N)) (placed v SP)) (cn_names c2)); cbn [bind same_result]; auto.
    destruct (mapM (fun v => mapM (compress_clause (map g2 N)) (placed v (SL true))) (cn_names c2)); cbn [bind same_result]; auto.
    destruct (mapM (fun v => mapM (compress_clause (map g2 N)) (placed v (SL false))) (cn_names c2)); cbn [bind same_result]; auto.
    split; cbn [cn_names cn_clauses]; [rewrite !map_length; auto|rewrite Cl; reflexivity].
  Qed.
End Blocks.
