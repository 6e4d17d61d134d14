(* PPipe2.v -- the transformations one by one: other names, the same result *)
From Coq Require Import String Ascii ZArith List Bool Lia Arith Permutation.
From Verif Require Import SpecCnf SpecFam SpecTrans PyBase MSet MText MCnf MFam MTrans MTool SpecTool PLib PCnf1 PCnf2 PFam1 PFam2 PFam4 PTrans1 PTrans4 PTrans6 PTool2 PPipe1.
Import ListNotations.
Open Scope Z_scope.

(* ---- constraints over renamed variables ---- *)
Section Natural.
  Context {A B : Type}.
  Variable f : A -> B.
  Definition lits (cls : list (list (bool * A))) : list (list (bool * B)) := map (map (fun l => (fst l, f (snd l)))) cls.
  Lemma combinations_map (l : list A) : forall k, combinations (map f l) k = map (map f) (combinations l k).
  Proof.
    induction l as [|x l IH]; intros [|k]; try reflexivity. cbn [map combinations]. rewrite map_app, !map_map, IH, map_map. f_equal. exact (IH (S k)).
  Qed.
  Lemma products_map {C D} (g : C -> D) (ls : list (list C)) : products (map (map g) ls) = map (map g) (products ls).
  Proof.
    induction ls as [|l ls IH]; [reflexivity|]. cbn [map products]. rewrite IH. rewrite !flat_map_concat_map, concat_map, !map_map. f_equal. apply map_ext. intros x. rewrite !map_map. reflexivity.
  Qed.
  Lemma filter_map {C D} (g : C -> D) (p : D -> bool) (q : C -> bool) l : (forall x, In x l -> p (g x) = q x) -> filter p (map g l) = map g (filter q l).
  Proof.
    induction l as [|x l IH]; intros H; [reflexivity|]. cbn [map filter]. rewrite H by (left; auto). rewrite IH by (intros; apply H; right; auto). destruct (q x); reflexivity.
  Qed.
  Lemma parity_map (l : list A) k : parity_constraint (map f l) k = lits (parity_constraint l k).
  Proof.
    unfold parity_constraint, lits. rewrite map_map.
    replace (map (fun x => [(true, f x); (false, f x)]) l) with (map (map (fun l0 : bool * A => (fst l0, f (snd l0)))) (map (fun v => [(true, v); (false, v)]) l)) by (rewrite map_map; reflexivity).
    rewrite products_map. apply filter_map. intros c _. do 3 f_equal. f_equal.
    rewrite (filter_map (fun l0 : bool * A => (fst l0, f (snd l0))) (fun l0 => negb (fst l0)) (fun l0 => negb (fst l0))) by reflexivity. rewrite map_length. reflexivity.
  Qed.
  Lemma inequality_map (l : list A) k g : inequality_constraint (map f l) k g = lits (inequality_constraint l k g).
  Proof.
    unfold inequality_constraint, lits. rewrite map_length. destruct (_ <? _); [reflexivity|]. destruct (_ <? 0); [reflexivity|]. rewrite combinations_map, !map_map. apply map_ext. intros c. rewrite !map_map. reflexivity.
  Qed.
  Lemma selections_map (l : list A) : selections (map f l) = map (fun p => (f (fst p), map f (snd p))) (selections l).
  Proof. induction l as [|x l IH]; [reflexivity|]. cbn [map selections]. rewrite IH, !map_map. reflexivity. Qed.
  Lemma permutations2_map (l : list A) : permutations2 (map f l) = map (fun p => (f (fst p), f (snd p))) (permutations2 l).
  Proof.
    unfold permutations2. rewrite selections_map, !flat_map_concat_map, concat_map, !map_map. f_equal. apply map_ext. intros p. cbn [fst snd]. rewrite !map_map. reflexivity.
  Qed.
  Lemma pairs_map (l : list A) : pairs (map f l) = map (fun p => (f (fst p), f (snd p))) (pairs l).
  Proof. induction l as [|x l IH]; [reflexivity|]. cbn [map pairs]. rewrite map_app, IH, !map_map. reflexivity. Qed.
End Natural.

(* ---- blocks of variables ---- *)
Section Block.
  Variables px py : text.
  Hypothesis apart : px = py \/ forall v i w j, block_name px v i <> block_name py w j.
  Definition at_place (v : text) (k : bool * Z) : text := block_name (if fst k then px else py) v (snd k).
  Lemma at_place_eq v w j k : at_place v j = at_place w k -> v = w /\ (snd j = snd k) /\ (px = py \/ fst j = fst k).
  Proof.
    destruct j as [b i], k as [b' i']. unfold at_place. cbn [fst snd]. intros E. destruct apart as [X|X].
    - subst py. replace (if b then px else px) with px in E by (destruct b; auto). replace (if b' then px else px) with px in E by (destruct b'; auto). apply block_name_inj in E. tauto.
    - destruct b, b'; [|exfalso; eapply X; eauto|exfalso; symmetry in E; eapply X; eauto|]; apply block_name_inj in E; tauto.
  Qed.
  Lemma at_place_back v j k : snd j = snd k -> (px = py \/ fst j = fst k) -> at_place v j = at_place v k.
  Proof. destruct j as [b i], k as [b' i']. unfold at_place. cbn [fst snd]. intros -> [-> | ->]; auto. destruct b, b'; auto. Qed.
  Lemma at_place_inj v w j k : at_place v j = at_place w k -> v = w /\ at_place v j = at_place v k.
  Proof. intros E. apply at_place_eq in E as (A & B & C). split; auto. apply at_place_back; auto. Qed.
  Lemma at_place_same v w j k : at_place v j = at_place v k -> at_place w j = at_place w k.
  Proof. intros E. apply at_place_eq in E as (A & B & C). apply at_place_back; auto. Qed.
  Lemma block_places b rank v : block (if b : bool then px else py) rank v = map (at_place v) (map (pair b) (range 0 rank)).
  Proof. unfold block. rewrite map_map. reflexivity. Qed.
  Lemma blocks_renamed SP SL pre lit c1 c2 : (forall v, pre v = lits (at_place v) SP) -> (forall p v, lit p v = lits (at_place v) (SL p)) ->
    NoDup (cn_names c1) -> NoDup (cn_names c2) -> renamed c1 c2 -> same_result (base_substitution pre lit None c1) (base_substitution pre lit None c2).
  Proof. intros HP HL. apply (base_renamed at_place at_place_inj at_place_same SP SL pre lit HP HL). Qed.
End Block.
Arguments blocks_renamed px py apart SP SL pre lit c1 c2 : clear implicits.

Section Each.
  Variables c1 c2 : cnf.
  Hypothesis N1 : NoDup (cn_names c1).
  Hypothesis N2 : NoDup (cn_names c2).
  Hypothesis R : renamed c1 c2.
  Let ks (rank : Z) : list (bool * Z) := map (pair true) (range 0 rank).
  Lemma plain_block rank v : block [] rank v = map (at_place [] [] v) (ks rank). Proof. apply (block_places [] [] true). Qed.
  Lemma x_block rank v : block (txt "X_") rank v = map (at_place (txt "X_") (txt "X_") v) (ks rank). Proof. apply (block_places (txt "X_") (txt "X_") true). Qed.
  Lemma or_renamed rank : same_result (OrSubstitution c1 rank) (OrSubstitution c2 rank).
  Proof.
    apply (blocks_renamed [] [] (or_introl eq_refl) [] (fun p : bool => if p then [map (pair true) (ks rank)] else map (fun n => [(false, n)]) (ks rank))); auto.
    intros p v. unfold or_literal. rewrite plain_block. destruct p; unfold lits; cbn [map]; rewrite !map_map; reflexivity.
  Qed.
  Lemma maj_renamed rank : same_result (MajoritySubstitution c1 rank) (MajoritySubstitution c2 rank).
  Proof.
    apply (blocks_renamed [] [] (or_introl eq_refl) [] (fun p : bool => if p then greater_or_equal_constraint (ks rank) ((rank + 1) / 2) else less_than_constraint (ks rank) ((rank + 1) / 2))); auto.
    intros p v. unfold maj_literal. rewrite plain_block. destruct p; apply inequality_map.
  Qed.
  Lemma xor_renamed rank : same_result (XorSubstitution c1 rank) (XorSubstitution c2 rank).
  Proof.
    apply (blocks_renamed [] [] (or_introl eq_refl) [] (fun p : bool => parity_constraint (ks rank) (if p then 1 else 0))); auto.
    intros p v. unfold xor_literal. rewrite plain_block. apply parity_map.
  Qed.
  Definition eq_skeleton (rank : Z) (p : bool) : list (list (bool * (bool * Z))) :=
    if p then map (fun ab => [(false, fst ab); (true, snd ab)]) (permutations2 (ks rank)) else [map (pair false) (ks rank); map (pair true) (ks rank)].
  Lemma eq_placed rank p v : eq_literal rank p v = lits (at_place [] [] v) (eq_skeleton rank p).
  Proof.
    unfold eq_literal, eq_skeleton, lits. rewrite plain_block. destruct p.
    - rewrite permutations2_map, !map_map. reflexivity.
    - cbn [map]. rewrite !map_map. reflexivity.
  Qed.
  Lemma eq_renamed rank : same_result (AllEqualSubstitution c1 rank) (AllEqualSubstitution c2 rank).
  Proof. apply (blocks_renamed [] [] (or_introl eq_refl) [] (eq_skeleton rank)); auto. intros p v. apply eq_placed. Qed.
  Lemma neq_renamed rank : same_result (NotAllEqualSubstitution c1 rank) (NotAllEqualSubstitution c2 rank).
  Proof. apply (blocks_renamed [] [] (or_introl eq_refl) [] (fun p => eq_skeleton rank (negb p))); auto. intros p v. apply eq_placed. Qed.
  Lemma ite_renamed : same_result (IfThenElseSubstitution c1) (IfThenElseSubstitution c2).
  Proof.
    apply (blocks_renamed [] [] (or_introl eq_refl) [] (fun p : bool => [[(false, (true, 0)); (p, (true, 1))]; [(true, (true, 0)); (p, (true, 2))]])); auto.
  Qed.
  Lemma one_renamed rank : same_result (ExactlyOneSubstitution c1 rank) (ExactlyOneSubstitution c2 rank).
  Proof.
    apply (blocks_renamed (txt "X_") (txt "X_") (or_introl eq_refl) [] (fun p : bool =>
      if p then map (pair true) (ks rank) :: map (fun s => [(false, fst s); (false, snd s)]) (pairs (ks rank))
      else map (fun n => (false, n) :: map (pair true) (filter (fun o => negb (snd o =? snd n)) (ks rank))) (ks rank))); auto.
    intros p v. unfold one_literal. rewrite x_block. destruct p; unfold lits.
    - cbn [map]. rewrite pairs_map, !map_map. reflexivity.
    - rewrite !map_map. apply map_ext. intros i. cbn [map fst snd].
      assert (FE : filter (fun o => negb (text_eqb o (at_place (txt "X_") (txt "X_") v i))) (map (at_place (txt "X_") (txt "X_") v) (ks rank)) =
                   map (at_place (txt "X_") (txt "X_") v) (filter (fun o => negb (snd o =? snd i)) (ks rank))).
      { apply filter_map. intros j _. f_equal.
        destruct (text_eqb_spec (at_place (txt "X_") (txt "X_") v j) (at_place (txt "X_") (txt "X_") v i)) as [E|E], (Z.eqb_spec (snd j) (snd i)) as [E'|E']; auto.
        - apply at_place_eq in E; [|auto]. tauto.
        - exfalso. apply E. apply at_place_back; auto. }
      f_equal. rewrite FE. rewrite !map_map. reflexivity.
  Qed.
  Lemma lift_renamed rank : same_result (FormulaLifting c1 rank) (FormulaLifting c2 rank).
  Proof.
    apply (blocks_renamed (txt "X_") (txt "Y_") (or_intror (fun v i w j E => xy_apart v i w j E))
      (map (pair true) (map (pair false) (range 0 rank)) :: map (fun s => [(false, fst s); (false, snd s)]) (pairs (map (pair false) (range 0 rank))))
      (fun p : bool => map (fun i => [(false, (false, i)); (p, (true, i))]) (range 0 rank))); auto.
    - intros v. unfold lift_preamble. rewrite (block_places (txt "X_") (txt "Y_") false). unfold lits. cbn [map]. rewrite (pairs_map (at_place (txt "X_") (txt "Y_") v)), !map_map. reflexivity.
    - intros p v. unfold lift_literal, lits. rewrite map_map. reflexivity.
  Qed.
  Lemma flip_renamed : same_result (FlipPolarity c1) (FlipPolarity c2).
  Proof.
    apply (base_renamed (fun v (_ : unit) => v) (fun v w j k E => conj E eq_refl) (fun v w j k E => eq_refl) [] (fun p => [[(negb p, tt)]])); auto.
  Qed.
End Each.
