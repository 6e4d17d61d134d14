(* PFam1.v -- names, assignments, mappings, pigeonhole *)
From Coq Require Import String Ascii ZArith NArith List Bool Lia Arith.
From Verif Require Import Spec PyBase MText MCnf MFam SpecCnf PText PLib PCnf1 PCnf2.
Import ListNotations.
Open Scope Z_scope.

(* ---- names ---- *)
Lemma str_Z_inj a b : str_Z a = str_Z b -> a = b.
Proof. intros H. pose proof (py_int_str a) as A. rewrite H, py_int_str in A. congruence. Qed.
Lemma split_first (c : ascii) a b x y : ~ In c a -> ~ In c b -> a ++ c :: x = b ++ c :: y -> a = b /\ x = y.
Proof.
  revert b. induction a as [|u a IH]; intros [|v b] Ha Hb E; cbn in E; injection E; intros; subst; auto.
  - exfalso. apply Hb. left; auto.
  - exfalso. apply Ha. left; auto.
  - destruct (IH b) as [-> ->]; auto; intros K; [apply Ha|apply Hb]; right; auto.
Qed.
Lemma str_Z_no c z : (code c < 45 \/ 45 < code c < 48 \/ 57 < code c)%N -> ~ In c (str_Z z).
Proof. apply str_Z_lacks. Qed.
Lemma name1_inj p i j : name1 p i = name1 p j -> i = j.
Proof.
  unfold name1. intros H. apply app_inv_head in H. change (txt "}") with ("}"%char :: []) in H.
  apply split_first in H as [H _]; [apply str_Z_inj; auto| |]; apply str_Z_no; right; right; reflexivity.
Qed.
Lemma name2_inj p i j i' j' : name2 p i j = name2 p i' j' -> i = i' /\ j = j'.
Proof.
  unfold name2. intros H. apply app_inv_head in H. change (txt ",") with (","%char :: []) in H. cbn [app] in H.
  apply split_first in H as [H1 H]; [|apply str_Z_no; left; reflexivity|apply str_Z_no; left; reflexivity].
  change (txt "}") with ("}"%char :: []) in H.
  apply split_first in H as [H _]; [split; apply str_Z_inj; auto| |]; apply str_Z_no; right; right; reflexivity.
Qed.

(* ---- an assignment with given values on some names ---- *)
Definition values {A} (name : A -> text) (dom : list A) (f : A -> bool) (t : text) : bool :=
  existsb (fun x => text_eqb (name x) t && f x) dom.
Lemma values_at {A} (name : A -> text) dom f x : (forall y, In y dom -> name y = name x -> f y = f x) -> In x dom ->
  values name dom f (name x) = f x.
Proof.
  intros I Hx. unfold values. destruct (f x) eqn:E.
  - apply existsb_exists. exists x. split; auto. rewrite text_eqb_refl, E. auto.
  - rewrite <- not_true_iff_false. intros K. apply existsb_exists in K as (y & Hy & K). apply andb_true_iff in K as [K1 K2].
    destruct (text_eqb_spec (name y) (name x)); [|discriminate]. rewrite (I y) in K2; auto. congruence.
Qed.
Lemma values_other {A} (name : A -> text) dom f t : (forall x, In x dom -> name x <> t) -> values name dom f t = false.
Proof.
  intros H. unfold values. rewrite <- not_true_iff_false. intros K. apply existsb_exists in K as (y & Hy & K). apply andb_true_iff in K as [K1 _].
  destruct (text_eqb_spec (name y) t); [|discriminate]. apply (H y); auto.
Qed.

(* ---- counting ---- *)
Lemma how_many_map {A B} (f : A -> B) (a : B -> bool) l : how_many a (map f l) = how_many (fun x => a (f x)) l.
Proof. unfold how_many. f_equal. induction l as [|x l IH]; cbn [map filter]; auto. destruct (a (f x)); cbn [List.length]; auto. Qed.
Lemma how_many_cons {A} (a : A -> bool) x l : how_many a (x :: l) = (if a x then 1 else 0) + how_many a l.
Proof. unfold how_many. cbn [filter]. destruct (a x); cbn [List.length]; lia. Qed.
Lemma how_many_nil {A} (a : A -> bool) : how_many a [] = 0.
Proof. reflexivity. Qed.
Lemma how_many_app {A} (a : A -> bool) l1 l2 : how_many a (l1 ++ l2) = how_many a l1 + how_many a l2.
Proof. unfold how_many. rewrite filter_app, app_length. lia. Qed.
Lemma how_many_nonneg {A} (a : A -> bool) l : 0 <= how_many a l.
Proof. unfold how_many. lia. Qed.
Lemma how_many_ge1 {A} (a : A -> bool) l : how_many a l >= 1 <-> exists x, In x l /\ a x = true.
Proof.
  induction l as [|x l IH]; [split; [cbn; lia|intros (x & [] & _)]|]. rewrite how_many_cons. pose proof (how_many_nonneg a l). split.
  - intros H1. destruct (a x) eqn:E; [exists x; split; [left|]; auto|]. destruct (proj1 IH) as (y & Hy & Ey); [lia|]. exists y. split; [right|]; auto.
  - intros (y & [<-|Hy] & E); [rewrite E; lia|]. assert (how_many a l >= 1) by (apply IH; eauto). destruct (a x); lia.
Qed.
Lemma how_many_0 {A} (a : A -> bool) l : how_many a l = 0 <-> forall x, In x l -> a x = false.
Proof.
  split.
  - intros H x Hx. destruct (a x) eqn:E; auto. assert (how_many a l >= 1) by (apply how_many_ge1; eauto). lia.
  - intros H. pose proof (how_many_nonneg a l). destruct (Z.eq_dec (how_many a l) 0); auto.
    assert (how_many a l >= 1) as K by lia. apply how_many_ge1 in K as (x & Hx & E). rewrite H in E by auto. discriminate.
Qed.
Lemma how_many_le1 {A} (a : A -> bool) l : NoDup l ->
  (how_many a l <= 1 <-> forall x y, In x l -> In y l -> a x = true -> a y = true -> x = y).
Proof.
  induction 1 as [|x l N ND IH]; [split; [intros _ ? ? []|cbn; lia]|]. rewrite how_many_cons. split.
  - intros H u v [<-|Hu] [<-|Hv] Eu Ev; auto.
    + rewrite Eu in H. assert (how_many a l >= 1) by (apply how_many_ge1; eauto). lia.
    + rewrite Ev in H. assert (how_many a l >= 1) by (apply how_many_ge1; eauto). lia.
    + apply IH; auto. pose proof (how_many_nonneg a l). destruct (a x); lia.
  - intros H. destruct (a x) eqn:E.
    + assert (how_many a l = 0); [|lia]. apply how_many_0. intros y Hy. destruct (a y) eqn:Ey; auto.
      assert (x = y) by (apply H; auto; [left|right]; auto). subst. contradiction.
    + apply IH. intros; apply H; auto; right; auto.
Qed.
Lemma how_many_1 {A} (a : A -> bool) l : NoDup l ->
  (how_many a l = 1 <-> exists x, In x l /\ a x = true /\ forall y, In y l -> a y = true -> y = x).
Proof.
  intros N. split.
  - intros H. assert (G : how_many a l >= 1) by lia. apply how_many_ge1 in G as (x & Hx & E). exists x. split; auto. split; auto.
    intros y Hy Ey. apply (proj1 (how_many_le1 a l N)); auto. lia.
  - intros (x & Hx & E & U). assert (how_many a l >= 1) by (apply how_many_ge1; eauto).
    assert (how_many a l <= 1); [|lia]. apply how_many_le1; auto. intros u v Hu Hv Eu Ev. rewrite (U u), (U v); auto.
Qed.
Lemma how_many_ext {A} (a b : A -> bool) l : (forall x, In x l -> a x = b x) -> how_many a l = how_many b l.
Proof. intros H. unfold how_many. do 2 f_equal. apply filter_ext_in. auto. Qed.
Lemma how_many_le {A} (a b : A -> bool) l : (forall x, In x l -> a x = true -> b x = true) -> how_many a l <= how_many b l.
Proof.
  induction l as [|x l IH]; intros H; [cbn; lia|]. rewrite !how_many_cons.
  assert (how_many a l <= how_many b l) by (apply IH; intros; apply H; [right|]; auto).
  specialize (H x (or_introl eq_refl)). destruct (a x), (b x); lia.
Qed.

(* ---- clause lists ---- *)
Lemma all_hold_flat_map {A B} (a : A -> bool) (f : B -> list (list (bool * A))) l :
  all_hold a (flat_map f l) <-> forall x, In x l -> all_hold a (f x).
Proof.
  unfold all_hold. split.
  - intros H x Hx c Hc. apply H. apply in_flat_map. eauto.
  - intros H c Hc. apply in_flat_map in Hc as (x & Hx & Hc). eauto.
Qed.
Lemma all_hold_map {A B} (a : A -> bool) (f : B -> list (bool * A)) l :
  all_hold a (map f l) <-> forall x, In x l -> clause_holds a (f x).
Proof.
  unfold all_hold. split.
  - intros H x Hx. apply H. apply in_map. auto.
  - intros H c Hc. apply in_map_iff in Hc as (x & <- & Hx). auto.
Qed.
Lemma all_hold_if {A} (a : A -> bool) (b : bool) F : all_hold a (if b then F else []) <-> (b = true -> all_hold a F).
Proof. destruct b; [tauto|]. split; [discriminate|intros _ c []]. Qed.
Lemma holds_nil {A} (a : A -> bool) : ~ clause_holds a [].
Proof. intros (p & v & [] & _). Qed.
Lemma holds_cons {A} (a : A -> bool) p v c : clause_holds a ((p, v) :: c) <-> a v = p \/ clause_holds a c.
Proof.
  split.
  - intros (q & w & [E|H] & K); [injection E as -> ->; auto|right; exists q, w; auto].
  - intros [H|(q & w & H & K)]; [exists p, v; split; [left|]; auto|exists q, w; split; [right|]; auto].
Qed.
Lemma holds_app {A} (a : A -> bool) c d : clause_holds a (c ++ d) <-> clause_holds a c \/ clause_holds a d.
Proof. induction c as [|[p v] c IH]; cbn [app]; [split; auto; intros [H|]; auto; destruct (holds_nil _ H)|]. rewrite !holds_cons, IH. tauto. Qed.
Lemma holds_map {A B} (a : A -> bool) p (f : B -> A) l : clause_holds a (map (fun x => (p, f x)) l) <-> exists x, In x l /\ a (f x) = p.
Proof.
  split.
  - intros (q & w & H & K). apply in_map_iff in H as (x & E & Hx). injection E as <- <-. eauto.
  - intros (x & Hx & K). exists p, (f x). split; auto. apply in_map_iff. eauto.
Qed.
Lemma pairs_In {A} (l : list A) x y : In (x, y) (pairs l) -> In x l /\ In y l.
Proof.
  induction l as [|z l IH]; cbn [pairs]; [intros []|]. intros H. apply in_app_iff in H as [H|H].
  - apply in_map_iff in H as (u & E & Hu). injection E as <- <-. split; [left|right]; auto.
  - apply IH in H as [? ?]. split; right; auto.
Qed.
Lemma pairs_total {A} (l : list A) x y : In x l -> In y l -> x <> y -> In (x, y) (pairs l) \/ In (y, x) (pairs l).
Proof.
  induction l as [|z l IH]; cbn [pairs]; [intros []|]. intros [->|Hx] [->|Hy] N; try congruence.
  - left. apply in_app_iff. left. apply in_map; auto.
  - right. apply in_app_iff. left. apply in_map; auto.
  - destruct (IH Hx Hy N); [left|right]; apply in_app_iff; auto.
Qed.
Lemma pairs_neq {A} (l : list A) x y : NoDup l -> In (x, y) (pairs l) -> x <> y.
Proof.
  induction 1 as [|z l N ND IH]; cbn [pairs]; [intros []|]. intros H. apply in_app_iff in H as [H|H]; auto.
  apply in_map_iff in H as (u & E & Hu). injection E as <- <-. intros ->. auto.
Qed.
Lemma range_In a b x : In x (range a b) <-> a <= x < b.
Proof.
  unfold range. rewrite in_map_iff. split.
  - intros (i & <- & H). apply in_seq in H. lia.
  - intros H. exists (Z.to_nat (x - a)). split; [lia|]. apply in_seq. lia.
Qed.
Lemma range_NoDup a b : NoDup (range a b).
Proof.
  unfold range. apply FinFun.Injective_map_NoDup; [|apply seq_NoDup]. intros i j H. lia.
Qed.
Lemma range_length a b : List.length (range a b) = Z.to_nat (b - a).
Proof. unfold range. rewrite map_length, seq_length. auto. Qed.

(* ---- a built formula ---- *)
Lemma build_unsafe vs cls : (forall cl v, In cl cls -> In v (map snd cl) -> In v vs) ->
  exists c, build add_clause_unsafe vs cls = Ok c /\ made c /\ cnf_clauses c = cls /\ cn_names c = with_new [] vs.
Proof.
  intros H. destruct (add_all_unsafe cls (add_variables vs empty_cnf)) as (c & E & W & N & C).
  - apply vars_well.
  - intros cl v Hc Hv. apply vars_names. eauto.
  - exists c. split; auto. split; [|split; [rewrite C, vars_clauses; auto|rewrite N, add_variables_names; auto]].
    eapply add_all_made; [apply unsafe_made| |exact E]. apply variables_made. constructor.
Qed.
Lemma build_strict vs cls : (forall cl, In cl cls -> clean cl) -> (forall cl v, In cl cls -> In v (map snd cl) -> In v vs) ->
  exists c, build add_clause_strict vs cls = Ok c /\ made c /\ cnf_clauses c = cls /\ cn_names c = with_new [] vs.
Proof.
  intros HC H. destruct (add_all_strict cls (add_variables vs empty_cnf)) as (c & E & W & N & C); auto.
  - apply vars_well.
  - intros cl v Hc Hv. apply vars_names. eauto.
  - exists c. split; auto. split; [|split; [rewrite C, vars_clauses; auto|rewrite N, add_variables_names; auto]].
    eapply add_all_made; [apply strict_made| |exact E]. apply variables_made. constructor.
Qed.
Lemma build_plain cls : (forall cl, In cl cls -> clean cl) ->
  exists c, add_all cnf_add_clause cls empty_cnf = Ok c /\ made c /\ cnf_clauses c = cls /\ cn_names c = with_new [] (map snd (concat cls)).
Proof.
  intros HC. destruct (add_all_plain cls empty_cnf) as (c & E & W & N & C); auto.
  - split; [constructor|intros ? ? []].
  - exists c. split; auto. split; [|split; auto].
    eapply add_all_made; [apply plain_made|constructor|exact E].
Qed.

(* variables of a constraint *)
Lemma combination_vars {A} (p : bool) (l : list A) k c v : In c (map (map (pair p)) (combinations l k)) -> In v (map snd c) -> In v l.
Proof.
  intros H Hv. apply in_map_iff in H as (s & <- & Hs). rewrite map_map in Hv. cbn in Hv. rewrite map_id in Hv.
  eapply combinations_incl; eauto.
Qed.
Lemma inequality_vars {A} (l : list A) k g c v : In c (inequality_constraint l k g) -> In v (map snd c) -> In v l.
Proof.
  unfold inequality_constraint. destruct (_ <? _); [intros []|]. destruct (_ <? 0); [intros [<-|[]] []|]. apply combination_vars.
Qed.
Lemma equal_vars {A} (l : list A) k c v : In c (equal_to_constraint l k) -> In v (map snd c) -> In v l.
Proof.
  unfold equal_to_constraint, less_or_equal_constraint, greater_or_equal_constraint. intros H. apply in_app_iff in H as [H|H]; revert H; apply inequality_vars.
Qed.
Lemma combination_clean p (l : list text) k c : NoDup l -> In c (map (map (pair p)) (combinations l k)) -> clean c.
Proof.
  intros N H. apply in_map_iff in H as (s & <- & Hs). apply clean_vars. rewrite map_map. cbn. rewrite map_id. eapply combinations_NoDup; eauto.
Qed.
Lemma inequality_clean (l : list text) k g c : NoDup l -> In c (inequality_constraint l k g) -> clean c.
Proof.
  intros N. unfold inequality_constraint. destruct (_ <? _); [intros []|]. destruct (_ <? 0); [intros [<-|[]]; apply clean_vars; constructor|].
  apply combination_clean; auto.
Qed.
Lemma equal_clean (l : list text) k c : NoDup l -> In c (equal_to_constraint l k) -> clean c.
Proof.
  intros N. unfold equal_to_constraint, less_or_equal_constraint, greater_or_equal_constraint. intros H.
  apply in_app_iff in H as [H|H]; revert H; apply inequality_clean; auto.
Qed.
Lemma two_clean p q u v : u <> v -> clean [(p, u); (q, v)].
Proof.
  intros N. apply clean_vars. cbn [map snd]. constructor; [|constructor; [intros []|constructor]]. intros [K|[]]; auto.
Qed.
Lemma three_clean p q r u v w : u <> v -> u <> w -> v <> w -> clean [(p, u); (q, v); (r, w)].
Proof.
  intros N1 N2 N3. apply clean_vars. cbn [map snd]. constructor; [intros [K|[K|[]]]; auto|]. constructor; [intros [K|[]]; auto|].
  constructor; [intros []|constructor].
Qed.

(* ---- unary mappings: the models are the relations with the properties asked for ---- *)
Definition is_mapping {A B} (m : unary_mapping A B) (r : A -> B -> bool) : Prop :=
  (um_complete m = true -> forall d, In d (um_domain m) -> exists e, In e (um_images m d) /\ r d e = true) /\
  (um_surjective m = true -> forall e, In e (um_range m) -> exists d, In d (um_counterimages m e) /\ r d e = true) /\
  (um_injective m = true -> forall e d d', In e (um_range m) -> In d (um_counterimages m e) -> In d' (um_counterimages m e) ->
     r d e = true -> r d' e = true -> d = d') /\
  (um_functional m = true -> forall d e e', In d (um_domain m) -> In e (um_images m d) -> In e' (um_images m d) ->
     r d e = true -> r d e' = true -> e = e') /\
  (um_nondecreasing m = true -> forall d d' e e', In (d, d') (pairs (um_domain m)) -> In e (um_images m d) -> In e' (um_images m d') ->
     r d e = true -> r d' e' = true -> um_rank m e <= um_rank m e').
Lemma unary_models {A B} (m : unary_mapping A B) a :
  (forall d, In d (um_domain m) -> NoDup (um_images m d)) -> (forall e, In e (um_range m) -> NoDup (um_counterimages m e)) ->
  (all_hold a (um_clauses m) <-> is_mapping m (fun d e => a (um_name m d e))).
Proof.
  intros N1 N2. unfold um_clauses, is_mapping. rewrite !all_hold_app, !all_hold_if, !all_hold_flat_map.
  assert (E1 : (forall d, In d (um_domain m) -> all_hold a (greater_or_equal_constraint (map (um_name m d) (um_images m d)) 1)) <->
    (forall d, In d (um_domain m) -> exists e, In e (um_images m d) /\ a (um_name m d e) = true)).
  { split; intros H d Hd; specialize (H d Hd); rewrite greater_or_equal_ok, how_many_map, how_many_ge1 in *; auto. }
  assert (E2 : (forall e, In e (um_range m) -> all_hold a (greater_or_equal_constraint (map (fun d => um_name m d e) (um_counterimages m e)) 1)) <->
    (forall e, In e (um_range m) -> exists d, In d (um_counterimages m e) /\ a (um_name m d e) = true)).
  { split; intros H d Hd; specialize (H d Hd); rewrite greater_or_equal_ok, how_many_map, how_many_ge1 in *; auto. }
  assert (E3 : (forall e, In e (um_range m) -> all_hold a (less_or_equal_constraint (map (fun d => um_name m d e) (um_counterimages m e)) 1)) <->
    (forall e d d', In e (um_range m) -> In d (um_counterimages m e) -> In d' (um_counterimages m e) ->
       a (um_name m d e) = true -> a (um_name m d' e) = true -> d = d')).
  { split.
    - intros H e d d' He. specialize (H e He). rewrite less_or_equal_ok, how_many_map, how_many_le1 in H by auto. auto.
    - intros H e He. rewrite less_or_equal_ok, how_many_map, how_many_le1 by auto. intros; eapply H; eauto. }
  assert (E4 : (forall d, In d (um_domain m) -> all_hold a (less_or_equal_constraint (map (um_name m d) (um_images m d)) 1)) <->
    (forall d e e', In d (um_domain m) -> In e (um_images m d) -> In e' (um_images m d) ->
       a (um_name m d e) = true -> a (um_name m d e') = true -> e = e')).
  { split.
    - intros H d e e' Hd. specialize (H d Hd). rewrite less_or_equal_ok, how_many_map, how_many_le1 in H by auto. auto.
    - intros H d Hd. rewrite less_or_equal_ok, how_many_map, how_many_le1 by auto. intros; eapply H; eauto. }
  match goal with |- context [pairs (um_domain m) -> all_hold a ?X] => idtac | _ => idtac end.
  rewrite E1, E2, E3, E4. clear E1 E2 E3 E4.
  match goal with |- (?P1 /\ ?P2 /\ ?P3 /\ ?P4 /\ ?P5) <-> (_ /\ _ /\ _ /\ _ /\ ?Q5) => assert (E5 : P5 <-> Q5); [|tauto] end.
  split.
  - intros H F d d' e e' Hp He He' R1 R2. specialize (H F (d, d') Hp). cbn [fst snd] in H. rewrite all_hold_flat_map in H.
    specialize (H e He). rewrite all_hold_flat_map in H. specialize (H e' He'). destruct (Z.ltb_spec (um_rank m e') (um_rank m e)); [|lia].
    specialize (H _ (or_introl eq_refl)). rewrite !holds_cons in H. destruct H as [H|[H|H]]; try congruence. destruct (holds_nil _ H).
  - intros H F [d d'] Hp. cbn [fst snd]. rewrite all_hold_flat_map. intros e He. rewrite all_hold_flat_map. intros e' He'.
    destruct (Z.ltb_spec (um_rank m e') (um_rank m e)) as [L|L]; [|intros c []]. intros c [<-|[]]. rewrite !holds_cons.
    destruct (a (um_name m d e)) eqn:R1; auto. destruct (a (um_name m d' e')) eqn:R2; auto.
    specialize (H F d d' e e' Hp He He' R1 R2). lia.
Qed.
Lemma unary_vars {A B} (m : unary_mapping A B) cl v :
  (forall e d, In e (um_range m) -> In d (um_counterimages m e) -> In d (um_domain m) /\ In e (um_images m d)) ->
  In cl (um_clauses m) -> In v (map snd cl) -> In v (um_variables m).
Proof.
  intros HG Hc Hv. unfold um_variables. rewrite in_flat_map.
  assert (G1 : forall d, In d (um_domain m) -> In v (map (um_name m d) (um_images m d)) -> exists x, In x (um_domain m) /\ In v (map (um_name m x) (um_images m x))) by eauto.
  assert (G2 : forall e, In e (um_range m) -> In v (map (fun d => um_name m d e) (um_counterimages m e)) -> exists x, In x (um_domain m) /\ In v (map (um_name m x) (um_images m x))).
  { intros e He H. apply in_map_iff in H as (d & <- & Hd). destruct (HG e d He Hd). exists d. split; auto. apply in_map. auto. }
  unfold um_clauses in Hc. repeat apply in_app_iff in Hc as [Hc|Hc].
  - destruct (um_complete m); [|destruct Hc]. apply in_flat_map in Hc as (d & Hd & Hc). eapply inequality_vars in Hc; eauto.
  - destruct (um_surjective m); [|destruct Hc]. apply in_flat_map in Hc as (d & Hd & Hc). eapply inequality_vars in Hc; eauto.
  - destruct (um_injective m); [|destruct Hc]. apply in_flat_map in Hc as (d & Hd & Hc). eapply inequality_vars in Hc; eauto.
  - destruct (um_functional m); [|destruct Hc]. apply in_flat_map in Hc as (d & Hd & Hc). eapply inequality_vars in Hc; eauto.
  - destruct (um_nondecreasing m); [|destruct Hc]. apply in_flat_map in Hc as ([d d'] & Hd & Hc). apply in_flat_map in Hc as (e & He & Hc).
    apply in_flat_map in Hc as (e' & He' & Hc). cbn [fst snd] in *. apply pairs_In in Hd as [D1 D2].
    destruct (_ <? _); [|destruct Hc]. destruct Hc as [<-|[]]. destruct Hv as [<-|[<-|[]]]; cbn [snd]; [exists d|exists d']; split; auto; apply in_map; auto.
Qed.
