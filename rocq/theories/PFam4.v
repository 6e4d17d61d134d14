(* PFam4.v -- counting principle, perfect matchings *)
From Coq Require Import String Ascii ZArith NArith List Bool Lia Arith Permutation Sorted.
From Verif Require Import Spec PyBase MSet MText MCnf MFam SpecCnf SpecFam PText PLib PCnf1 PCnf2 PFam1 PFam2 PFam3.
Import ListNotations.
Open Scope Z_scope.

(* ---- sums ---- *)
Definition total {A} (f : A -> Z) (l : list A) : Z := fold_right (fun x s => f x + s) 0 l.
Lemma total_cons {A} (f : A -> Z) x l : total f (x :: l) = f x + total f l.
Proof. reflexivity. Qed.
Lemma total_ext {A} (f g : A -> Z) l : (forall x, In x l -> f x = g x) -> total f l = total g l.
Proof. induction l as [|x l IH]; intros H; auto. rewrite !total_cons, H, IH; auto; [intros; apply H; right; auto|left; auto]. Qed.
Lemma total_const {A} (c : Z) (l : list A) : total (fun _ => c) l = c * Z.of_nat (List.length l).
Proof. induction l as [|x l IH]; [cbn; lia|]. rewrite total_cons, IH. cbn [List.length]. lia. Qed.
Lemma total_add {A} (f g : A -> Z) l : total (fun x => f x + g x) l = total f l + total g l.
Proof. induction l as [|x l IH]; auto. rewrite !total_cons, IH. lia. Qed.
Lemma how_many_total {A} (a : A -> bool) l : how_many a l = total (fun x => if a x then 1 else 0) l.
Proof. induction l as [|x l IH]; auto. rewrite how_many_cons, IH. auto. Qed.
Lemma total_swap {A B} (f : A -> B -> Z) l l' : total (fun x => total (f x) l') l = total (fun y => total (fun x => f x y) l) l'.
Proof.
  induction l as [|x l IH].
  - cbn [total fold_right]. induction l' as [|y l' IH']; auto.
  - rewrite total_cons, IH, <- total_add. apply total_ext. auto.
Qed.
Lemma total_filter {A} (f : A -> Z) (p : A -> bool) l : total f (filter p l) = total (fun x => if p x then f x else 0) l.
Proof. induction l as [|x l IH]; auto. cbn [filter]. rewrite total_cons. destruct (p x); rewrite ?total_cons; lia. Qed.
Lemma how_many_filter {A} (a p : A -> bool) l : how_many a (filter p l) = how_many (fun x => p x && a x) l.
Proof. induction l as [|x l IH]; auto. cbn [filter]. rewrite how_many_cons. destruct (p x); cbn [andb]; rewrite ?how_many_cons; lia. Qed.
Lemma how_many_sub {A} (dec : forall x y : A, {x = y} + {x <> y}) (a : A -> bool) (l s : list A) : NoDup l -> NoDup s -> incl s l ->
  (forall x, In x l -> (a x = true <-> In x s)) -> how_many a l = Z.of_nat (List.length s).
Proof.
  intros N1 N2 I H. unfold how_many. f_equal. apply Permutation_length. apply NoDup_Permutation; auto.
  - apply NoDup_filter. auto.
  - intros x. rewrite filter_In. split; [intros [A1 A2]; apply H; auto|intros K; split; [auto|apply H; auto]].
Qed.

(* ---- subsets of an interval as increasing lists ---- *)
Lemma range_cons a b : a < b -> range a b = a :: range (a + 1) b.
Proof.
  intros H. unfold range. replace (Z.to_nat (b - a)) with (S (Z.to_nat (b - (a + 1)))) by lia. cbn [seq map]. f_equal; [lia|].
  rewrite <- seq_shift, map_map. apply map_ext. intros; lia.
Qed.
Lemma range_nil a b : b <= a -> range a b = [].
Proof. intros H. unfold range. replace (Z.to_nat (b - a)) with 0%nat by lia. auto. Qed.
Lemma sorted_NoDup_lt l : StronglySorted Z.lt l -> NoDup l.
Proof. induction 1 as [|x l S IH F]; constructor; auto. intros K. rewrite Forall_forall in F. specialize (F x K). lia. Qed.
Lemma combinations_sorted l k s : StronglySorted Z.lt l -> (In s (combinations l k) <-> StronglySorted Z.lt s /\ List.length s = k /\ incl s l).
Proof.
  intros H. revert k s. induction H as [|x l S IH F]; intros [|k] s; cbn [combinations].
  - split; [intros [<-|[]]; repeat split; auto; [constructor|intros ? []]|]. intros (_ & L & _). destruct s; [left; auto|discriminate].
  - split; [intros []|]. intros (_ & L & I). destruct s as [|y s]; [discriminate|]. destruct (I y (or_introl eq_refl)).
  - split; [intros [<-|[]]; repeat split; auto; [constructor|intros ? []]|]. intros (_ & L & _). destruct s; [left; auto|discriminate].
  - rewrite in_app_iff, in_map_iff. split.
    + intros [(u & <- & Hu)|Hs].
      * apply IH in Hu as (A & B & C). split; [constructor; auto; rewrite Forall_forall in *; intros y Hy; apply F; auto|].
        split; [cbn; lia|]. intros y [<-|Hy]; [left; auto|right; auto].
      * apply IH in Hs as (A & B & C). split; auto. split; auto. intros y Hy; right; auto.
    + intros (A & B & C). destruct s as [|y s]; [discriminate|]. inversion A as [|? ? A1 A2]; subst. destruct (C y (or_introl eq_refl)) as [->|Hy].
      * left. exists s. split; auto. apply IH. split; auto. split; [cbn in B; lia|]. intros z Hz.
        destruct (C z (or_intror Hz)) as [->|]; auto. rewrite Forall_forall in A2. specialize (A2 z Hz). lia.
      * right. apply IH. split; auto. split; auto. intros z [<-|Hz]; auto. destruct (C z (or_intror Hz)) as [->|]; auto.
        rewrite Forall_forall in A2, F. specialize (A2 z Hz). specialize (F y Hy). lia.
Qed.
Lemma range_sorted a b : StronglySorted Z.lt (range a b).
Proof.
  remember (Z.to_nat (b - a)) as n eqn:E. revert a E. induction n as [|n IH]; intros a E.
  - rewrite range_nil by lia. constructor.
  - rewrite range_cons by lia. constructor; [apply IH; lia|]. apply Forall_forall. intros x Hx. apply range_In in Hx. lia.
Qed.
Lemma NoDup_app_intro {A} (l l' : list A) : NoDup l -> NoDup l' -> (forall x, In x l -> ~ In x l') -> NoDup (l ++ l').
Proof.
  intros N N' H. induction N as [|x l Nx N IH]; auto. cbn [app]. constructor.
  - intros K. apply in_app_iff in K as [K|K]; auto. apply (H x); auto. left; auto.
  - apply IH. intros y Hy. apply H. right; auto.
Qed.
Lemma combinations_distinct {A} (l : list A) k : NoDup l -> NoDup (combinations l k).
Proof.
  intros N. revert k. induction N as [|x l Nx N IH]; intros [|k]; cbn [combinations]; try (constructor; [intros []|constructor]); try constructor.
  apply NoDup_app_intro; auto.
  - apply FinFun.Injective_map_NoDup; [intros u v E; congruence|auto].
  - intros s Hs K. apply in_map_iff in Hs as (u & <- & _). apply Nx. apply (combinations_incl l (S k) (x :: u)); auto. left; auto.
Qed.

(* ---- names of parts ---- *)
Lemma str_Z_nonempty z : str_Z z <> [].
Proof. intros E. pose proof (py_int_str z) as H. rewrite E in H. discriminate. Qed.
Lemma join_str_inj (l l' : list Z) : List.length l = List.length l' -> join (txt ",") (map str_Z l) = join (txt ",") (map str_Z l') -> l = l'.
Proof.
  revert l'. induction l as [|x l IH]; intros [|y l'] L E; cbn [List.length] in L; try discriminate; auto.
  assert (C : forall z, ~ In ","%char (str_Z z)) by (intros; apply str_Z_no; left; reflexivity).
  destruct l as [|x2 l], l' as [|y2 l']; cbn [List.length] in L; try discriminate.
  - cbn [map join] in E. apply str_Z_inj in E. congruence.
  - change (join (txt ",") (map str_Z (x :: x2 :: l))) with (str_Z x ++ ","%char :: join (txt ",") (map str_Z (x2 :: l))) in E.
    change (join (txt ",") (map str_Z (y :: y2 :: l'))) with (str_Z y ++ ","%char :: join (txt ",") (map str_Z (y2 :: l'))) in E.
    apply split_first in E as [E1 E2]; auto. apply str_Z_inj in E1. f_equal; auto.
Qed.
Lemma part_name_inj l l' : List.length l = List.length l' -> part_name l = part_name l' -> l = l'.
Proof.
  intros L E. unfold part_name in E. apply app_inv_head in E. apply app_inv_tail in E. apply join_str_inj; auto.
Qed.
Lemma NoDup_map_in {A B} (f : A -> B) l : NoDup l -> (forall x y, In x l -> In y l -> f x = f y -> x = y) -> NoDup (map f l).
Proof.
  intros N I. induction N as [|x l Nx N IH]; cbn [map]; constructor.
  - intros K. apply in_map_iff in K as (y & E & Hy). assert (y = x) by (apply I; auto; [right|left]; auto). subst. contradiction.
  - apply IH. intros; apply I; auto; right; auto.
Qed.

(* ---- counting principle ---- *)
Definition counting_clauses (M p : Z) : list (list (bool * text)) :=
  flat_map (fun el => equal_to_constraint (map part_name (filter (zmem el) (combinations (range 0 M) (Z.to_nat p)))) 1) (range 0 M).
Lemma parts_NoDup el M p : NoDup (filter (zmem el) (combinations (range 0 M) p)).
Proof. apply NoDup_filter, combinations_distinct, range_NoDup. Qed.
Lemma parts_names_NoDup el M p : NoDup (map part_name (filter (zmem el) (combinations (range 0 M) p))).
Proof.
  apply NoDup_map_in; [apply parts_NoDup|]. intros x y Hx Hy E. apply filter_In in Hx as [Hx _]. apply filter_In in Hy as [Hy _].
  apply combinations_length in Hx. apply combinations_length in Hy. apply part_name_inj; congruence.
Qed.
Lemma counting_built M p : 0 <= p -> exists c, CountingPrinciple M p = Ok c /\ made c /\ cnf_clauses c = counting_clauses M p.
Proof.
  intros Hp. unfold CountingPrinciple, py_combinations. destruct (Z.ltb_spec p 0); [lia|]. cbn [bind].
  destruct (build_plain (counting_clauses M p)) as (c & A & B & C & _); [|eauto].
  intros cl Hc. unfold counting_clauses in Hc. apply in_flat_map in Hc as (el & _ & Hc). eapply equal_clean; eauto. apply parts_names_NoDup.
Qed.
Lemma counting_models M p a :
  all_hold a (counting_clauses M p) <->
  forall el, 0 <= el < M -> how_many (fun S => zmem el S && a (part_name S)) (combinations (range 0 M) (Z.to_nat p)) = 1.
Proof.
  unfold counting_clauses. rewrite all_hold_flat_map.
  assert (E : forall el, all_hold a (equal_to_constraint (map part_name (filter (zmem el) (combinations (range 0 M) (Z.to_nat p)))) 1) <->
    how_many (fun S => zmem el S && a (part_name S)) (combinations (range 0 M) (Z.to_nat p)) = 1).
  { intros el. rewrite equal_to_ok, how_many_map, how_many_filter. tauto. }
  split; intros H el Hel; apply E, H; apply range_In; auto; apply range_In in Hel; auto.
Qed.
Lemma counting_divides M p a : 0 <= M -> 0 <= p ->
  (forall el, 0 <= el < M -> how_many (fun S => zmem el S && a (part_name S)) (combinations (range 0 M) (Z.to_nat p)) = 1) -> (p | M).
Proof.
  intros HM Hp H. set (parts := combinations (range 0 M) (Z.to_nat p)) in *. exists (how_many (fun S => a (part_name S)) parts).
  transitivity (total (fun el => how_many (fun S => zmem el S && a (part_name S)) parts) (range 0 M)).
  - transitivity (total (fun _ : Z => 1) (range 0 M)); [rewrite total_const, range_length; lia|]. apply total_ext. intros el Hel. apply range_In in Hel. rewrite H; auto; lia.
  - transitivity (total (fun el => total (fun S => if zmem el S && a (part_name S) then 1 else 0) parts) (range 0 M)).
    { apply total_ext. intros. apply how_many_total. }
    rewrite total_swap. rewrite how_many_total.
    transitivity (total (fun S => (if a (part_name S) then 1 else 0) * p) parts).
    + apply total_ext. intros S HS. destruct (a (part_name S)).
      * transitivity (how_many (fun el => zmem el S) (range 0 M)).
        { rewrite how_many_total. apply total_ext. intros. rewrite andb_true_r. auto. }
        rewrite (how_many_sub Z.eq_dec _ _ S); [| | | |intros; apply zmem_In].
        -- apply combinations_length in HS. lia.
        -- apply range_NoDup.
        -- eapply combinations_NoDup; eauto. apply range_NoDup.
        -- intros x Hx. eapply combinations_incl; eauto.
      * transitivity (total (fun _ : Z => 0) (range 0 M)); [apply total_ext; intros; rewrite andb_false_r; auto|]. rewrite total_const. lia.
    + clear. induction parts as [|x l IH]; auto. rewrite !total_cons, IH. lia.
Qed.
Lemma range_part p q : 0 <= p -> List.length (range (p * q) (p * q + p)) = Z.to_nat p.
Proof. intros. rewrite range_length. f_equal. lia. Qed.
Lemma counting_solution k p : 0 < p -> 0 <= k -> has_model (counting_clauses (k * p) p).
Proof.
  intros Hp Hk. set (parts := combinations (range 0 (k * p)) (Z.to_nat p)).
  set (f := fun S => if list_eq_dec Z.eq_dec S (range (p * (hd 0 S / p)) (p * (hd 0 S / p) + p)) then true else false).
  exists (values part_name parts f). apply counting_models. intros el Hel. fold parts.
  assert (V : forall S, In S parts -> values part_name parts f (part_name S) = f S).
  { intros S HS. apply values_at; auto. intros T HT E. unfold parts in *. apply combinations_length in HS. apply combinations_length in HT.
    rewrite (part_name_inj T S); congruence. }
  rewrite (how_many_ext _ (fun S => zmem el S && f S)) by (intros S HS; rewrite V; auto).
  apply how_many_1; [apply combinations_distinct, range_NoDup|].
  set (q := el / p). assert (Q : p * q <= el < p * q + p) by (unfold q; pose proof (Z.div_mod el p); pose proof (Z.mod_pos_bound el p); lia).
  assert (Q0 : 0 <= q < k) by (unfold q; split; [apply Z.div_pos; lia|apply Z.div_lt_upper_bound; lia]).
  assert (HH : forall q', 0 < p -> hd 0 (range (p * q') (p * q' + p)) = p * q') by (intros; rewrite range_cons by lia; auto).
  exists (range (p * q) (p * q + p)). split; [|split].
  - apply combinations_sorted; [apply range_sorted|]. split; [apply range_sorted|]. split; [apply range_part; lia|].
    intros x Hx. apply range_In in Hx. apply range_In. nia.
  - apply andb_true_iff. split; [apply zmem_In, range_In; lia|]. unfold f. rewrite HH by lia.
    replace (p * q / p) with q by (rewrite Z.mul_comm, Z.div_mul; lia). destruct (list_eq_dec _ _ _); auto.
  - intros S HS E. apply andb_true_iff in E as [E1 E2]. apply zmem_In in E1. unfold f in E2. destruct (list_eq_dec _ _ _) as [E3|]; [|discriminate].
    set (q' := hd 0 S / p) in *. rewrite E3 in E1. apply range_In in E1. assert (q' = q) by nia. congruence.
Qed.
Lemma counting_satisfiable M p : 0 <= M -> 0 <= p -> (has_model (counting_clauses M p) <-> (p | M)).
Proof.
  intros HM Hp. split.
  - intros (a & Ha). rewrite counting_models in Ha. eapply counting_divides; eauto.
  - intros (k & ->). destruct (Z.eq_dec p 0) as [->|].
    + rewrite Z.mul_0_r. exists (fun _ => true). apply counting_models. intros; lia.
    + apply counting_solution; [lia|]. nia.
Qed.

(* ---- graphs ---- *)
Lemma no_loop g v : simple_graph g -> ~ In (v, v) (g_edges g).
Proof. intros G H. apply (sg_once g G v v H H). Qed.
Lemma adjacent_sym g u v : adjacent g u v <-> adjacent g v u.
Proof. unfold adjacent. tauto. Qed.
Lemma adjacent_neq g u v : simple_graph g -> adjacent g u v -> u <> v.
Proof. intros G [H|H] ->; apply (no_loop g v G H). Qed.
Lemma adjacent_nodes g u v : simple_graph g -> adjacent g u v -> In u (g_nodes g) /\ In v (g_nodes g).
Proof. intros G [H|H]; apply (sg_ends g G) in H; tauto. Qed.
Lemma neighbors_In g u v : simple_graph g -> (In u (neighbors g v) <-> adjacent g v u).
Proof.
  intros G. unfold neighbors. rewrite sorted_In, in_flat_map. unfold adjacent. split.
  - intros ([x y] & He & H). cbn [fst snd] in H. destruct (Z.eqb_spec x v) as [->|].
    + destruct H as [<-|[]]. auto.
    + destruct (Z.eqb_spec y v) as [->|]; [|destruct H]. destruct H as [<-|[]]. auto.
  - intros [H|H].
    + exists (v, u). split; auto. cbn [fst snd]. rewrite Z.eqb_refl. left; auto.
    + exists (u, v). split; auto. cbn [fst snd]. rewrite Z.eqb_refl. destruct (Z.eqb_spec u v) as [->|]; left; auto.
Qed.
Lemma neighbors_NoDup g v : simple_graph g -> NoDup (neighbors g v).
Proof.
  intros G. apply sorted_NoDup.
  assert (K : forall es, NoDup es -> incl es (g_edges g) ->
    NoDup (flat_map (fun e => if fst e =? v then [snd e] else if snd e =? v then [fst e] else []) es)); [|apply K; [apply G|apply incl_refl]].
  induction es as [|[x y] es IH]; intros N I; cbn [flat_map]; [constructor|]. inversion N as [|? ? N1 N2]; subst.
  assert (I2 : incl es (g_edges g)) by (intros e He; apply I; right; auto). specialize (IH N2 I2). cbn [fst snd].
  assert (X : In (x, y) (g_edges g)) by (apply I; left; auto).
  destruct (Z.eqb_spec x v) as [->|Nx]; [|destruct (Z.eqb_spec y v) as [->|Ny]; auto].
  - cbn [app]. constructor; auto. intros K. apply in_flat_map in K as ([x' y'] & He & K). cbn [fst snd] in K.
    destruct (Z.eqb_spec x' v) as [->|]; [destruct K as [->|[]]; auto|]. destruct (Z.eqb_spec y' v) as [->|]; [|destruct K]. destruct K as [->|[]].
    apply (sg_once g G v y X). apply I2. auto.
  - cbn [app]. constructor; auto. intros K. apply in_flat_map in K as ([x' y'] & He & K). cbn [fst snd] in K.
    destruct (Z.eqb_spec x' v) as [->|]; [destruct K as [->|[]]; apply (sg_once g G x v X); apply I2; auto|].
    destruct (Z.eqb_spec y' v) as [->|]; [|destruct K]. destruct K as [->|[]]; auto.
Qed.
Lemma edge_name_sym u v : edge_name u v = edge_name v u.
Proof. unfold edge_name. destruct (Z.leb_spec u v), (Z.leb_spec v u); auto; try lia. assert (u = v) by lia. subst. auto. Qed.
Lemma edge_name_inj u v u' v' : edge_name u v = edge_name u' v' -> (u = u' /\ v = v') \/ (u = v' /\ v = u').
Proof.
  unfold edge_name. destruct (Z.leb_spec u v), (Z.leb_spec u' v'); intros E; apply name2_inj in E; lia.
Qed.
Definition matching_clauses (g : graph) : list (list (bool * text)) :=
  flat_map (fun v => equal_to_constraint (map (fun u => edge_name u v) (neighbors g v)) 1) (g_nodes g).
Lemma incident_names g v : simple_graph g -> NoDup (map (fun u => edge_name u v) (neighbors g v)).
Proof.
  intros G. apply NoDup_map_in; [apply neighbors_NoDup; auto|]. intros x y _ _ E. apply edge_name_inj in E. lia.
Qed.
Lemma matching_built g : simple_graph g -> exists c, PerfectMatchingPrinciple g = Ok c /\ made c /\ cnf_clauses c = matching_clauses g.
Proof.
  intros G. destruct (build_plain (matching_clauses g)) as (c & A & B & C & _); [|eauto].
  intros cl Hc. apply in_flat_map in Hc as (v & _ & Hc). eapply equal_clean; eauto. apply incident_names. auto.
Qed.
Lemma matching_models g a : simple_graph g ->
  (all_hold a (matching_clauses g) <->
   forall v, In v (g_nodes g) -> exists u, adjacent g v u /\ a (edge_name v u) = true /\
     forall w, adjacent g v w -> a (edge_name v w) = true -> w = u).
Proof.
  intros G. unfold matching_clauses. rewrite all_hold_flat_map.
  assert (E : forall v, all_hold a (equal_to_constraint (map (fun u => edge_name u v) (neighbors g v)) 1) <->
     exists u, adjacent g v u /\ a (edge_name v u) = true /\ forall w, adjacent g v w -> a (edge_name v w) = true -> w = u).
  { intros v. rewrite equal_to_ok, how_many_map, how_many_1 by (apply neighbors_NoDup; auto). split.
    - intros (u & Hu & E & U). apply neighbors_In in Hu; auto. exists u. split; auto. rewrite edge_name_sym. split; auto.
      intros w Hw. rewrite edge_name_sym. apply U. apply neighbors_In; auto.
    - intros (u & Hu & E & U). exists u. split; [apply neighbors_In; auto|]. rewrite edge_name_sym. split; auto.
      intros w Hw. rewrite edge_name_sym. apply U. apply neighbors_In in Hw; auto. }
  split; intros H v Hv; apply E; auto.
Qed.
Lemma matching_satisfiable g : simple_graph g ->
  (has_model (matching_clauses g) <->
   exists mate : Z -> Z, forall v, In v (g_nodes g) -> adjacent g v (mate v) /\ mate (mate v) = v).
Proof.
  intros G. split.
  - intros (a & Ha). rewrite matching_models in Ha by auto.
    destruct (choose_function (g_nodes g) (fun v u => adjacent g v u /\ a (edge_name v u) = true /\
      forall w, adjacent g v w -> a (edge_name v w) = true -> w = u) (sg_nodes g G) Ha) as (m & Hm).
    exists m. intros v Hv. destruct (Hm v Hv) as (A & B & C). split; auto.
    destruct (adjacent_nodes g v (m v) G A) as [_ Hw]. destruct (Hm _ Hw) as (A' & B' & C'). symmetry. apply C'; [apply adjacent_sym; auto|].
    rewrite edge_name_sym. auto.
  - intros (m & Hm). set (f := fun e : Z * Z => (m (fst e) =? snd e)).
    exists (values (fun e => edge_name (fst e) (snd e)) (g_edges g) f). apply matching_models; auto.
    assert (V : forall u v, adjacent g u v -> values (fun e => edge_name (fst e) (snd e)) (g_edges g) f (edge_name u v) = (m u =? v)).
    { assert (S : forall u v, adjacent g u v -> (m u =? v) = (m v =? u)).
      { intros u v A. destruct (adjacent_nodes g u v G A) as [Hu Hv]. destruct (Hm u Hu) as [_ E1], (Hm v Hv) as [_ E2].
        destruct (Z.eqb_spec (m u) v), (Z.eqb_spec (m v) u); auto; congruence. }
      assert (W : forall u v, In (u, v) (g_edges g) -> values (fun e => edge_name (fst e) (snd e)) (g_edges g) f (edge_name u v) = (m u =? v)).
      { intros u v H. apply (values_at (fun e => edge_name (fst e) (snd e)) (g_edges g) f (u, v)); auto.
        intros [x y] Hxy E. cbn [fst snd] in *. unfold f. cbn [fst snd]. apply edge_name_inj in E as [[-> ->]|[-> ->]]; auto. apply S. right. auto. }
      intros u v [H|H]; auto. rewrite edge_name_sym, (W v u H). apply S. left; auto. }
    intros v Hv. destruct (Hm v Hv) as [A B]. exists (m v). split; auto. rewrite V by auto. split; [apply Z.eqb_refl|].
    intros w Hw. rewrite V by auto. intros E. apply Z.eqb_eq in E. auto.
Qed.
(* an involution without fixed points pairs the elements up *)
Lemma involution_even (l : list Z) (m : Z -> Z) : NoDup l -> (forall v, In v l -> In (m v) l /\ m v <> v /\ m (m v) = v) -> Nat.Even (List.length l).
Proof.
  remember (List.length l) as n eqn:E. revert l E. induction n as [n IH] using (well_founded_induction lt_wf). intros l E N H.
  destruct l as [|x l]; [subst; exists 0%nat; auto|]. destruct (H x (or_introl eq_refl)) as ([K|Hm] & A & B); [exfalso; auto|].
  apply in_split in Hm as (l1 & l2 & El). inversion N as [|? ? N1 N2]; subst.
  pose proof (NoDup_remove_1 _ _ _ N2) as N3. pose proof (NoDup_remove_2 _ _ _ N2) as N4.
  assert (I : forall v, In v (l1 ++ l2) -> In v (l1 ++ m x :: l2)).
  { intros v Hv. apply in_app_iff in Hv as [?|?]; apply in_app_iff; [auto|right; right; auto]. }
  destruct (IH (List.length (l1 ++ l2))) with (l := l1 ++ l2) as (k & Hk); auto.
  - cbn [List.length]. rewrite !app_length. cbn [List.length]. lia.
  - intros v Hv. destruct (H v (or_intror (I v Hv))) as (A1 & A2 & A3). split; auto. destruct A1 as [A1|A1].
    + exfalso. apply N4. rewrite A1, A3. auto.
    + apply in_app_iff in A1 as [A1|[A1|A1]]; try (apply in_app_iff; auto). exfalso. apply N1.
      assert (v = x) by congruence. subst v. auto.
  - exists (S k). cbn [List.length]. rewrite !app_length in *. cbn [List.length]. lia.
Qed.
Lemma matching_even g : simple_graph g -> has_model (matching_clauses g) -> Nat.Even (List.length (g_nodes g)).
Proof.
  intros G H. apply matching_satisfiable in H as (m & Hm); auto. apply (involution_even _ m); [apply G|].
  intros v Hv. destruct (Hm v Hv) as [A B]. split; [apply (adjacent_nodes g v _ G A)|]. split; auto.
  intros K. apply (adjacent_neq g v (m v) G A). auto.
Qed.
