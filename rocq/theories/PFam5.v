(* PFam5.v -- ordering principles *)
From Coq Require Import String Ascii ZArith List Bool Lia Arith Permutation.
From Verif Require Import Spec PyBase MSet MText MCnf MFam SpecCnf SpecFam PText PLib PCnf1 PCnf2 PFam1 PFam2 PFam3 PFam4.
Import ListNotations.
Open Scope Z_scope.

(* ---- finite relations without minimal element ---- *)
Definition no_minimum (l : list Z) (r : Z -> Z -> Prop) : Prop := forall v, In v l -> exists u, In u l /\ u <> v /\ r u v.
Lemma greatest (l : list Z) : l <> [] -> exists m, In m l /\ forall x, In x l -> x <= m.
Proof.
  induction l as [|x l IH]; [congruence|]. intros _. destruct l as [|y l].
  - exists x. split; [left; auto|]. intros z [<-|[]]. lia.
  - destruct IH as (m & Hm & G); [discriminate|]. destruct (Z.le_gt_cases x m).
    + exists m. split; [right; auto|]. intros z [<-|Hz]; auto.
    + exists x. split; [left; auto|]. intros z [<-|Hz]; [lia|]. specialize (G z Hz). lia.
Qed.
Lemma filter_length_le {A} (f : A -> bool) l : (List.length (filter f l) <= List.length l)%nat.
Proof. induction l as [|x l IH]; cbn [filter List.length]; [lia|]. destruct (f x); cbn [List.length]; lia. Qed.
Lemma remove_shorter (m : Z) l : In m l -> (List.length (filter (fun x => negb (x =? m)%Z) l) < List.length l)%nat.
Proof.
  induction l as [|x l IH]; [intros []|]. intros [->|H].
  - cbn [filter]. rewrite Z.eqb_refl. cbn [negb List.length]. pose proof (filter_length_le (fun x => negb (x =? m)) l). lia.
  - cbn [filter]. destruct (negb (x =? m)); cbn [List.length]; specialize (IH H); lia.
Qed.
(* transitivity through the greatest element is enough *)
Lemma no_order2 (r : Z -> Z -> Prop) : forall l, l <> [] ->
  (forall u v, In u l -> In v l -> u <> v -> r u v -> r v u -> False) ->
  (forall u v w, In u l -> In v l -> In w l -> u <> v -> v <> w -> u <> w -> u <= v -> w <= v -> r u v -> r v w -> r u w) ->
  no_minimum l r -> False.
Proof.
  intros l. remember (List.length l) as n eqn:E. revert l E. induction n as [n IH] using (well_founded_induction lt_wf). intros l E N A T M.
  destruct (greatest l N) as (m & Hm & G). destruct (M m Hm) as (p & Hp & Np & Rp).
  set (l' := filter (fun x => negb (x =? m)) l).
  assert (I : forall x, In x l' <-> In x l /\ x <> m).
  { intros x. unfold l'. rewrite filter_In, negb_true_iff, Z.eqb_neq. tauto. }
  apply (IH (List.length l')) with (l := l'); auto.
  - subst n. apply remove_shorter. auto.
  - intros K. assert (X : In p l') by (apply I; auto). rewrite K in X. destruct X.
  - intros u v Hu Hv. apply I in Hu as [Hu _]. apply I in Hv as [Hv _]. apply A; auto.
  - intros u v w Hu Hv Hw. apply I in Hu as [Hu _]. apply I in Hv as [Hv _]. apply I in Hw as [Hw _]. apply T; auto.
  - intros v Hv. apply I in Hv as [Hv Nv]. destruct (M v Hv) as (u & Hu & Nu & Ru). destruct (Z.eq_dec u m) as [->|].
    + exists p. split; [apply I; auto|]. assert (p <> v) by (intros ->; apply (A v m Hv Hm); auto). split; auto.
      apply (T p m v); auto.
    + exists u. split; [apply I; auto|]. auto.
Qed.
(* so is transitivity into the greatest element *)
Lemma no_order3 (r : Z -> Z -> bool) : forall l, l <> [] ->
  (forall u v, In u l -> In v l -> u <> v -> r u v = true -> r v u = true -> False) ->
  (forall u v w, In u l -> In v l -> In w l -> u <> v -> v <> w -> u <> w -> u <= w -> v <= w -> r u v = true -> r v w = true -> r u w = true) ->
  no_minimum l (fun u v => r u v = true) -> False.
Proof.
  intros l. remember (List.length l) as n eqn:E. revert l E. induction n as [n IH] using (well_founded_induction lt_wf). intros l E N A T M.
  destruct (greatest l N) as (m & Hm & G). destruct (M m Hm) as (p & Hp & Np & Rp).
  set (l' := filter (fun x => r x m) (filter (fun x => negb (x =? m)) l)).
  assert (I : forall x, In x l' <-> In x l /\ x <> m /\ r x m = true).
  { intros x. unfold l'. rewrite !filter_In, negb_true_iff, Z.eqb_neq. tauto. }
  apply (IH (List.length l')) with (l := l'); auto.
  - subst n. unfold l'. pose proof (filter_length_le (fun x => r x m) (filter (fun x => negb (x =? m)) l)). pose proof (remove_shorter m l Hm). lia.
  - intros K. assert (X : In p l') by (apply I; auto). rewrite K in X. destruct X.
  - intros u v Hu Hv. apply I in Hu as [Hu _]. apply I in Hv as [Hv _]. apply A; auto.
  - intros u v w Hu Hv Hw. apply I in Hu as [Hu _]. apply I in Hv as [Hv _]. apply I in Hw as [Hw _]. apply T; auto.
  - intros v Hv. apply I in Hv as (Hv & Nv & Rv). destruct (M v Hv) as (u & Hu & Nu & Ru).
    assert (u <> m) by (intros ->; apply (A v m Hv Hm); auto). exists u. split; auto. apply I. split; auto. split; auto. apply (T u v m); auto.
Qed.

(* ---- pairs and triples ---- *)
Lemma before_pairs {A} (l : list A) u v : comes_before l u v <-> In (u, v) (pairs l).
Proof. symmetry. apply pairs_nth. Qed.
Lemma pairs_one_way {A} (l : list A) u v : NoDup l -> In (u, v) (pairs l) -> ~ In (v, u) (pairs l).
Proof.
  intros N H1 H2. apply pairs_nth in H1 as (i & j & L & A1 & A2). apply pairs_nth in H2 as (i' & j' & L' & B1 & B2).
  assert (i = j') by (apply (proj1 (NoDup_nth_error l) N); [apply nth_error_Some; congruence|congruence]).
  assert (j = i') by (apply (proj1 (NoDup_nth_error l) N); [apply nth_error_Some; congruence|congruence]). lia.
Qed.
Lemma triples_pairs {A} (l : list A) x y z : In (x, y, z) (triples l) -> In (x, y) (pairs l) /\ In (y, z) (pairs l) /\ In (x, z) (pairs l).
Proof.
  induction l as [|u l IH]; cbn [triples pairs]; [intros []|]. intros H. apply in_app_iff in H as [H|H].
  - apply in_map_iff in H as ([p q] & E & H). cbn [fst snd] in E. injection E as <- <- <-. pose proof (pairs_In l p q H) as [Hp Hq].
    split; [apply in_app_iff; left; apply in_map; auto|]. split; apply in_app_iff; [right; auto|left; apply in_map; auto].
  - apply IH in H as (A1 & A2 & A3). split; [|split]; apply in_app_iff; auto.
Qed.
Lemma triples_total (l : list Z) x y z : In (x, y) (pairs l) -> In (y, z) (pairs l) -> In x l -> NoDup l -> In (x, y, z) (triples l).
Proof.
  induction l as [|u l IH]; cbn [triples pairs]; [intros []|]. intros H1 H2 _ N. inversion N as [|? ? N1 N2]; subst.
  apply in_app_iff. apply in_app_iff in H1 as [H1|H1].
  - apply in_map_iff in H1 as (p & E & H1). injection E as <- <-. left. apply in_map_iff. exists (p, z). split; auto.
    apply in_app_iff in H2 as [H2|H2]; auto. apply in_map_iff in H2 as (q & E & H2). injection E as <- <-. contradiction.
  - right. pose proof (pairs_In l x y H1) as [Hx Hy]. apply IH; auto. apply in_app_iff in H2 as [H2|H2]; auto.
    apply in_map_iff in H2 as (q & E & H2). injection E as <- <-. contradiction.
Qed.
Lemma selections_In {T} (l : list T) x rest : In (x, rest) (selections l) -> NoDup l -> In x l /\ (forall y, In y rest <-> In y l /\ y <> x) /\ NoDup rest.
Proof.
  revert x rest. induction l as [|u l IH]; intros x rest; cbn [selections]; [intros []|]. intros H N. inversion N as [|? ? N1 N2]; subst.
  destruct H as [H|H].
  - injection H as <- <-. split; [left; auto|]. split; auto. intros y. split; [intros Hy; split; [right; auto|intros ->; auto]|intros [[->|]]; tauto].
  - apply in_map_iff in H as ([y r] & E & H). cbn [fst snd] in E. injection E as <- <-. destruct (IH y r H N2) as (A & B & C).
    split; [right; auto|]. split.
    + intros z. split.
      * intros [<-|Hz]; [split; [left; auto|intros ->; auto]|]. apply B in Hz as [? ?]. split; auto. right; auto.
      * intros [[->|Hz] Nz]; [left; auto|right; apply B; auto].
    + constructor; auto. intros K. apply B in K as [K _]. auto.
Qed.
Lemma selections_total {A} (l : list A) x : In x l -> exists rest, In (x, rest) (selections l).
Proof.
  induction l as [|u l IH]; [intros []|]. cbn [selections]. intros [->|H].
  - exists l. left; auto.
  - destruct (IH H) as (r & Hr). exists (u :: r). right. apply in_map_iff. exists (x, r). auto.
Qed.
Lemma permutations2_In {T} (l : list T) x y : NoDup l -> (In (x, y) (permutations2 l) <-> In x l /\ In y l /\ x <> y).
Proof.
  intros N. unfold permutations2. rewrite in_flat_map. split.
  - intros ([u r] & Hs & H). cbn [fst snd] in H. apply in_map_iff in H as (v & E & Hv). injection E as <- <-.
    destruct (selections_In l u r Hs N) as (A & B & _). apply B in Hv as [? ?]. auto.
  - intros (Hx & Hy & N'). destruct (selections_total l x Hx) as (r & Hr). exists (x, r). split; auto. cbn [fst snd]. apply in_map.
    apply (selections_In l x r Hr N). auto.
Qed.
Lemma permutations3_In (l : list Z) x y z : NoDup l ->
  (In (x, y, z) (permutations3 l) <-> In x l /\ In y l /\ In z l /\ x <> y /\ y <> z /\ x <> z).
Proof.
  intros N. unfold permutations3. rewrite in_flat_map. split.
  - intros ([u r] & Hs & H). cbn [fst snd] in H. apply in_map_iff in H as ([v w] & E & Hv). cbn [fst snd] in E. injection E as <- <- <-.
    destruct (selections_In l u r Hs N) as (A & B & C). apply permutations2_In in Hv as (V1 & V2 & V3); auto. apply B in V1 as [? ?]. apply B in V2 as [? ?]. auto 8.
  - intros (Hx & Hy & Hz & N1 & N2 & N3). destruct (selections_total l x Hx) as (r & Hr). exists (x, r). split; auto. cbn [fst snd].
    apply in_map_iff. exists (y, z). split; auto. destruct (selections_In l x r Hr N) as (A & B & C). apply permutations2_In; auto.
    split; [apply B; auto|]. split; [apply B; auto|auto].
Qed.
Lemma has_edge_ok g u v : has_edge g u v = true <-> adjacent g u v.
Proof.
  unfold has_edge, adjacent. rewrite existsb_exists. split.
  - intros ([x y] & H & E). unfold is_edge in E. cbn [fst snd] in E. apply orb_true_iff in E as [E|E]; apply andb_true_iff in E as [E1 E2];
      apply Z.eqb_eq in E1, E2; subst; auto.
  - intros [H|H]; [exists (u, v)|exists (v, u)]; split; auto; unfold is_edge; cbn [fst snd]; rewrite !Z.eqb_refl; auto using orb_true_r.
Qed.

(* ---- clauses of the principle ---- *)
Definition ord_clauses (g : graph) (total smart plant : bool) (knuth : Z) : list (list (bool * text)) :=
  non_minimality_axioms g smart plant [] (g_nodes g) ++ transitivity_axioms total smart knuth (g_nodes g) ++ order_axioms total smart (g_nodes g).
Lemma nma_In g smart plant V : forall before cl, In cl (non_minimality_axioms g smart plant before V) <->
  exists l1 v l2, V = l1 ++ v :: l2 /\ (l2 = [] -> plant = false) /\ cl = non_minimality g smart (before ++ l1) v l2.
Proof.
  induction V as [|x V IH]; intros before cl; cbn [non_minimality_axioms].
  - split; [intros []|]. intros (l1 & v & l2 & E & _). destruct l1; discriminate.
  - assert (G : In cl (non_minimality_axioms g smart plant (before ++ [x]) V) <->
       exists l1 v l2, x :: V = l1 ++ v :: l2 /\ l1 <> [] /\ (l2 = [] -> plant = false) /\ cl = non_minimality g smart (before ++ l1) v l2).
    { rewrite IH. split.
      - intros (l1 & v & l2 & -> & P & ->). exists (x :: l1), v, l2. rewrite <- app_assoc. split; [auto|]. split; [discriminate|]. auto.
      - intros (l1 & v & l2 & E & N & P & ->). destruct l1 as [|y l1]; [congruence|]. cbn [app] in E. injection E as -> ->.
        exists l1, v, l2. rewrite <- app_assoc. auto. }
    destruct V as [|y V].
    + split.
      * destruct plant; [intros []|]. intros [<-|[]]. exists [], x, []. rewrite app_nil_r. auto.
      * intros (l1 & v & l2 & E & P & ->). destruct l1 as [|z l1]; [|destruct l1; discriminate]. cbn [app] in E. injection E as <- <-.
        rewrite P by auto. left. rewrite app_nil_r. auto.
    + cbn [In]. rewrite G. split.
      * intros [<-|(l1 & v & l2 & E & _ & P & ->)]; [|eauto 8]. exists [], x, (y :: V). rewrite app_nil_r. split; auto. split; [discriminate|auto].
      * intros (l1 & v & l2 & E & P & ->). destruct l1 as [|z l1].
        -- left. cbn [app] in E. injection E as -> <-. rewrite app_nil_r. auto.
        -- right. exists (z :: l1), v, l2. split; auto. split; [discriminate|auto].
Qed.
Lemma split_pairs (l1 l2 : list Z) v u : NoDup (l1 ++ v :: l2) -> (In (u, v) (pairs (l1 ++ v :: l2)) <-> In u l1) /\ (In (v, u) (pairs (l1 ++ v :: l2)) <-> In u l2).
Proof.
  induction l1 as [|x l1 IH]; cbn [app pairs]; intros N; inversion N as [|? ? N1 N2]; subst.
  - split; split; try (intros []); intros H.
    + apply in_app_iff in H as [H|H]; [apply in_map_iff in H as (? & E & H); injection E as <- <-; contradiction|]. apply pairs_In in H as [_ H]. contradiction.
    + apply in_app_iff in H as [H|H]; [apply in_map_iff in H as (? & E & H); injection E as <-; auto|]. apply pairs_In in H as [H _]. contradiction.
    + apply in_app_iff. left. apply in_map. auto.
  - destruct (IH N2) as [I1 I2]. assert (Nx : x <> v) by (intros ->; apply N1; apply in_app_iff; right; left; auto).
    assert (Hv : In v (l1 ++ v :: l2)) by (apply in_app_iff; right; left; auto).
    split; rewrite in_app_iff, ?I1, ?I2, in_map_iff; cbn [In]; split.
    + intros [(y & E & _)|]; [left; congruence|auto].
    + intros [->|]; [left; eauto|auto].
    + intros [(y & E & _)|]; [congruence|auto].
    + auto.
Qed.
Lemma last_split {A} (l1 l2 : list A) v d : NoDup (l1 ++ v :: l2) -> (l2 = [] <-> List.last (l1 ++ v :: l2) d = v).
Proof.
  intros N. split.
  - intros ->. apply last_last.
  - intros H. destruct l2 as [|x l2 _] using rev_ind; auto. exfalso.
    rewrite app_comm_cons, app_assoc, last_last in H. subst x. apply NoDup_remove_2 in N. apply N. rewrite app_assoc. apply in_app_iff. right; left; auto.
Qed.
Lemma nma_hold g smart plant a : simple_graph g ->
  (all_hold a (non_minimality_axioms g smart plant [] (g_nodes g)) <->
   forall v, In v (g_nodes g) -> (plant = true -> List.last (g_nodes g) 0 <> v) -> exists u, adjacent g u v /\ ordered_by smart (g_nodes g) a u v).
Proof.
  intros G. pose proof (sg_nodes g G) as N.
  assert (C : forall l1 v l2, g_nodes g = l1 ++ v :: l2 ->
    (clause_holds a (non_minimality g smart l1 v l2) <-> exists u, adjacent g u v /\ ordered_by smart (g_nodes g) a u v)).
  { intros l1 v l2 E. rewrite E in N. pose proof (fun u => proj1 (split_pairs l1 l2 v u N)) as P1. pose proof (fun u => proj2 (split_pairs l1 l2 v u N)) as P2.
    unfold non_minimality. rewrite holds_app.
    assert (X : forall u, adjacent g u v -> In u l1 \/ In u l2).
    { intros u A. pose proof (adjacent_neq g u v G A). destruct (adjacent_nodes g u v G A) as [Hu _]. rewrite E in Hu.
      apply in_app_iff in Hu as [?|[?|?]]; auto. congruence. }
    assert (F : forall l u, In u (filter (fun x => has_edge g v x) l) <-> In u l /\ adjacent g u v).
    { intros l u. rewrite filter_In, has_edge_ok, adjacent_sym. tauto. }
    unfold ordered_by. rewrite E. destruct smart.
    - rewrite !holds_map. split.
      + intros [(u & H & T)|(u & H & T)]; apply F in H as [H A]; exists u; (split; [auto|]); [left|right]; (split; [apply before_pairs; apply P1 || apply P2; auto|auto]).
      + intros (u & A & [[B T]|[B T]]); apply before_pairs in B.
        * left. exists u. split; auto. apply F. split; auto. apply P1; auto.
        * right. exists u. split; auto. apply F. split; auto. apply P2; auto.
    - rewrite !holds_map. split.
      + intros [(u & H & T)|(u & H & T)]; apply F in H as [H A]; exists u; auto.
      + intros (u & A & T). destruct (X u A); [left|right]; exists u; (split; [apply F; auto|auto]). }
  split.
  - intros H v Hv P. apply in_split in Hv as (l1 & l2 & E). apply (C l1 v l2 E). apply H. apply nma_In. exists l1, v, l2. split; auto. split; auto.
    intros L. destruct plant; auto. exfalso. apply P; auto. rewrite E in *. apply last_split; auto.
  - intros H cl Hc. apply nma_In in Hc as (l1 & v & l2 & E & P & ->). cbn [app]. apply (C l1 v l2 E). apply H.
    + rewrite E. apply in_app_iff. right; left; auto.
    + intros Hp L. rewrite E in *. apply last_split in L; auto. rewrite (P L) in Hp. discriminate.
Qed.

(* ---- transitivity, antisymmetry, totality ---- *)
Definition transitive3 (L : Z -> Z -> Prop) (x y z : Z) : Prop :=
  (L x y -> L y z -> L x z) /\ (L x z -> L z y -> L x y) /\ (L y x -> L x z -> L y z) /\
  (L y z -> L z x -> L y x) /\ (L z x -> L x y -> L z y) /\ (L z y -> L y x -> L z x).
Lemma transitive_triples (l : list Z) (L : Z -> Z -> Prop) : NoDup l ->
  ((forall u v w, In u l -> In v l -> In w l -> u <> v -> v <> w -> u <> w -> L u v -> L v w -> L u w) <->
   forall x y z, In (x, y, z) (triples l) -> transitive3 L x y z).
Proof.
  intros N. split.
  - intros H x y z T. apply triples_pairs in T as (A & B & C).
    pose proof (pairs_neq l x y N A). pose proof (pairs_neq l y z N B). pose proof (pairs_neq l x z N C).
    apply pairs_In in A as [? ?]. apply pairs_In in B as [? ?].
    repeat split; apply H; auto.
  - intros H u v w Hu Hv Hw N1 N2 N3.
    destruct (pairs_total l u v Hu Hv N1) as [A|A], (pairs_total l v w Hv Hw N2) as [B|B], (pairs_total l u w Hu Hw N3) as [C|C];
      match goal with
      | P : In (?x, ?y) (pairs l), Q : In (?y, ?z) (pairs l), R : In (?x, ?z) (pairs l) |- _ =>
          destruct (H x y z (triples_total l x y z P Q (proj1 (pairs_In l x y P)) N)) as (T1 & T2 & T3 & T4 & T5 & T6); auto
      | _ => exfalso
      end.
    + pose proof (triples_total l u v w A B Hu N) as T. apply triples_pairs in T as (_ & _ & T). apply (pairs_one_way l w u N C T).
    + pose proof (triples_total l w v u B A Hw N) as T. apply triples_pairs in T as (_ & _ & T). apply (pairs_one_way l u w N C T).
Qed.
Definition allowed (total smart : bool) (knuth u v w : Z) : Prop :=
  smart = true \/ total = true \/ (~ (knuth = 2 /\ (v < u \/ v < w)) /\ ~ (knuth = 3 /\ (w < u \/ w < v))).
Lemma two_hold {A} (a : A -> bool) p q x y : clause_holds a [(p, x); (q, y)] <-> a x = p \/ a y = q.
Proof. rewrite !holds_cons. split; [intros [?|[?|K]]; auto; destruct (holds_nil _ K)|tauto]. Qed.
Lemma three_hold {A} (a : A -> bool) p q s x y z : clause_holds a [(p, x); (q, y); (s, z)] <-> a x = p \/ a y = q \/ a z = s.
Proof. rewrite !holds_cons. split; [intros [?|[?|[?|K]]]; auto; destruct (holds_nil _ K)|tauto]. Qed.
Lemma all_two {A} (a : A -> bool) c d : all_hold a [c; d] <-> clause_holds a c /\ clause_holds a d.
Proof.
  unfold all_hold. split; [intros H; split; apply H; cbn; auto|]. intros [? ?] e [<-|[<-|[]]]; auto.
Qed.
Lemma all_one {A} (a : A -> bool) c : all_hold a [c] <-> clause_holds a c.
Proof. unfold all_hold. split; [intros H; apply H; cbn; auto|]. intros ? e [<-|[]]; auto. Qed.
Lemma smart_pair V a u v : NoDup V -> In (u, v) (pairs V) ->
  (ordered_by true V a u v <-> a (ord_name u v) = true) /\ (ordered_by true V a v u <-> a (ord_name u v) = false).
Proof.
  intros N P. pose proof (pairs_one_way V u v N P) as Q. unfold ordered_by. rewrite !before_pairs. unfold ord_name. tauto.
Qed.
Lemma order_hold V total smart knuth a : NoDup V -> let L := ordered_by smart V a in
  (all_hold a (transitivity_axioms total smart knuth V) /\ all_hold a (order_axioms total smart V) <->
   (forall u v, In u V -> In v V -> u <> v -> L u v -> L v u -> False) /\
   (total = true \/ smart = true -> forall u v, In u V -> In v V -> u <> v -> L u v \/ L v u) /\
   (forall u v w, In u V -> In v V -> In w V -> u <> v -> v <> w -> u <> w -> allowed total smart knuth u v w -> L u v -> L v w -> L u w)).
Proof.
  intros N L. unfold transitivity_axioms, order_axioms. destruct smart.
  - rewrite all_hold_flat_map.
    assert (T1 : forall u v, In u V -> In v V -> u <> v -> L u v -> L v u -> False).
    { intros u v Hu Hv Nq. destruct (pairs_total V u v Hu Hv Nq) as [P|P]; apply (smart_pair V a) in P as [P1 P2]; auto; fold L in P1, P2;
        rewrite P1, P2; congruence. }
    assert (T2 : forall u v, In u V -> In v V -> u <> v -> L u v \/ L v u).
    { intros u v Hu Hv Nq. destruct (pairs_total V u v Hu Hv Nq) as [P|P]; apply (smart_pair V a) in P as [P1 P2]; auto; fold L in P1, P2;
        rewrite P1, P2; destruct (a _); auto. }
    assert (T3 : (forall t : Z * Z * Z, In t (triples V) -> all_hold a (let '(v1, v2, v3) := t in
        [[(true, ord_name v1 v2); (true, ord_name v2 v3); (false, ord_name v1 v3)];
         [(false, ord_name v1 v2); (false, ord_name v2 v3); (true, ord_name v1 v3)]])) <->
        forall x y z, In (x, y, z) (triples V) -> transitive3 L x y z).
    { assert (Q : forall x y z, In (x, y, z) (triples V) -> (all_hold a
        [[(true, ord_name x y); (true, ord_name y z); (false, ord_name x z)];
         [(false, ord_name x y); (false, ord_name y z); (true, ord_name x z)]] <-> transitive3 L x y z)).
      { intros x y z T. apply triples_pairs in T as (A & B & C). apply (smart_pair V a) in A as [A1 A2]; auto. apply (smart_pair V a) in B as [B1 B2]; auto.
        apply (smart_pair V a) in C as [C1 C2]; auto. fold L in A1, A2, B1, B2, C1, C2. unfold transitive3. rewrite A1, A2, B1, B2, C1, C2.
        rewrite all_two, !three_hold. destruct (a (ord_name x y)), (a (ord_name y z)), (a (ord_name x z)); intuition congruence. }
      split; [intros H x y z T; apply Q, (H (x, y, z) T); auto|intros H [[x y] z] T; apply Q; auto]. }
    rewrite T3, <- transitive_triples by auto. split.
    + intros [H _]. split; auto. split; auto. intros u v w; intros. eauto.
    + intros (_ & _ & H). split; [|intros c []]. intros; eapply H with (v := v); eauto. left; auto.
  - rewrite all_hold_app, all_hold_map, all_hold_if.
    assert (O : (forall x : Z * Z, In x (pairs V) -> clause_holds a [(false, ord_name (fst x) (snd x)); (false, ord_name (snd x) (fst x))]) <->
                forall u v, In u V -> In v V -> u <> v -> L u v -> L v u -> False).
    { unfold L, ordered_by. split.
      - intros H u v Hu Hv Nq. destruct (pairs_total V u v Hu Hv Nq) as [P|P]; apply H, two_hold in P; cbn [fst snd] in P; unfold ord_name in P; intuition congruence.
      - intros H [u v] P. cbn [fst snd]. pose proof (pairs_neq V u v N P) as Nq. apply pairs_In in P as [Hu Hv]. specialize (H u v Hu Hv Nq). apply two_hold.
        unfold ord_name. destruct (a (name2 _ u v)); auto. destruct (a (name2 _ v u)); auto. exfalso; auto. }
    assert (O2 : all_hold a (map (fun vv => [(true, ord_name (fst vv) (snd vv)); (true, ord_name (snd vv) (fst vv))]) (pairs V)) <->
                 forall u v, In u V -> In v V -> u <> v -> L u v \/ L v u).
    { rewrite all_hold_map. unfold L, ordered_by. split.
      - intros H u v Hu Hv Nq. destruct (pairs_total V u v Hu Hv Nq) as [P|P]; apply H, two_hold in P; cbn [fst snd] in P; unfold ord_name in P; tauto.
      - intros H [u v] P. cbn [fst snd]. pose proof (pairs_neq V u v N P) as Nq. apply pairs_In in P as [Hu Hv]. apply two_hold. apply H; auto. }
    rewrite O, O2. destruct total.
    + assert (T3 : (forall u v, In u V -> In v V -> u <> v -> L u v -> L v u -> False) -> (forall u v, In u V -> In v V -> u <> v -> L u v \/ L v u) ->
        ((forall t : Z * Z * Z, In t (triples V) -> all_hold a (let '(v1, v2, v3) := t in
        [[(false, ord_name v1 v2); (false, ord_name v2 v3); (false, ord_name v3 v1)];
         [(false, ord_name v1 v3); (false, ord_name v3 v2); (false, ord_name v2 v1)]])) <->
        forall x y z, In (x, y, z) (triples V) -> transitive3 L x y z)).
      { intros AS TT. assert (Q : forall x y z, In (x, y, z) (triples V) -> (all_hold a
        [[(false, ord_name x y); (false, ord_name y z); (false, ord_name z x)];
         [(false, ord_name x z); (false, ord_name z y); (false, ord_name y x)]] <-> transitive3 L x y z)).
        { intros x y z T. apply triples_pairs in T as (A & B & C). pose proof (pairs_neq V x y N A) as X1. pose proof (pairs_neq V y z N B) as X2.
          pose proof (pairs_neq V x z N C) as X3. apply pairs_In in A as [Hx Hy]. apply pairs_In in B as [_ Hz].
          pose proof (AS x y Hx Hy X1) as S1. pose proof (AS y z Hy Hz X2) as S2. pose proof (AS x z Hx Hz X3) as S3.
          pose proof (TT x y Hx Hy X1) as R1. pose proof (TT y z Hy Hz X2) as R2. pose proof (TT x z Hx Hz X3) as R3.
          rewrite all_two, !three_hold. unfold transitive3, L, ordered_by, ord_name in *.
          assert (W : forall p q : bool, (p = true -> q = true -> False) -> (p = true \/ q = true) -> q = negb p) by (clear; intros [] [] ? [?|?]; auto; exfalso; auto).
          rewrite (W _ _ S1 R1), (W _ _ S2 R2), (W _ _ S3 R3). clear.
          destruct (a (name2 _ x y)), (a (name2 _ y z)), (a (name2 _ x z)); cbn [negb]; intuition congruence. }
        split; [intros H x y z T; apply Q, (H (x, y, z) T); auto|intros H [[x y] z] T; apply Q; auto]. }
      rewrite all_hold_flat_map. split.
      * intros (A & B & C). specialize (C eq_refl). split; auto. split; auto. intros u v w; intros.
        apply (proj2 (transitive_triples V L N) (proj1 (T3 B C) A)) with (v := v); auto.
      * intros (A & B & C). specialize (B (or_introl eq_refl)). split; [|split; auto]. apply T3; auto. apply transitive_triples; auto.
        intros; eapply C with (v := v); eauto. right; left; auto.
    + rewrite all_hold_flat_map.
      assert (Q : forall x y z, all_hold a (if (knuth =? 2) && ((y <? x) || (y <? z)) then []
        else if (knuth =? 3) && ((z <? x) || (z <? y)) then [] else [[(false, ord_name x y); (false, ord_name y z); (true, ord_name x z)]]) <->
        (allowed false false knuth x y z -> L x y -> L y z -> L x z)).
      { intros x y z.
        assert (AL : allowed false false knuth x y z <-> (knuth =? 2) && ((y <? x) || (y <? z)) = false /\ (knuth =? 3) && ((z <? x) || (z <? y)) = false).
        { unfold allowed. rewrite !andb_false_iff, !orb_false_iff, !Z.eqb_neq, !Z.ltb_ge. split.
          - intros [?|[?|[H1 H2]]]; try discriminate. split; lia.
          - intros [H1 H2]. right. right. split; lia. }
        rewrite AL. destruct (_ && _); [split; [intros _ [? _]; discriminate|intros _ c []]|]. destruct (_ && _); [split; [intros _ [_ ?]; discriminate|intros _ c []]|].
        rewrite all_one, three_hold. unfold L, ordered_by, ord_name. clear.
        destruct (a (name2 _ x y)), (a (name2 _ y z)), (a (name2 _ x z)); intuition congruence. }
      split.
      * intros (A & B & _). split; auto. split; [intros [?|?]; discriminate|]. intros u v w Hu Hv Hw N1 N2 N3.
        apply Q. apply (A (u, v, w)). apply permutations3_In; auto 8.
      * intros (A & _ & C). split; [|split; [auto|discriminate]]. intros [[u v] w] T. apply permutations3_In in T as (Hu & Hv & Hw & N1 & N2 & N3); auto.
        apply Q. intros; eapply C with (v := v); eauto.
Qed.

Lemma NoDup_app_remove_r {A} (l l' : list A) : NoDup (l ++ l') -> NoDup l.
Proof. induction l as [|x l IH]; cbn [app]; intros N; [constructor|]. inversion N as [|? ? N1 N2]; subst. constructor; auto. intros K. apply N1, in_app_iff. auto. Qed.
Lemma NoDup_app_remove_l {A} (l l' : list A) : NoDup (l ++ l') -> NoDup l'.
Proof. induction l as [|x l IH]; cbn [app]; intros N; auto. inversion N; auto. Qed.
(* ---- the formula is built ---- *)
Definition oname (p : Z * Z) : text := ord_name (fst p) (snd p).
Lemma oname_inj p q : oname p = oname q -> p = q.
Proof. destruct p, q. intros E. apply name2_inj in E as [A B]. cbn in A, B. congruence. Qed.
Lemma ord_clause g total smart plant knuth cl : simple_graph g -> In cl (ord_clauses g total smart plant knuth) ->
  exists ps, map snd cl = map oname ps /\ NoDup ps /\ incl ps (if smart then pairs (g_nodes g) else permutations2 (g_nodes g)).
Proof.
  intros G. pose proof (sg_nodes g G) as N. unfold ord_clauses.
  assert (P2 : forall u v, In u (g_nodes g) -> In v (g_nodes g) -> u <> v -> In (u, v) (permutations2 (g_nodes g))) by (intros; apply permutations2_In; auto).
  intros H. apply in_app_iff in H as [H|H]; [|apply in_app_iff in H as [H|H]].
  - apply nma_In in H as (l1 & v & l2 & E & _ & ->). cbn [app]. unfold non_minimality.
    set (f1 := filter (fun lo => has_edge g v lo) l1). set (f2 := filter (fun hi => has_edge g v hi) l2).
    exists (map (fun lo => (lo, v)) f1 ++ map (fun hi => if smart then (v, hi) else (hi, v)) f2). rewrite E in N.
    pose proof (NoDup_remove_2 _ _ _ N) as Nv. pose proof (NoDup_remove_1 _ _ _ N) as N12.
    assert (X : forall x, In x l1 -> ~ In x l2) by (intros x A B; revert N12 A B; clear; induction l1 as [|y l1 IH]; [intros _ []|]; cbn [app]; intros N; inversion N as [|? ? N1 N2]; subst; intros [->|A] B; [apply N1, in_app_iff; auto|apply IH; auto]).
    split; [|split].
    + rewrite !map_app, !map_map. f_equal. apply map_ext. intros. destruct smart; reflexivity.
    + apply NoDup_app_intro.
      * apply FinFun.Injective_map_NoDup; [intros x y K; congruence|]. apply NoDup_filter. apply NoDup_app_remove_r in N12. auto.
      * apply FinFun.Injective_map_NoDup; [intros x y K; destruct smart; congruence|]. apply NoDup_filter. apply NoDup_app_remove_l in N12. auto.
      * intros p A B. apply in_map_iff in A as (x & <- & A). apply in_map_iff in B as (y & K & B). apply filter_In in A as [A _]. apply filter_In in B as [B _].
        destruct smart; [injection K as ? ?|injection K as ?]; subst; [apply Nv, in_app_iff; auto|apply (X x A B)].
    + intros p Hp. apply in_app_iff in Hp as [Hp|Hp]; apply in_map_iff in Hp as (x & <- & Hx); apply filter_In in Hx as [Hx _].
      * destruct smart; [rewrite E; apply split_pairs; auto|]. apply P2; rewrite ?E; try (apply in_app_iff; auto); [right; left; auto|].
        intros ->. apply Nv, in_app_iff; auto.
      * destruct smart; [rewrite E; apply split_pairs; auto|]. apply P2; rewrite ?E; try (apply in_app_iff; auto); [right; right; auto|right; left; auto|].
        intros ->. apply Nv, in_app_iff; auto.
  - assert (Q : forall l : list (Z * Z), NoDup l -> incl l (if smart then pairs (g_nodes g) else permutations2 (g_nodes g)) -> map snd cl = map oname l ->
      exists ps, map snd cl = map oname ps /\ NoDup ps /\ incl ps (if smart then pairs (g_nodes g) else permutations2 (g_nodes g))) by eauto.
    assert (D3 : forall p q r : Z * Z, p <> q -> p <> r -> q <> r -> NoDup [p; q; r]).
    { intros. constructor; [cbn; intuition|]. constructor; [cbn; intuition|]. constructor; [intros []|constructor]. }
    unfold transitivity_axioms in H. destruct smart; [|destruct total]; apply in_flat_map in H as ([[x y] z] & T & H).
    + apply triples_pairs in T as (A & B & C). apply (Q [(x, y); (y, z); (x, z)]).
      * pose proof (pairs_neq _ _ _ N A). pose proof (pairs_neq _ _ _ N B). apply D3; congruence.
      * intros p [<-|[<-|[<-|[]]]]; auto.
      * destruct H as [<-|[<-|[]]]; reflexivity.
    + apply triples_pairs in T as (A & B & C). pose proof (pairs_neq _ _ _ N A). pose proof (pairs_neq _ _ _ N B). pose proof (pairs_neq _ _ _ N C).
      apply pairs_In in A as [Hx Hy]. apply pairs_In in B as [_ Hz]. destruct H as [<-|[<-|[]]].
      * apply (Q [(x, y); (y, z); (z, x)]); [apply D3; congruence| |reflexivity]. intros p [<-|[<-|[<-|[]]]]; auto.
      * apply (Q [(x, z); (z, y); (y, x)]); [apply D3; congruence| |reflexivity]. intros p [<-|[<-|[<-|[]]]]; auto.
    + apply permutations3_In in T as (Hx & Hy & Hz & N1 & N2 & N3); auto. destruct (_ && _) in H; [destruct H|]. destruct (_ && _) in H; [destruct H|].
      destruct H as [<-|[]]. apply (Q [(x, y); (y, z); (x, z)]); [apply D3; congruence| |reflexivity]. intros p [<-|[<-|[<-|[]]]]; auto.
  - unfold order_axioms in H. destruct smart; [destruct H|].
    assert (Y : exists x y p, In (x, y) (pairs (g_nodes g)) /\ cl = [(p, ord_name x y); (p, ord_name y x)]).
    { apply in_app_iff in H as [H|H]; [|destruct total; [|destruct H]]; apply in_map_iff in H as ([x y] & <- & H); eauto. }
    destruct Y as (x & y & p & P & ->). pose proof (pairs_neq _ _ _ N P). apply pairs_In in P as [Hx Hy]. exists [(x, y); (y, x)]. split; auto. split.
    + constructor; [cbn; intuition congruence|]. constructor; [intros []|constructor].
    + intros q [<-|[<-|[]]]; auto.
Qed.
Lemma ord_built g total smart plant knuth : simple_graph g ->
  exists c, GraphOrderingPrinciple g total smart plant knuth = Ok c /\ made c /\ cnf_clauses c = ord_clauses g total smart plant knuth.
Proof.
  intros G. destruct (build_strict (map oname (if smart then pairs (g_nodes g) else permutations2 (g_nodes g))) (ord_clauses g total smart plant knuth)) as (c & A & B & C & _).
  - intros cl Hc. destruct (ord_clause _ _ _ _ _ _ G Hc) as (ps & E & N & _). apply clean_vars. rewrite E.
    apply FinFun.Injective_map_NoDup; auto. intros p q. apply oname_inj.
  - intros cl v Hc Hv. destruct (ord_clause _ _ _ _ _ _ G Hc) as (ps & E & _ & I). rewrite E in Hv. apply in_map_iff in Hv as (p & <- & Hp). apply in_map. auto.
  - eauto.
Qed.
Lemma ord_models g total smart plant knuth a : simple_graph g -> let V := g_nodes g in let L := ordered_by smart V a in
  (all_hold a (ord_clauses g total smart plant knuth) <->
   (forall u v, In u V -> In v V -> u <> v -> L u v -> L v u -> False) /\
   (total = true \/ smart = true -> forall u v, In u V -> In v V -> u <> v -> L u v \/ L v u) /\
   (forall u v w, In u V -> In v V -> In w V -> u <> v -> v <> w -> u <> w -> allowed total smart knuth u v w -> L u v -> L v w -> L u w) /\
   (forall v, In v V -> (plant = true -> List.last V 0 <> v) -> exists u, adjacent g u v /\ L u v)).
Proof.
  intros G V L. unfold ord_clauses. rewrite !all_hold_app, nma_hold by auto. fold V. fold L. rewrite (order_hold V total smart knuth a (sg_nodes g G)).
  fold L. tauto.
Qed.

(* ---- which graphs allow an order ---- *)
Lemma linked_nodes g u v : simple_graph g -> linked g u v -> In v (g_nodes g) -> In u (g_nodes g).
Proof. intros G H Hv. inversion H as [|? w ? A]; subst; auto. apply (adjacent_nodes g u w G A). Qed.
Fixpoint layer (g : graph) (root : Z) (n : nat) : list Z :=
  match n with
  | O => [root]
  | S n' => layer g root n' ++ filter (fun v => existsb (fun u => has_edge g v u) (layer g root n')) (g_nodes g)
  end.
Lemma layer_mono g root n m v : (n <= m)%nat -> In v (layer g root n) -> In v (layer g root m).
Proof. induction 1; auto. intros Hv. cbn [layer]. apply in_app_iff. auto. Qed.
Lemma layer_linked g root v : simple_graph g -> In root (g_nodes g) -> linked g v root -> exists n, In v (layer g root n).
Proof.
  intros G R H. induction H as [v|u v w A H IH]; [exists 0%nat; left; auto|]. destruct (IH R) as (n & Hn). exists (S n). cbn [layer].
  apply in_app_iff. right. apply filter_In. split; [apply (adjacent_nodes g u v G A)|]. apply existsb_exists. exists v. split; auto. apply has_edge_ok. auto.
Qed.
Definition depth (g : graph) (root : Z) (bound : nat) (v : Z) : nat :=
  match find (fun n => zmem v (layer g root n)) (seq 0 (S bound)) with Some n => n | None => bound end.
Lemma find_first (p : nat -> bool) s k n : find p (seq s k) = Some n -> p n = true /\ (forall m, (s <= m < n)%nat -> p m = false) /\ (s <= n < s + k)%nat.
Proof.
  revert s. induction k as [|k IH]; intros s; cbn [seq find]; [discriminate|]. destruct (p s) eqn:E.
  - intros K. injection K as <-. split; auto. split; [intros; lia|lia].
  - intros K. apply IH in K as (A & B & C). split; auto. split; [|lia]. intros m Hm. destruct (Nat.eq_dec m s) as [->|]; auto. apply B. lia.
Qed.
Lemma depth_ok g root bound v : In v (layer g root bound) ->
  In v (layer g root (depth g root bound v)) /\ forall m, (m < depth g root bound v)%nat -> ~ In v (layer g root m).
Proof.
  intros H. unfold depth. destruct (find _ _) as [n|] eqn:E.
  - apply find_first in E as (A & B & _). split; [apply zmem_In; auto|]. intros m Hm K. apply zmem_In in K. rewrite B in K by lia. discriminate.
  - exfalso. pose proof (find_none _ _ E bound) as K. rewrite in_seq in K. specialize (K ltac:(lia)). cbv beta in K. apply zmem_In in H. congruence.
Qed.
Lemma depth_root g root bound : depth g root bound root = 0%nat.
Proof. unfold depth. cbn [seq find layer zmem]. rewrite Z.eqb_refl. auto. Qed.
Lemma depth_parent g root bound v : simple_graph g -> In v (layer g root bound) -> v <> root ->
  exists u, adjacent g u v /\ (depth g root bound u < depth g root bound v)%nat.
Proof.
  intros G H N. destruct (depth_ok g root bound v H) as [A B].
  assert (Z0 : depth g root bound v <> 0%nat) by (intros K; rewrite K in A; destruct A as [A|[]]; auto).
  assert (LE : (depth g root bound v <= bound)%nat).
  { destruct (le_lt_dec (depth g root bound v) bound); auto. exfalso. apply (B bound); auto. }
  remember (depth g root bound v) as d eqn:E. destruct d as [|d]; [congruence|].
  cbn [layer] in A. apply in_app_iff in A as [A|A]; [exfalso; apply (B d); auto|]. apply filter_In in A as [_ A]. apply existsb_exists in A as (u & Hu & A).
  apply has_edge_ok in A. exists u. split; [apply adjacent_sym; auto|].
  assert (Hu' : In u (layer g root bound)) by (apply (layer_mono g root d bound); [lia|auto]).
  destruct (depth_ok g root bound u Hu') as [_ C]. destruct (le_lt_dec (depth g root bound u) d); [lia|]. exfalso. apply (C d); auto.
Qed.
Definition closer (g : graph) (root : Z) (bound : nat) (u v : Z) : bool :=
  (Nat.ltb (depth g root bound u) (depth g root bound v)) ||
  (Nat.eqb (depth g root bound u) (depth g root bound v) && (u <? v)).
Lemma closer_spec g root bound u v : closer g root bound u v = true <->
  (depth g root bound u < depth g root bound v)%nat \/ (depth g root bound u = depth g root bound v /\ u < v).
Proof. unfold closer. rewrite orb_true_iff, andb_true_iff, Nat.ltb_lt, Nat.eqb_eq, Z.ltb_lt. tauto. Qed.
Lemma order_from_root g total smart knuth : simple_graph g -> (forall v, In v (g_nodes g) -> linked g v (List.last (g_nodes g) 0)) ->
  has_model (ord_clauses g total smart true knuth).
Proof.
  intros G H. set (V := g_nodes g) in *. set (root := List.last V 0) in *.
  assert (B : exists bound, forall v, In v V -> In v (layer g root bound)).
  { assert (K : forall l, incl l V -> exists bound, forall v, In v l -> In v (layer g root bound)); [|apply K, incl_refl].
    induction l as [|x l IH]; intros I; [exists 0%nat; intros ? []|]. destruct IH as (b & Hb); [intros y Hy; apply I; right; auto|].
    assert (R : In root V).
    { unfold root. destruct V as [|y V' _] using rev_ind; [destruct (I x (or_introl eq_refl))|]. rewrite last_last. apply in_app_iff. right; left; auto. }
    destruct (layer_linked g root x G R) as (n & Hn); [apply H, I; left; auto|]. exists (max b n). intros v [<-|Hv].
    - apply (layer_mono g root n); [lia|auto].
    - apply (layer_mono g root b); [lia|auto]. }
  destruct B as (bound & B). set (f := fun p : Z * Z => closer g root bound (fst p) (snd p)).
  exists (values oname (list_prod V V) f). apply ord_models; auto. fold V.
  assert (VV : forall u v, In u V -> In v V -> values oname (list_prod V V) f (ord_name u v) = closer g root bound u v).
  { intros u v Hu Hv. apply (values_at oname (list_prod V V) f (u, v)).
    - intros q _ E. apply oname_inj in E. subst. auto.
    - apply in_prod; auto. }
  assert (LL : forall u v, In u V -> In v V -> u <> v -> (ordered_by smart V (values oname (list_prod V V) f) u v <-> closer g root bound u v = true)).
  { intros u v Hu Hv N. unfold ordered_by. destruct smart.
    - pose proof (VV u v Hu Hv) as E1. pose proof (VV v u Hv Hu) as E2. unfold ord_name in E1, E2. rewrite E1, E2, !before_pairs.
      assert (E3 : closer g root bound v u = false <-> closer g root bound u v = true).
      { rewrite <- not_true_iff_false, !closer_spec. lia. }
      rewrite E3. destruct (pairs_total V u v Hu Hv N) as [P|P]; pose proof (pairs_one_way V _ _ (sg_nodes g G) P); tauto.
    - pose proof (VV u v Hu Hv) as E1. unfold ord_name in E1. rewrite E1. tauto. }
  split; [|split; [|split]].
  - intros u v Hu Hv N. rewrite !LL, !closer_spec by auto. lia.
  - intros _ u v Hu Hv N. rewrite !LL, !closer_spec by auto. lia.
  - intros u v w Hu Hv Hw N1 N2 N3 _. rewrite !LL, !closer_spec by auto. lia.
  - intros v Hv P. specialize (P eq_refl). destruct (depth_parent g root bound v G (B v Hv)) as (u & A & D); [unfold root; auto|].
    exists u. split; auto. apply LL; auto; [apply (adjacent_nodes g u v G A)|apply (adjacent_neq g u v G A)|]. apply closer_spec. auto.
Qed.
Lemma no_order g total smart plant knuth a (l : list Z) : simple_graph g -> all_hold a (ord_clauses g total smart plant knuth) ->
  incl l (g_nodes g) -> l <> [] -> (forall v, In v l -> exists u, In u l /\ u <> v /\ ordered_by smart (g_nodes g) a u v) -> False.
Proof.
  intros G H I N M. destruct (proj1 (ord_models g total smart plant knuth a G) H) as (A & _ & T & _). set (V := g_nodes g) in *. set (L := ordered_by smart V a) in *.
  destruct smart; [|destruct total; [|destruct (Z.eq_dec knuth 3) as [K|K]]].
  - apply (no_order2 L l N); [intros u v Hu Hv; apply A; auto| |exact M]. intros u v w Hu Hv Hw N1 N2 N3 _ _. apply T; auto. left; auto.
  - apply (no_order2 L l N); [intros u v Hu Hv; apply A; auto| |exact M]. intros u v w Hu Hv Hw N1 N2 N3 _ _. apply T; auto. right; left; auto.
  - apply (no_order3 (fun u v => a (ord_name u v)) l N); [intros u v Hu Hv; apply A; auto| |exact M].
    intros u v w Hu Hv Hw N1 N2 N3 X1 X2. apply T; auto. right; right. split; lia.
  - apply (no_order2 L l N); [intros u v Hu Hv; apply A; auto| |exact M]. intros u v w Hu Hv Hw N1 N2 N3 X1 X2. apply T; auto. right; right. split; lia.
Qed.
Lemma grow_component g (P : Z -> Prop) v : simple_graph g -> In v (g_nodes g) ->
  (forall l, NoDup l -> incl l (g_nodes g) -> In v l -> (forall u w, In u l -> adjacent g u w -> In w l) -> exists x, In x l /\ P x) ->
  exists x, linked g v x /\ P x.
Proof.
  intros G Hv H.
  assert (K : forall n l, (List.length (g_nodes g) - List.length l <= n)%nat -> NoDup l -> incl l (g_nodes g) -> In v l -> (forall u, In u l -> linked g v u) ->
    exists x, linked g v x /\ P x).
  { induction n as [n IH] using (well_founded_induction lt_wf). intros l Hn N I Hl C.
    destruct (forallb (fun u => forallb (fun w => zmem w l) (neighbors g u)) l) eqn:E.
    - destruct (H l N I Hl) as (x & Hx & Px); [|exists x; auto]. intros u w Hu A. rewrite forallb_forall in E. specialize (E u Hu). rewrite forallb_forall in E.
      apply zmem_In. apply E. apply neighbors_In; auto.
    - assert (X : exists u w, In u l /\ adjacent g u w /\ ~ In w l).
      { clear -E G. assert (Y : exists u, In u l /\ forallb (fun w => zmem w l) (neighbors g u) = false).
        { revert E. generalize l at 2 3. intros m. induction m as [|x m IH]; cbn [forallb]; [discriminate|]. intros E. destruct (forallb _ (neighbors g x)) eqn:F.
          - destruct (IH E) as (u & Hu & K). exists u. split; auto. right; auto.
          - exists x. split; auto. left; auto. }
        destruct Y as (u & Hu & F). assert (Y : exists w, In w (neighbors g u) /\ zmem w l = false).
        { revert F. generalize (neighbors g u) as m. induction m as [|x m IH]; cbn [forallb]; [discriminate|]. intros F. destruct (zmem x l) eqn:Z1.
          - destruct (IH F) as (w & Hw & K). exists w. split; auto. right; auto.
          - exists x. split; auto. left; auto. }
        destruct Y as (w & Hw & Z1). exists u, w. split; auto. split; [apply neighbors_In; auto|]. apply zmem_false. auto. }
      destruct X as (u & w & Hu & A & Nw). assert (Hw : In w (g_nodes g)) by (apply (adjacent_nodes g u w G A)).
      assert (L : (S (List.length l) <= List.length (g_nodes g))%nat).
      { change (S (List.length l)) with (List.length (w :: l)). apply (@NoDup_incl_length _ (w :: l)); [constructor; auto|]. intros x [<-|Hx]; auto. }
      apply (IH (List.length (g_nodes g) - List.length (w :: l))%nat) with (l := w :: l); auto.
      + cbn [List.length]. lia.
      + constructor; auto.
      + intros x [<-|Hx]; auto.
      + right; auto.
      + intros x [<-|Hx]; auto. specialize (C u Hu). clear -A C. induction C; econstructor; eauto. constructor. }
  apply (K (List.length (g_nodes g)) [v]); [lia| | | |].
  - constructor; [intros []|constructor].
  - intros x [<-|[]]; auto.
  - left; auto.
  - intros u [<-|[]]. constructor.
Qed.
Lemma ord_satisfiable g total smart plant knuth : simple_graph g ->
  (has_model (ord_clauses g total smart plant knuth) <->
   forall v, In v (g_nodes g) -> plant = true /\ linked g v (List.last (g_nodes g) 0)).
Proof.
  intros G. split.
  - intros (a & H) v Hv. pose proof (proj1 (ord_models g total smart plant knuth a G) H) as (_ & _ & _ & M).
    assert (PT : plant = true).
    { destruct plant; auto. exfalso. apply (no_order g total smart false knuth a (g_nodes g) G H); [apply incl_refl|intros K; rewrite K in Hv; destruct Hv|].
      intros u Hu. destruct (M u Hu) as (w & A & L); [discriminate|]. exists w. split; [apply (adjacent_nodes g w u G A)|]. split; auto. apply (adjacent_neq g w u G A). }
    split; auto. destruct (grow_component g (fun x => x = List.last (g_nodes g) 0) v G Hv) as (x & Lx & ->); auto.
    intros l Nl I Hl C. destruct (in_dec Z.eq_dec (List.last (g_nodes g) 0) l) as [K|K]; [eauto|]. exfalso.
    apply (no_order g total smart plant knuth a l G H I); [intros E; rewrite E in Hl; destruct Hl|].
    intros u Hu. destruct (M u (I u Hu)) as (w & A & L); [intros _ E; subst u; auto|]. exists w. split; [apply (C u); auto; apply adjacent_sym; auto|].
    split; auto. apply (adjacent_neq g w u G A).
  - intros H. destruct plant.
    + apply order_from_root; auto. intros v Hv. apply H; auto.
    + destruct (g_nodes g) as [|v V] eqn:E; [|destruct (H v); [left; auto|discriminate]].
      exists (fun _ => true). apply ord_models; auto. rewrite E. cbn. repeat split; intros; tauto.
Qed.
(* the complete graph *)
Lemma complete_simple n : simple_graph (complete_graph n).
Proof.
  constructor; cbn [complete_graph g_nodes g_edges].
  - apply range_NoDup.
  - assert (K : forall l : list Z, NoDup l -> NoDup (pairs l)); [|apply K, range_NoDup]. induction 1 as [|x l Nx N IH]; cbn [pairs]; [constructor|].
    apply NoDup_app_intro; auto; [apply FinFun.Injective_map_NoDup; auto; intros ? ?; congruence|].
    intros p A B. apply in_map_iff in A as (y & <- & _). apply pairs_In in B as [B _]. auto.
  - intros u v. apply pairs_one_way, range_NoDup.
  - intros u v H. apply pairs_In in H. auto.
Qed.
Lemma complete_adjacent n u v : 0 <= u < n -> 0 <= v < n -> u <> v -> adjacent (complete_graph n) u v.
Proof. intros Hu Hv N. unfold adjacent. cbn [complete_graph g_edges]. apply pairs_total; auto; apply range_In; auto. Qed.
Lemma op_satisfiable n total smart plant knuth :
  has_model (ord_clauses (complete_graph n) total smart plant knuth) <-> (0 < n -> plant = true).
Proof.
  rewrite ord_satisfiable by apply complete_simple. cbn [complete_graph g_nodes]. split.
  - intros H K. apply (H 0). apply range_In. lia.
  - intros H v Hv. apply range_In in Hv. split; [apply H; lia|].
    assert (L : 0 <= List.last (range 0 n) 0 < n).
    { assert (Hl : In (List.last (range 0 n) 0) (range 0 n)); [|apply range_In in Hl; auto].
      assert (R : range 0 n <> []) by (rewrite range_cons by lia; discriminate). destruct (range 0 n) as [|x l _] using rev_ind; [congruence|].
      rewrite last_last. apply in_app_iff. right; left; auto. }
    destruct (Z.eq_dec v (List.last (range 0 n) 0)) as [->|N]; [constructor|]. econstructor; [|constructor]. apply complete_adjacent; auto.
Qed.
