(* PFam6.v -- Ramsey numbers, Pythagorean triples, clique-colouring *)
From Coq Require Import String Ascii ZArith List Bool Lia Arith Permutation Sorted.
From Verif Require Import Spec PyBase MSet MText MCnf MFam SpecCnf SpecFam PText PLib PCnf1 PCnf2 PFam1 PFam2 PFam3 PFam4 PFam5.
Import ListNotations.
Open Scope Z_scope.

(* ---- pairs of increasing lists ---- *)
Lemma pairs_sorted l u v : StronglySorted Z.lt l -> (In (u, v) (pairs l) <-> In u l /\ In v l /\ u < v).
Proof.
  induction 1 as [|x l S IH F]; cbn [pairs]; [split; [intros []|intros ([] & _)]|]. rewrite Forall_forall in F. rewrite in_app_iff, in_map_iff, IH. cbn [In]. split.
  - intros [(y & E & Hy)|(A & B & C)]; [injection E as <- <-; auto|auto].
  - intros (A & B & C). destruct A as [->|A].
    + destruct B as [->|B]; [lia|]. left. eauto.
    + destruct B as [->|B]; [specialize (F u A); lia|]. auto.
Qed.
Lemma pairs_NoDup {A} (l : list A) : NoDup l -> NoDup (pairs l).
Proof.
  induction 1 as [|x l Nx N IH]; cbn [pairs]; [constructor|]. apply NoDup_app_intro; auto; [apply FinFun.Injective_map_NoDup; auto; intros ? ?; congruence|].
  intros p A1 B. apply in_map_iff in A1 as (y & <- & _). apply pairs_In in B as [B _]. auto.
Qed.
Definition ename (e : Z * Z) : text := edge_var e.
Lemma edge_var_inj e e' : edge_var e = edge_var e' -> e = e'.
Proof. destruct e, e'. intros E. apply name2_inj in E as [A B]. cbn in A, B. congruence. Qed.

(* ---- Ramsey ---- *)
Definition ramsey_clauses (s k N : Z) : list (list (bool * text)) :=
  map (fun S => map (fun e => (true, edge_var e)) (pairs S)) (combinations (range 1 (N + 1)) (Z.to_nat s)) ++
  map (fun S => map (fun e => (false, edge_var e)) (pairs S)) (combinations (range 1 (N + 1)) (Z.to_nat k)).
Lemma same_polarity {A} p (f : A -> text) l : (forall x y, f x = f y -> x = y) -> NoDup l -> clean (map (fun x => (p, f x)) l).
Proof. intros I N. apply clean_vars. rewrite map_map. apply FinFun.Injective_map_NoDup; auto. Qed.
Lemma subset_pairs (l S : list Z) k e : StronglySorted Z.lt l -> In S (combinations l k) -> In e (pairs S) -> In e (pairs l).
Proof.
  intros L H He. apply combinations_sorted in H as (A & _ & I); auto. destruct e as [u v]. apply pairs_sorted in He as (Hu & Hv & C); auto. apply pairs_sorted; auto.
Qed.
Lemma ramsey_built s k N : 0 <= s -> 0 <= k -> exists c, RamseyLowerBoundFormula s k N = Ok c /\ made c /\ cnf_clauses c = ramsey_clauses s k N.
Proof.
  intros Hs Hk. unfold RamseyLowerBoundFormula, py_combinations. destruct (Z.ltb_spec s 0); [lia|]. destruct (Z.ltb_spec k 0); [lia|]. cbn [bind].
  assert (SS : forall b S, In S (combinations (range 1 (N + 1)) b) -> StronglySorted Z.lt S).
  { intros b S H2. apply combinations_sorted in H2; [tauto|apply range_sorted]. }
  destruct (build_strict (map edge_var (pairs (range 1 (N + 1)))) (ramsey_clauses s k N)) as (c & A & B & C & _); [| |eauto].
  - intros cl Hc. apply in_app_iff in Hc as [Hc|Hc]; apply in_map_iff in Hc as (S & <- & HS); apply same_polarity; try apply edge_var_inj;
      apply pairs_NoDup, sorted_NoDup_lt; eauto.
  - intros cl v Hc Hv. apply in_app_iff in Hc as [Hc|Hc]; apply in_map_iff in Hc as (S & <- & HS); rewrite map_map in Hv; cbn [snd] in Hv;
      apply in_map_iff in Hv as (e & <- & He); apply in_map; eapply subset_pairs; eauto; apply range_sorted.
Qed.
Lemma ramsey_models s k N a : 0 <= s -> 0 <= k ->
  (all_hold a (ramsey_clauses s k N) <->
   forall S, StronglySorted Z.lt S -> (forall x, In x S -> 1 <= x <= N) ->
     (Z.of_nat (List.length S) = s -> exists u v, In u S /\ In v S /\ u < v /\ a (edge_var (u, v)) = true) /\
     (Z.of_nat (List.length S) = k -> exists u v, In u S /\ In v S /\ u < v /\ a (edge_var (u, v)) = false)).
Proof.
  intros Hs Hk. unfold ramsey_clauses. rewrite all_hold_app, !all_hold_map.
  assert (C : forall p S, StronglySorted Z.lt S -> (clause_holds a (map (fun e => (p, edge_var e)) (pairs S)) <->
     exists u v, In u S /\ In v S /\ u < v /\ a (edge_var (u, v)) = p)).
  { intros p S SS. rewrite holds_map. split.
    - intros ([u v] & He & T). apply pairs_sorted in He as (Hu & Hv & L); auto. exists u, v. auto.
    - intros (u & v & Hu & Hv & L & T). exists (u, v). split; auto. apply pairs_sorted; auto. }
  assert (K : forall j S, 0 <= j -> (In S (combinations (range 1 (N + 1)) (Z.to_nat j)) <->
        StronglySorted Z.lt S /\ Z.of_nat (List.length S) = j /\ (forall x, In x S -> 1 <= x <= N))).
  { intros j S Hj. rewrite combinations_sorted by apply range_sorted. split; intros (A & B & D); split; auto; split; try lia.
    - intros x Hx. specialize (D x Hx). apply range_In in D. lia.
    - intros x Hx. apply range_In. specialize (D x Hx). lia. }
  split.
  - intros [A B] S SS I. split; intros L; apply C; auto; [apply A|apply B]; apply K; auto.
  - intros H. split; intros S HS; apply K in HS as (A & B & D); auto; apply C; auto; apply (H S A D); auto.
Qed.
(* an assignment is a graph: satisfiable iff some graph on 1..N has neither *)
Lemma ramsey_satisfiable s k N : 0 <= s -> 0 <= k ->
  (has_model (ramsey_clauses s k N) <->
   exists r : Z -> Z -> bool, forall S, StronglySorted Z.lt S -> (forall x, In x S -> 1 <= x <= N) ->
     (Z.of_nat (List.length S) = s -> exists u v, In u S /\ In v S /\ u < v /\ r u v = true) /\
     (Z.of_nat (List.length S) = k -> exists u v, In u S /\ In v S /\ u < v /\ r u v = false)).
Proof.
  intros Hs Hk. split.
  - intros (a & H). rewrite ramsey_models in H by auto. exists (fun u v => a (edge_var (u, v))). auto.
  - intros (r & H). set (dom := list_prod (range 1 (N + 1)) (range 1 (N + 1))). exists (values edge_var dom (fun e => r (fst e) (snd e))).
    apply ramsey_models; auto.
    assert (V : forall u v, 1 <= u <= N -> 1 <= v <= N -> values edge_var dom (fun e => r (fst e) (snd e)) (edge_var (u, v)) = r u v).
    { intros u v Hu Hv. apply (values_at edge_var dom (fun e => r (fst e) (snd e)) (u, v)).
      - intros y _ E. apply edge_var_inj in E. subst. auto.
      - apply in_prod; apply range_In; lia. }
    intros S SS I. destruct (H S SS I) as [A B]. split; intros L; [destruct (A L) as (u & v & Hu & Hv & X & T)|destruct (B L) as (u & v & Hu & Hv & X & T)];
      exists u, v; rewrite V by auto; auto.
Qed.

(* ---- Pythagorean triples ---- *)
Lemma sqrt2 : forall n x z, (Z.to_nat x <= n)%nat -> 0 <= x -> 0 <= z -> x ^ 2 + x ^ 2 = z ^ 2 -> x = 0.
Proof.
  induction n as [|n IH]; intros x z L Hx Hz E; [lia|]. destruct (Z.eq_dec x 0); auto. exfalso.
  assert (E2 : 2 * (x * x) = z * z) by nia.
  assert (Zev : Z.even z = true).
  { assert (Z.even (z * z) = true) by (rewrite <- E2, Z.even_mul; auto). rewrite Z.even_mul in H. destruct (Z.even z); auto. }
  apply Z.even_spec in Zev as (w & ->).
  assert (E3 : x * x = 2 * (w * w)) by nia.
  assert (Xev : Z.even x = true).
  { assert (Z.even (x * x) = true) by (rewrite E3, Z.even_mul; auto). rewrite Z.even_mul in H. destruct (Z.even x); auto. }
  apply Z.even_spec in Xev as (y & ->).
  assert (y = 0) by (apply (IH y w); nia). lia.
Qed.
Definition ptn_clauses (N : Z) : list (list (bool * text)) :=
  flat_map (fun xy =>
       let x := fst xy in let y := snd xy in let z := Z.sqrt (x ^ 2 + y ^ 2) in
       if (z <=? N) && (z ^ 2 =? x ^ 2 + y ^ 2)
       then [map (fun i => (true, ptn_name i)) [x; y; z]; map (fun i => (false, ptn_name i)) [x; y; z]] else [])
     (pairs (range 1 (N + 1))).
Lemma ptn_inj i j : ptn_name i = ptn_name j -> i = j.
Proof. apply name1_inj. Qed.
Lemma ptn_clause N cl : In cl (ptn_clauses N) <-> exists x y z p, 1 <= x /\ x < y /\ y < z /\ z <= N /\ x ^ 2 + y ^ 2 = z ^ 2 /\ cl = map (fun i => (p, ptn_name i)) [x; y; z].
Proof.
  unfold ptn_clauses. rewrite in_flat_map. split.
  - intros ([x y] & Hxy & H). cbv zeta in H. cbn [fst snd] in H. apply pairs_sorted in Hxy as (Hx & Hy & L); [|apply range_sorted]. apply range_In in Hx, Hy.
    destruct (_ && _) eqn:E in H; [|destruct H]. apply andb_true_iff in E as [E1 E2]. apply Z.leb_le in E1. apply Z.eqb_eq in E2.
    pose proof (Z.sqrt_nonneg (x ^ 2 + y ^ 2)) as P. remember (Z.sqrt (x ^ 2 + y ^ 2)) as z eqn:Ez.
    assert (y < z) by nia. destruct H as [<-|[<-|[]]]; [exists x, y, z, true|exists x, y, z, false]; repeat split; auto; lia.
  - intros (x & y & z & p & Hx & Hy & Hz & HN & E & ->). exists (x, y). split; [apply pairs_sorted; [apply range_sorted|]; rewrite !range_In; lia|].
    cbv zeta. cbn [fst snd]. rewrite E. assert (S : Z.sqrt (z ^ 2) = z) by (rewrite Z.pow_2_r; apply Z.sqrt_square; lia). rewrite S.
    rewrite Z.eqb_refl. destruct (Z.leb_spec z N); [|lia]. cbn [andb]. destruct p; [left|right; left]; auto.
Qed.
Lemma ptn_built N : exists c, PythagoreanTriples N = Ok c /\ made c /\ cnf_clauses c = ptn_clauses N.
Proof.
  destruct (build_strict (map ptn_name (range 1 (N + 1))) (ptn_clauses N)) as (c & A & B & C & _); [| |eauto].
  - intros cl Hc. apply ptn_clause in Hc as (x & y & z & p & Hx & Hy & Hz & _ & _ & ->). apply same_polarity; [apply ptn_inj|].
    repeat (constructor; [cbn; lia|]). constructor.
  - intros cl v Hc Hv. apply ptn_clause in Hc as (x & y & z & p & Hx & Hy & Hz & L & _ & ->). rewrite map_map in Hv. cbn [snd] in Hv.
    apply in_map_iff in Hv as (i & <- & Hi). apply in_map, range_In. cbn in Hi. lia.
Qed.
Lemma ptn_models N a :
  all_hold a (ptn_clauses N) <->
  forall x y z, 1 <= x -> 1 <= y -> 1 <= z <= N -> x ^ 2 + y ^ 2 = z ^ 2 -> ~ (a (ptn_name x) = a (ptn_name y) /\ a (ptn_name y) = a (ptn_name z)).
Proof.
  assert (C : forall p x y z, clause_holds a (map (fun i => (p, ptn_name i)) [x; y; z]) <-> a (ptn_name x) = p \/ a (ptn_name y) = p \/ a (ptn_name z) = p).
  { intros. cbn [map]. apply three_hold. }
  split.
  - intros H.
    assert (G : forall x y z, 1 <= x -> x < y -> 1 <= z <= N -> x ^ 2 + y ^ 2 = z ^ 2 -> ~ (a (ptn_name x) = a (ptn_name y) /\ a (ptn_name y) = a (ptn_name z))).
    { intros x y z Hx Hy Hz E [E1 E2]. assert (y < z) by nia.
      pose proof (H _ (proj2 (ptn_clause N _) (ex_intro _ x (ex_intro _ y (ex_intro _ z (ex_intro _ true (conj Hx (conj Hy (conj H0 (conj (proj2 Hz) (conj E eq_refl)))))))))) ) as A1.
      pose proof (H _ (proj2 (ptn_clause N _) (ex_intro _ x (ex_intro _ y (ex_intro _ z (ex_intro _ false (conj Hx (conj Hy (conj H0 (conj (proj2 Hz) (conj E eq_refl)))))))))) ) as A2.
      apply C in A1. apply C in A2. intuition congruence. }
    intros x y z Hx Hy Hz E. destruct (Z.lt_trichotomy x y) as [L|[->|L]].
    + apply G; auto.
    + exfalso. assert (y = 0) by (apply (sqrt2 (Z.to_nat y) y z); lia). lia.
    + intros [E1 E2]. apply (G y x z); auto; [lia|]. split; congruence.
  - intros H cl Hc. apply ptn_clause in Hc as (x & y & z & p & Hx & Hy & Hz & HN & E & ->). apply C.
    specialize (H x y z Hx ltac:(lia) ltac:(lia) E). destruct (a (ptn_name x)), (a (ptn_name y)), (a (ptn_name z)), p; auto; exfalso; apply H; auto.
Qed.
Lemma ptn_satisfiable N : has_model (ptn_clauses N) <->
  exists colour : Z -> bool, forall x y z, 1 <= x -> 1 <= y -> 1 <= z <= N -> x ^ 2 + y ^ 2 = z ^ 2 -> ~ (colour x = colour y /\ colour y = colour z).
Proof.
  split.
  - intros (a & H). rewrite ptn_models in H. exists (fun i => a (ptn_name i)). auto.
  - intros (f & H). exists (values ptn_name (range 1 (N + 1)) f). apply ptn_models. intros x y z Hx Hy Hz E.
    assert (V : forall i, 1 <= i <= N -> values ptn_name (range 1 (N + 1)) f (ptn_name i) = f i).
    { intros i Hi. apply values_at; [|apply range_In; lia]. intros j _ K. apply ptn_inj in K. congruence. }
    rewrite !V; auto; nia.
Qed.

Lemma values2_at (nm : Z -> Z -> text) dom (f : Z * Z -> bool) x y : (forall q, In q dom -> nm (fst q) (snd q) = nm x y -> f q = f (x, y)) -> In (x, y) dom ->
  values (fun p => nm (fst p) (snd p)) dom f (nm x y) = f (x, y).
Proof. intros I H. apply (values_at (fun p => nm (fst p) (snd p)) dom f (x, y)); auto. Qed.
(* ---- clique-colouring ---- *)
Definition cc_clauses (n k c : Z) : list (list (bool * text)) :=
  let V := range 1 (n + 1) in let K := range 1 (k + 1) in let C := range 1 (c + 1) in
  flat_map (fun i => equal_to_constraint (map (cc_Q i) V) 1) K ++
     flat_map (fun v => map (fun ij => [(false, cc_Q (fst ij) v); (false, cc_Q (snd ij) v)]) (pairs K)) V ++
     flat_map (fun uv => map (fun ij => [(true, cc_E (fst uv) (snd uv)); (false, cc_Q (fst ij) (fst uv)); (false, cc_Q (snd ij) (snd uv))])
                             (permutations2 K)) (pairs V) ++
     flat_map (fun v => equal_to_constraint (map (cc_R v) C) 1) V ++
     flat_map (fun uv => map (fun l => [(false, cc_E (fst uv) (snd uv)); (false, cc_R (fst uv) l); (false, cc_R (snd uv) l)]) C) (pairs V).
Definition cc_vars (n k c : Z) : list text :=
  let V := range 1 (n + 1) in let K := range 1 (k + 1) in let C := range 1 (c + 1) in
  flat_map (fun u => map (cc_E u) (range (u + 1) (n + 1))) V ++ flat_map (fun i => map (cc_Q i) V) K ++ flat_map (fun v => map (cc_R v) C) V.
Lemma cc_E_inj u v u' v' : u < v -> u' < v' -> cc_E u v = cc_E u' v' -> u = u' /\ v = v'.
Proof. intros L L' E. apply name2_inj in E. lia. Qed.
Lemma E_not_Q u v i w : cc_E u v <> cc_Q i w.
Proof. intros E. discriminate E. Qed.
Lemma E_not_R u v i w : cc_E u v <> cc_R i w.
Proof. intros E. discriminate E. Qed.
Lemma Q_not_R u v i w : cc_Q u v <> cc_R i w.
Proof. intros E. discriminate E. Qed.
Lemma cc_built n k c : exists f, CliqueColoring n k c = Ok f /\ made f /\ cnf_clauses f = cc_clauses n k c.
Proof.
  destruct (build_strict (cc_vars n k c) (cc_clauses n k c)) as (f & A & B & D & _); [| |eauto].
  - intros cl Hc. unfold cc_clauses in Hc. repeat (apply in_app_iff in Hc as [Hc|Hc]).
    + apply in_flat_map in Hc as (i & Hi & Hc). eapply equal_clean; eauto. apply FinFun.Injective_map_NoDup; [|apply range_NoDup].
      intros x y E. apply name2_inj in E. tauto.
    + apply in_flat_map in Hc as (v & Hv & Hc). apply in_map_iff in Hc as ([i j] & <- & Hp). apply pairs_neq in Hp; [|apply range_NoDup].
      apply clean_vars. cbn [map fst snd]. constructor; [|constructor; [intros []|constructor]]. intros [E|[]]. apply name2_inj in E. intuition congruence.
    + apply in_flat_map in Hc as ([u v] & Hv & Hc). apply in_map_iff in Hc as ([i j] & <- & Hp). apply permutations2_In in Hp as (_ & _ & Nij); [|apply range_NoDup].
      apply clean_vars. cbn [map fst snd]. constructor; [|constructor; [|constructor; [intros []|constructor]]].
      * intros [E|[E|[]]]; [apply (E_not_Q u v i u)|apply (E_not_Q u v j v)]; auto.
      * intros [E|[]]. apply name2_inj in E. intuition congruence.
    + apply in_flat_map in Hc as (i & Hi & Hc). eapply equal_clean; eauto. apply FinFun.Injective_map_NoDup; [|apply range_NoDup].
      intros x y E. apply name2_inj in E. tauto.
    + apply in_flat_map in Hc as ([u v] & Hv & Hc). apply in_map_iff in Hc as (l & <- & Hl). apply pairs_neq in Hv; [|apply range_NoDup].
      apply clean_vars. cbn [map fst snd]. constructor; [|constructor; [|constructor; [intros []|constructor]]].
      * intros [E|[E|[]]]; [apply (E_not_R u v u l)|apply (E_not_R u v v l)]; auto.
      * intros [E|[]]. apply name2_inj in E. intuition congruence.
  - assert (VE : forall u v, In (u, v) (pairs (range 1 (n + 1))) -> In (cc_E u v) (cc_vars n k c)).
    { intros u v H. apply pairs_sorted in H as (Hu & Hv & L); [|apply range_sorted]. apply in_app_iff. left. apply in_flat_map. exists u. split; auto.
      apply in_map. apply range_In in Hv. apply range_In. lia. }
    assert (VQ : forall i v, In i (range 1 (k + 1)) -> In v (range 1 (n + 1)) -> In (cc_Q i v) (cc_vars n k c)).
    { intros i v Hi Hv. apply in_app_iff. right. apply in_app_iff. left. apply in_flat_map. exists i. split; auto. apply in_map; auto. }
    assert (VR : forall v l, In v (range 1 (n + 1)) -> In l (range 1 (c + 1)) -> In (cc_R v l) (cc_vars n k c)).
    { intros i v Hi Hv. apply in_app_iff. right. apply in_app_iff. right. apply in_flat_map. exists i. split; auto. apply in_map; auto. }
    intros cl w Hc Hw. unfold cc_clauses in Hc. repeat (apply in_app_iff in Hc as [Hc|Hc]).
    + apply in_flat_map in Hc as (i & Hi & Hc). apply (equal_vars _ _ _ _ Hc) in Hw. apply in_map_iff in Hw as (v & <- & Hv). auto.
    + apply in_flat_map in Hc as (v & Hv & Hc). apply in_map_iff in Hc as ([i j] & <- & Hp). apply pairs_In in Hp as [Hi Hj].
      destruct Hw as [<-|[<-|[]]]; cbn [fst snd]; auto.
    + apply in_flat_map in Hc as ([u v] & Hv & Hc). apply in_map_iff in Hc as ([i j] & <- & Hp). apply permutations2_In in Hp as (Hi & Hj & _); [|apply range_NoDup].
      pose proof (pairs_In _ _ _ Hv) as [Hu Hv']. destruct Hw as [<-|[<-|[<-|[]]]]; cbn [fst snd]; auto.
    + apply in_flat_map in Hc as (i & Hi & Hc). apply (equal_vars _ _ _ _ Hc) in Hw. apply in_map_iff in Hw as (v & <- & Hv). auto.
    + apply in_flat_map in Hc as ([u v] & Hv & Hc). apply in_map_iff in Hc as (l & <- & Hl).
      pose proof (pairs_In _ _ _ Hv) as [Hu Hv']. destruct Hw as [<-|[<-|[<-|[]]]]; cbn [fst snd]; auto.
Qed.
Lemma exactly_one (a : text -> bool) (name : Z -> text) m : (all_hold a (equal_to_constraint (map name (range 1 (m + 1))) 1) <->
  exists x, 1 <= x <= m /\ a (name x) = true /\ forall y, 1 <= y <= m -> a (name y) = true -> y = x).
Proof.
  rewrite equal_to_ok, how_many_map, how_many_1 by apply range_NoDup. split; intros (x & Hx & T & U); exists x; split.
  - apply range_In in Hx. lia.
  - split; auto. intros y Hy. apply U. apply range_In. lia.
  - apply range_In. lia.
  - split; auto. intros y Hy. apply U. apply range_In in Hy. lia.
Qed.
Definition cc_good (n k c : Z) (E Q R : Z -> Z -> bool) : Prop :=
  (forall i, 1 <= i <= k -> exists v, 1 <= v <= n /\ Q i v = true /\ forall w, 1 <= w <= n -> Q i w = true -> w = v) /\
  (forall i j v, 1 <= i <= k -> 1 <= j <= k -> 1 <= v <= n -> Q i v = true -> Q j v = true -> i = j) /\
  (forall i j u v, 1 <= i <= k -> 1 <= j <= k -> i <> j -> 1 <= u -> u < v -> v <= n -> Q i u = true -> Q j v = true -> E u v = true) /\
  (forall v, 1 <= v <= n -> exists l, 1 <= l <= c /\ R v l = true /\ forall m, 1 <= m <= c -> R v m = true -> m = l) /\
  (forall u v l, 1 <= u -> u < v -> v <= n -> 1 <= l <= c -> E u v = true -> R u l = true -> R v l = true -> False).
Lemma cc_models n k c a :
  all_hold a (cc_clauses n k c) <-> cc_good n k c (fun u v => a (cc_E u v)) (fun i v => a (cc_Q i v)) (fun v l => a (cc_R v l)).
Proof.
  unfold cc_clauses, cc_good. rewrite !all_hold_app, !all_hold_flat_map.
  assert (RI : forall m x, In x (range 1 (m + 1)) <-> 1 <= x <= m) by (intros; rewrite range_In; lia).
  assert (PI : forall m x y, In (x, y) (pairs (range 1 (m + 1))) <-> 1 <= x /\ x < y /\ y <= m).
  { intros. rewrite pairs_sorted by apply range_sorted. rewrite !RI. lia. }
  split.
  - intros (A & B & C & D & F). split; [|split; [|split; [|split]]].
    + intros i Hi. apply (exactly_one a (cc_Q i) n). apply A. apply RI. auto.
    + intros i j v Hi Hj Hv T1 T2. destruct (Z.lt_trichotomy i j) as [L|[L|L]]; auto; exfalso.
      * pose proof (B v (proj2 (RI n v) Hv)) as X. rewrite all_hold_map in X. specialize (X (i, j) (proj2 (PI k i j) ltac:(lia))). apply two_hold in X. cbn [fst snd] in X. intuition congruence.
      * pose proof (B v (proj2 (RI n v) Hv)) as X. rewrite all_hold_map in X. specialize (X (j, i) (proj2 (PI k j i) ltac:(lia))). apply two_hold in X. cbn [fst snd] in X. intuition congruence.
    + intros i j u v Hi Hj N Hu L Hv T1 T2. pose proof (C (u, v) (proj2 (PI n u v) ltac:(lia))) as X. rewrite all_hold_map in X.
      specialize (X (i, j)). cbn [fst snd] in X. rewrite three_hold in X. destruct X as [X|[X|X]]; try congruence. apply permutations2_In; [apply range_NoDup|]. rewrite !RI. auto.
    + intros v Hv. apply (exactly_one a (cc_R v) c). apply D. apply RI. auto.
    + intros u v l Hu L Hv Hl T1 T2 T3. pose proof (F (u, v) (proj2 (PI n u v) ltac:(lia))) as X. rewrite all_hold_map in X.
      specialize (X l (proj2 (RI c l) Hl)). cbn [fst snd] in X. rewrite three_hold in X. intuition congruence.
  - intros (A & B & C & D & F). split; [|split; [|split; [|split]]].
    + intros i Hi. apply (exactly_one a (cc_Q i) n). apply A. apply RI. auto.
    + intros v Hv. rewrite all_hold_map. intros [i j] Hp. apply PI in Hp. cbn [fst snd]. apply two_hold. apply RI in Hv.
      destruct (a (cc_Q i v)) eqn:E1; auto. destruct (a (cc_Q j v)) eqn:E2; auto. exfalso. assert (i = j) by (apply (B i j v); auto; lia). lia.
    + intros [u v] Hp. rewrite all_hold_map. intros [i j] Hq. apply PI in Hp. apply permutations2_In in Hq as (Hi & Hj & N); [|apply range_NoDup].
      apply RI in Hi, Hj. cbn [fst snd]. apply three_hold.
      destruct (a (cc_Q i u)) eqn:E1; auto. destruct (a (cc_Q j v)) eqn:E2; auto. left. apply (C i j u v); auto; lia.
    + intros v Hv. apply (exactly_one a (cc_R v) c). apply D. apply RI. auto.
    + intros [u v] Hp. rewrite all_hold_map. intros l Hl. apply PI in Hp. apply RI in Hl. cbn [fst snd]. apply three_hold.
      destruct (a (cc_E u v)) eqn:E1; auto. destruct (a (cc_R u l)) eqn:E2; auto. destruct (a (cc_R v l)) eqn:E3; auto. exfalso. apply (F u v l); auto; lia.
Qed.
Lemma cc_satisfiable n k c : 0 <= n -> 0 <= k -> 0 <= c ->
  (has_model (cc_clauses n k c) <-> k <= n /\ k <= c /\ (1 <= n -> 1 <= c)).
Proof.
  intros Hn Hk Hc. split.
  - intros (a & H). apply cc_models in H as (A & B & C & D & F). split; [|split].
    + rewrite <- (between_length k Hk), <- (between_length n Hn). apply Nat2Z.inj_le.
      apply (injective_length _ _ (fun i v => a (cc_Q i v) = true)); [apply range_NoDup| |].
      * intros i Hi. apply range_In in Hi. destruct (A i) as (v & Hv & T & _); [lia|]. exists v. split; auto. apply range_In. lia.
      * intros i j v Hi Hj Hv. apply range_In in Hi, Hj, Hv. apply B; lia.
    + rewrite <- (between_length k Hk), <- (between_length c Hc). apply Nat2Z.inj_le.
      apply (injective_length _ _ (fun i l => exists v, 1 <= v <= n /\ a (cc_Q i v) = true /\ a (cc_R v l) = true)); [apply range_NoDup| |].
      * intros i Hi. apply range_In in Hi. destruct (A i) as (v & Hv & T & _); [lia|]. destruct (D v Hv) as (l & Hl & T2 & _).
        exists l. split; [apply range_In; lia|]. eauto.
      * intros i j l Hi Hj Hl (u & Hu & T1 & T2) (v & Hv & T3 & T4). apply range_In in Hi, Hj, Hl. destruct (Z.eq_dec i j); auto. exfalso.
        destruct (Z.lt_trichotomy u v) as [L|[->|L]].
        -- apply (F u v l); auto; try lia. apply (C i j u v); auto; lia.
        -- apply n0, (B i j v); auto; lia.
        -- apply (F v u l); auto; try lia. apply (C j i v u); auto; lia.
    + intros L. destruct (D 1) as (l & Hl & _); lia.
  - intros (L1 & L2 & L3).
    set (V := range 1 (n + 1)). set (fE := fun p : Z * Z => snd p <=? k). set (fQ := fun p : Z * Z => fst p =? snd p).
    set (fR := fun p : Z * Z => (if fst p <=? k then fst p else 1) =? snd p).
    set (a := fun t => values (fun p => cc_E (fst p) (snd p)) (pairs V) fE t || values (fun p => cc_Q (fst p) (snd p)) (list_prod (range 1 (k + 1)) V) fQ t ||
                       values (fun p => cc_R (fst p) (snd p)) (list_prod V (range 1 (c + 1))) fR t).
    assert (aE : forall u v, 1 <= u -> u < v -> v <= n -> a (cc_E u v) = (v <=? k)).
    { intros u v Hu L Hv. unfold a. rewrite (values2_at cc_E (pairs V) fE u v).
      - rewrite (values_other (fun p => cc_Q (fst p) (snd p))), (values_other (fun p => cc_R (fst p) (snd p))); [unfold fE; cbn [snd]; destruct (v <=? k); auto| |];
          intros; intros K; [apply (E_not_R u v (fst x) (snd x))|apply (E_not_Q u v (fst x) (snd x))]; auto.
      - intros [u' v'] Hp E. apply pairs_sorted in Hp as (_ & _ & L'); [|apply range_sorted]. cbn [fst snd] in E. apply cc_E_inj in E as [? ?]; auto. subst; auto.
      - apply pairs_sorted; [apply range_sorted|]. unfold V. rewrite !range_In. lia. }
    assert (aQ : forall i v, 1 <= i <= k -> 1 <= v <= n -> a (cc_Q i v) = (i =? v)).
    { intros i v Hi Hv. unfold a. rewrite (values2_at cc_Q (list_prod (range 1 (k + 1)) V) fQ i v).
      - rewrite (values_other (fun p => cc_E (fst p) (snd p))), (values_other (fun p => cc_R (fst p) (snd p))); [unfold fQ; cbn [fst snd]; destruct (i =? v); auto| |];
          intros; intros K; [apply (Q_not_R i v (fst x) (snd x))|apply (E_not_Q (fst x) (snd x) i v)]; auto.
      - intros [u' v'] Hp E. apply name2_inj in E as [E1 E2]. cbn [fst snd] in E1, E2. subst. auto.
      - apply in_prod; apply range_In; lia. }
    assert (aR : forall v l, 1 <= v <= n -> 1 <= l <= c -> a (cc_R v l) = ((if v <=? k then v else 1) =? l)).
    { intros v l Hv Hl. unfold a. rewrite (values2_at cc_R (list_prod V (range 1 (c + 1))) fR v l).
      - rewrite (values_other (fun p => cc_E (fst p) (snd p))), (values_other (fun p => cc_Q (fst p) (snd p))); [reflexivity| |];
          intros; intros K; [apply (Q_not_R (fst x) (snd x) v l)|apply (E_not_R (fst x) (snd x) v l)]; auto.
      - intros [u' v'] Hp E. apply name2_inj in E as [E1 E2]. cbn [fst snd] in E1, E2. subst. auto.
      - apply in_prod; apply range_In; lia. }
    exists a. apply cc_models. split; [|split; [|split; [|split]]].
    + intros i Hi. exists i. split; [lia|]. split; [rewrite aQ by lia; apply Z.eqb_refl|]. intros w Hw. rewrite aQ by lia. intros K. apply Z.eqb_eq in K. auto.
    + intros i j v Hi Hj Hv. rewrite !aQ by lia. rewrite !Z.eqb_eq. congruence.
    + intros i j u v Hi Hj N Hu L Hv. rewrite !aQ, aE by lia. rewrite !Z.eqb_eq, Z.leb_le. lia.
    + intros v Hv. exists (if v <=? k then v else 1). assert (W : 1 <= (if v <=? k then v else 1) <= c) by (destruct (Z.leb_spec v k); lia).
      split; auto. split; [rewrite aR by auto; apply Z.eqb_refl|]. intros m Hm. rewrite aR by auto. intros K. apply Z.eqb_eq in K. auto.
    + intros u v l Hu L Hv Hl. rewrite aE, !aR by lia. rewrite !Z.eqb_eq, Z.leb_le. intros X. destruct (Z.leb_spec u k), (Z.leb_spec v k); lia.
Qed.
