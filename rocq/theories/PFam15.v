(* PFam15.v -- pebbling and stone formulas *)
From Coq Require Import String Ascii ZArith List Bool Lia Arith Permutation Sorted.
From Verif Require Import Spec PyBase MSet MText MCnf MFam MFam2 SpecCnf SpecFam SpecFam2 PText PLib PCnf1 PCnf2 PFam1 PFam2 PFam3 PFam4 PFam5 PFam6 PFam7 PFam10 PFam12 PFam13.
Import ListNotations.
Open Scope Z_scope.

(* ---- acyclicity ---- *)
Lemma walk_last d u w : walk d u w -> exists v, (v = u \/ walk d u v) /\ arc d v w.
Proof.
  induction 1 as [u v A|u v w A W (x & [->|X] & B)]; [exists u; auto| |].
  - exists v. split; auto. right. constructor. auto.
  - exists x. split; auto. right. eapply walk_step; eauto.
Qed.
Lemma walk_back d v : walk d v v -> exists u, arc d u v /\ walk d u u.
Proof.
  intros H. destruct (walk_last d v v H) as (u & [->|W] & A); [exists v; split; auto|]. exists u. split; auto. eapply walk_step; eauto.
Qed.
Lemma walk_nodes d u v : proper_digraph d -> walk d u v -> In u (d_nodes d) /\ In v (d_nodes d).
Proof.
  intros P. induction 1 as [u v A|u v w A W IH].
  - apply (pd_ends _ P). auto.
  - split; [|tauto]. apply (pd_ends _ P) in A. tauto.
Qed.
Lemma peel_In d l v : In v (peel d l) <-> In v l /\ exists u, arc d u v /\ In u l.
Proof.
  unfold peel. rewrite filter_In, existsb_exists. split.
  - intros (H & [x y] & He & K). cbn [fst snd] in K. apply andb_true_iff in K as [K1 K2]. apply Z.eqb_eq in K1. subst. split; auto. exists x. split; auto. apply zmem_In. auto.
  - intros (H & u & A & K). split; auto. exists (u, v). split; auto. cbn. rewrite Z.eqb_refl. apply zmem_In in K. rewrite K. auto.
Qed.
Fixpoint chain (d : digraph) (l : list Z) : Prop := match l with [] => True | x :: t => (forall y, In y t -> walk d x y) /\ chain d t end.
Lemma chain_NoDup d l : acyclic d -> chain d l -> NoDup l.
Proof. intros A. induction l as [|x l IH]; [constructor|]. intros [H1 H2]. constructor; auto. intros K. apply (A x). auto. Qed.
Lemma chain_snoc d l x : chain d l -> (forall y, In y l -> walk d y x) -> chain d (l ++ [x]).
Proof.
  induction l as [|y l IH]; cbn [app chain]; [intros _ _; split; auto; intros ? []|]. intros [H1 H2] H. split; [|apply IH; auto; intros; apply H; right; auto].
  intros z Hz. apply in_app_iff in Hz as [Hz|[<-|[]]]; auto. apply H. left; auto.
Qed.
Lemma walk_trans d u v w : walk d u v -> walk d v w -> walk d u w.
Proof. intros H. induction H as [u v A|u v x A W IH]; intros K; [eapply walk_step; eauto|eapply walk_step; eauto]. Qed.
Lemma no_infinite_back d l : acyclic d -> l <> [] -> (forall v, In v l -> exists u, arc d u v /\ In u l) -> False.
Proof.
  intros A NE H.
  assert (K : forall k, exists x p, List.length p = k /\ incl (x :: p) l /\ chain d (x :: p)).
  { induction k as [|k (x & p & L & I & C)].
    - destruct l as [|x l]; [congruence|]. exists x, []. split; auto. split; [intros y [<-|[]]; left; auto|cbn; split; auto; intros ? []].
    - destruct (H x) as (u & U & Hu); [apply I; left; auto|]. exists u, (x :: p). split; [cbn; lia|]. split.
      + intros y [<-|Hy]; auto.
      + split; auto. intros y [<-|Hy]; [constructor; auto|]. apply walk_step with x; auto. apply C. auto. }
  destruct (K (List.length l)) as (x & p & L & I & C). apply chain_NoDup in C; auto. pose proof (NoDup_incl_length C I). cbn in *. lia.
Qed.
Lemma no_infinite_forth d l : acyclic d -> l <> [] -> (forall v, In v l -> exists u, arc d v u /\ In u l) -> False.
Proof.
  intros A NE H.
  assert (K : forall k, exists x p, List.length p = k /\ incl (p ++ [x]) l /\ chain d (p ++ [x])).
  { induction k as [|k (x & p & L & I & C)].
    - destruct l as [|x l]; [congruence|]. exists x, []. split; auto. split; [intros y [<-|[]]; left; auto|cbn; split; auto; intros ? []].
    - destruct (H x) as (u & U & Hu); [apply I; apply in_app_iff; right; left; auto|]. exists u, (p ++ [x]). split; [rewrite app_length; cbn; lia|]. split.
      + intros y Hy. apply in_app_iff in Hy as [Hy|[<-|[]]]; auto.
      + apply chain_snoc; auto. intros y Hy. apply in_app_iff in Hy as [Hy|[<-|[]]]; [|constructor; auto].
        apply walk_trans with x; [|constructor; auto]. clear - C Hy. induction p as [|z p IH]; [destruct Hy|]. destruct C as [C1 C2]. destruct Hy as [->|Hy]; [apply C1; apply in_app_iff; right; left; auto|auto]. }
  destruct (K (List.length l)) as (x & p & L & I & C). apply chain_NoDup in C; auto. pose proof (NoDup_incl_length C I) as X. rewrite app_length in X. cbn in *. lia.
Qed.
Lemma filter_same {A} (p : A -> bool) l : (List.length l <= List.length (filter p l))%nat -> filter p l = l.
Proof.
  induction l as [|x l IH]; cbn [filter]; auto. destruct (p x); cbn [List.length].
  - intros H. f_equal. apply IH. lia.
  - intros H. pose proof (filter_length_le p l). lia.
Qed.
Lemma is_dag_ok d : proper_digraph d -> (is_dag d = true <-> acyclic d).
Proof.
  intros P. unfold is_dag. set (n := List.length (d_nodes d)). set (R := fun k => Nat.iter k (peel d) (d_nodes d)). change (Nat.iter n (peel d) (d_nodes d)) with (R n).
  assert (RS : forall k, R (S k) = peel d (R k)) by reflexivity. split.
  - intros H v W. assert (K : forall k v, walk d v v -> In v (R k)).
    { induction k as [|k IH]; intros x Wx; [apply (walk_nodes d x x P Wx)|]. rewrite RS. apply peel_In. split; auto. destruct (walk_back d x Wx) as (u & A & B). eauto. }
    specialize (K n v W). destruct (R n); [destruct K|discriminate].
  - intros A. assert (K : forall k, R k = [] \/ (List.length (R k) + k <= n)%nat \/ (R k <> [] /\ peel d (R k) = R k)).
    { induction k as [|k [IH|[IH|[I1 I2]]]]; [right; left; unfold R; cbn; lia| | |].
      - left. rewrite RS, IH. reflexivity.
      - rewrite RS. destruct (le_lt_dec (List.length (R k)) (List.length (peel d (R k)))) as [L|L]; [|right; left; lia].
        assert (E : peel d (R k) = R k) by (apply filter_same; auto). rewrite E. destruct (R k) as [|x t] eqn:ER; [auto|]. right. right. split; [discriminate|auto].
      - right. right. rewrite RS, !I2. auto. }
    destruct (K n) as [E|[E|[E1 E2]]].
    + rewrite E. auto.
    + destruct (R n); auto. cbn in E. lia.
    + exfalso. apply (no_infinite_back d (R n) A E1). intros v Hv. rewrite <- E2 in Hv. apply peel_In in Hv as (_ & u & U & Hu). eauto.
Qed.
Lemma dag_induction d (Q : Z -> Prop) : is_dag d = true -> proper_digraph d ->
  (forall v, In v (d_nodes d) -> (forall u, arc d u v -> Q u) -> Q v) -> forall v, In v (d_nodes d) -> Q v.
Proof.
  unfold is_dag. set (n := List.length (d_nodes d)). intros E P H.
  assert (K : forall k v, In v (d_nodes d) -> ~ In v (Nat.iter k (peel d) (d_nodes d)) -> Q v).
  { induction k as [|k IH]; intros v Hv N; [exfalso; auto|]. cbn in N. destruct (in_dec Z.eq_dec v (Nat.iter k (peel d) (d_nodes d))) as [I|I]; [|auto].
    apply H; auto. intros u A. pose proof (pd_ends _ P _ _ A) as [Hu _]. apply IH; auto. intros X. apply N. apply peel_In. split; auto. exists u. auto. }
  intros v Hv. apply (K n v Hv). destruct (Nat.iter n (peel d) (d_nodes d)); [intros []|discriminate].
Qed.
Lemma is_sink_ok d v : is_sink d v = true <-> sink d v.
Proof.
  unfold is_sink, sink, arc. rewrite negb_true_iff. split.
  - intros H w Hw. assert (existsb (fun e => fst e =? v) (d_edges d) = true); [|congruence]. apply existsb_exists. exists (v, w). split; auto. apply Z.eqb_refl.
  - intros H. destruct (existsb (fun e => fst e =? v) (d_edges d)) eqn:E; auto. exfalso. apply existsb_exists in E as ([x y] & K1 & K2). apply Z.eqb_eq in K2. cbn in K2. subst. apply (H y K1).
Qed.
Lemma has_sink d : is_dag d = true -> proper_digraph d -> d_nodes d <> [] -> exists v, In v (d_nodes d) /\ sink d v.
Proof.
  intros D P NE. destruct (existsb (is_sink d) (d_nodes d)) eqn:E.
  - apply existsb_exists in E as (v & Hv & K). exists v. split; auto. apply is_sink_ok. auto.
  - exfalso. apply is_dag_ok in D; auto. apply (no_infinite_forth d (d_nodes d) D NE). intros v Hv.
    assert (S : is_sink d v = false). { destruct (is_sink d v) eqn:K; auto. assert (existsb (is_sink d) (d_nodes d) = true) by (apply existsb_exists; eauto). congruence. }
    unfold is_sink in S. rewrite negb_false_iff in S. apply existsb_exists in S as ([x y] & K1 & K2). apply Z.eqb_eq in K2. cbn in K2. subst x. exists y. split; auto. apply (pd_ends _ P v y K1).
Qed.
Lemma predecessors_In d v u : proper_digraph d -> (In u (predecessors d v) <-> arc d u v).
Proof.
  intros P. unfold predecessors, arc. rewrite filter_In, existsb_exists. split.
  - intros (_ & [x y] & H & K). cbn in K. apply andb_true_iff in K as [K1 K2]. apply Z.eqb_eq in K1, K2. subst. auto.
  - intros H. split; [apply (pd_ends _ P u v H)|]. exists (u, v). cbn. rewrite !Z.eqb_refl. auto.
Qed.
Lemma predecessors_NoDup d v : proper_digraph d -> NoDup (predecessors d v).
Proof. intros P. apply NoDup_filter. apply P. Qed.

(* ---- pebbling ---- *)
Definition peb_clauses (d : digraph) : list (list (bool * text)) :=
  flat_map (fun v => (map (fun p => (false, str_Z p)) (predecessors d v) ++ [(true, str_Z v)]) ::
                        (if is_sink d v then [[(false, str_Z v)]] else [])) (d_nodes d).
Lemma peb_built d : proper_digraph d -> is_dag d = true -> exists c, PebblingFormula d = Ok c /\ made c /\ cnf_clauses c = peb_clauses d.
Proof.
  intros P D. unfold PebblingFormula. rewrite D. cbn [negb].
  destruct (build_unsafe (map str_Z (d_nodes d)) (peb_clauses d)) as (c & A & B & C & _); [|eauto].
  intros cl v Hc Hv. unfold peb_clauses in Hc. apply in_flat_map in Hc as (x & Hx & [<-|Hc]).
  - rewrite map_app, map_map in Hv. apply in_app_iff in Hv as [Hv|[<-|[]]]; [|apply (in_map str_Z); auto]. apply in_map_iff in Hv as (p & <- & Hp). cbn. apply (in_map str_Z).
    apply predecessors_In in Hp; auto. apply (pd_ends _ P p x Hp).
  - destruct (is_sink d x); [|destruct Hc]. destruct Hc as [<-|[]]. destruct Hv as [<-|[]]. apply (in_map str_Z). auto.
Qed.
Lemma peb_models d a : proper_digraph d ->
  (all_hold a (peb_clauses d) <->
   (forall v, In v (d_nodes d) -> (forall u, arc d u v -> a (str_Z u) = true) -> a (str_Z v) = true) /\
   (forall v, In v (d_nodes d) -> sink d v -> a (str_Z v) = false)).
Proof.
  intros P. unfold peb_clauses. rewrite all_hold_flat_map.
  assert (K : forall v, all_hold a ((map (fun p => (false, str_Z p)) (predecessors d v) ++ [(true, str_Z v)]) :: (if is_sink d v then [[(false, str_Z v)]] else [])) <->
    ((forall u, arc d u v -> a (str_Z u) = true) -> a (str_Z v) = true) /\ (sink d v -> a (str_Z v) = false)).
  { intros v. change (?x :: ?y) with ([x] ++ y). rewrite all_hold_app, all_one, all_hold_if, all_one, one_holds, holds_app, one_holds, is_sink_ok.
    assert (X : (clause_holds a (map (fun p => (false, str_Z p)) (predecessors d v)) \/ a (str_Z v) = true) <-> ((forall u, arc d u v -> a (str_Z u) = true) -> a (str_Z v) = true)); [|rewrite X; tauto].
    rewrite holds_map. split.
    - intros [(p & Hp & E)|H]; auto. intros K. apply predecessors_In in Hp; auto. rewrite K in E by auto. discriminate.
    - intros H. destruct (existsb (fun p => negb (a (str_Z p))) (predecessors d v)) eqn:E.
      + apply existsb_exists in E as (p & Hp & K). left. exists p. split; auto. destruct (a (str_Z p)); auto; discriminate.
      + right. apply H. intros u U. apply predecessors_In in U; auto. destruct (a (str_Z u)) eqn:K; auto.
        assert (existsb (fun p => negb (a (str_Z p))) (predecessors d v) = true); [|congruence]. apply existsb_exists. exists u. rewrite K. auto. }
  split.
  - intros H. split; intros v Hv; apply K; auto.
  - intros [H1 H2] v Hv. apply K. auto.
Qed.
Lemma peb_satisfiable d : proper_digraph d -> is_dag d = true -> (has_model (peb_clauses d) <-> d_nodes d = []).
Proof.
  intros P D. split.
  - intros (a & H). apply peb_models in H as [H1 H2]; auto. destruct (d_nodes d) as [|x t] eqn:E; auto. exfalso.
    destruct (has_sink d D P) as (v & Hv & S); [congruence|].
    assert (T : forall v, In v (d_nodes d) -> a (str_Z v) = true). { apply dag_induction; auto. rewrite E. auto. }
    specialize (T v Hv). rewrite H2 in T; [discriminate| |auto]. rewrite <- E. auto.
  - intros E. exists (fun _ => true). unfold peb_clauses. rewrite E. intros c [].
Qed.
