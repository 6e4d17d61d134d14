(* PCnf1.v -- itertools and the cardinality and parity constraints *)
From Coq Require Import String Ascii ZArith List Bool Lia.
From Verif Require Import PyBase MCnf SpecCnf.
Import ListNotations.
Open Scope Z_scope.

Section Comb.
  Context {A : Type}.
  Implicit Types (l : list A) (a : A -> bool).

  Lemma combinations_length l k s : In s (combinations l k) -> List.length s = k.
  Proof.
    revert k s. induction l as [|x t IH]; intros [|k] s H; cbn [combinations] in H.
    - destruct H as [<-|[]]. auto.
    - destruct H.
    - destruct H as [<-|[]]. auto.
    - apply in_app_iff in H as [H|H]; [|eauto]. apply in_map_iff in H as (u & <- & Hu). cbn. f_equal. eauto.
  Qed.
  Lemma combinations_incl l k s x : In s (combinations l k) -> In x s -> In x l.
  Proof.
    revert k s. induction l as [|y t IH]; intros [|k] s H Hx; cbn [combinations] in H.
    - destruct H as [<-|[]]; destruct Hx.
    - destruct H.
    - destruct H as [<-|[]]; destruct Hx.
    - apply in_app_iff in H as [H|H]; [|right; eauto]. apply in_map_iff in H as (u & <- & Hu).
      destruct Hx as [->|Hx]; [left; auto|right; eauto].
  Qed.
  Lemma combinations_NoDup l k s : NoDup l -> In s (combinations l k) -> NoDup s.
  Proof.
    revert k s. induction l as [|y t IH]; intros [|k] s N H; cbn [combinations] in H.
    - destruct H as [<-|[]]; constructor.
    - destruct H.
    - destruct H as [<-|[]]; constructor.
    - inversion N; subst. apply in_app_iff in H as [H|H]; [|eauto]. apply in_map_iff in H as (u & <- & Hu).
      constructor; eauto. intros K. eapply combinations_incl in K; eauto.
  Qed.
  (* a set of positions with the property exists iff enough elements have it *)
  Lemma combinations_filter l k a :
    (exists s, In s (combinations l k) /\ forall x, In x s -> a x = true) <-> (k <= List.length (filter a l))%nat.
  Proof.
    revert k. induction l as [|y t IH]; intros [|k]; cbn [combinations filter].
    - split; [cbn; lia|]. intros _. exists []. split; [left; auto|intros x []].
    - split; [|cbn; lia]. intros (s & [] & _).
    - split; [lia|]. intros _. exists []. split; [left; auto|intros x []].
    - specialize (IH k) as IH1. specialize (IH (S k)) as IH2. destruct (a y) eqn:E; cbn [List.length].
      + split.
        * intros (s & H & Ha). apply in_app_iff in H as [H|H].
          -- apply in_map_iff in H as (u & <- & Hu). assert (k <= List.length (filter a t))%nat; [|lia].
             apply IH1. exists u. split; auto. intros; apply Ha; right; auto.
          -- assert (S k <= List.length (filter a t))%nat; [|lia]. apply IH2. eauto.
        * intros H. destruct (proj2 IH1) as (u & Hu & Ha); [lia|]. exists (y :: u). split.
          -- apply in_app_iff. left. apply in_map. auto.
          -- intros x [<-|Hx]; auto.
      + split.
        * intros (s & H & Ha). apply in_app_iff in H as [H|H].
          -- apply in_map_iff in H as (u & <- & Hu). specialize (Ha y (or_introl eq_refl)). congruence.
          -- apply IH2. eauto.
        * intros H. destruct (proj2 IH2 H) as (u & Hu & Ha). exists u. split; auto. apply in_app_iff. auto.
  Qed.
  Lemma filter_negb l a : (List.length (filter a l) + List.length (filter (fun x => negb (a x)) l) = List.length l)%nat.
  Proof. induction l as [|x t IH]; cbn [filter]; auto. destruct (a x); cbn [negb List.length]; lia. Qed.
  Lemma how_many_bounds l a : 0 <= how_many a l <= Z.of_nat (List.length l).
  Proof. unfold how_many. pose proof (filter_negb l a). lia. Qed.

  (* all clauses made of k of the variables with one polarity *)
  Lemma subsets_hold l k a p :
    all_hold a (map (map (pair p)) (combinations l k)) <->
    (List.length (filter (fun x => negb (Bool.eqb (a x) p)) l) < k)%nat.
  Proof.
    rewrite Nat.lt_nge. rewrite <- combinations_filter. split.
    - intros H (s & Hs & Ha). destruct (H (map (pair p) s)) as (q & v & Hv & E).
      + apply in_map. auto.
      + apply in_map_iff in Hv as (x & E2 & Hx). injection E2 as <- <-. apply Ha in Hx. rewrite E in Hx.
        rewrite Bool.eqb_reflx in Hx. discriminate.
    - intros H c Hc. apply in_map_iff in Hc as (s & <- & Hs).
      destruct (existsb (fun x => Bool.eqb (a x) p) s) eqn:E.
      + apply existsb_exists in E as (x & Hx & E). apply Bool.eqb_prop in E. exists p, x. split; auto. apply in_map_iff. eauto.
      + exfalso. apply H. exists s. split; auto. intros x Hx. apply negb_true_iff.
        destruct (Bool.eqb (a x) p) eqn:E2; auto. rewrite <- E. symmetry. apply existsb_exists. eauto.
  Qed.
  Lemma none_hold a : ~ all_hold a [[] : list (bool * A)].
  Proof. intros H. destruct (H [] (or_introl eq_refl)) as (p & v & [] & _). Qed.
  Lemma nil_hold a : all_hold a ([] : list (list (bool * A))).
  Proof. intros c []. Qed.
  Lemma inequality_less l u a : all_hold a (inequality_constraint l u false) <-> how_many a l < u.
  Proof.
    pose proof (how_many_bounds l a) as B. unfold inequality_constraint.
    destruct (Z.ltb_spec (Z.of_nat (List.length l)) u).
    - split; [lia|]. intros _. apply nil_hold.
    - destruct (Z.ltb_spec u 0); [split; [intros K; destruct (none_hold a K)|lia]|].
      rewrite subsets_hold. unfold how_many.
      replace (filter (fun x => negb (Bool.eqb (a x) false)) l) with (filter a l); [lia|].
      apply filter_ext. intros x. destruct (a x); auto.
  Qed.
  Lemma inequality_greater l u a : all_hold a (inequality_constraint l u true) <-> how_many a l > u.
  Proof.
    pose proof (how_many_bounds l a) as B. unfold inequality_constraint.
    destruct (Z.ltb_spec (Z.of_nat (List.length l)) (Z.of_nat (List.length l) - u)).
    - split; [lia|]. intros _. apply nil_hold.
    - destruct (Z.ltb_spec (Z.of_nat (List.length l) - u) 0); [split; [intros K; destruct (none_hold a K)|lia]|].
      rewrite subsets_hold. unfold how_many.
      replace (filter (fun x => negb (Bool.eqb (a x) true)) l) with (filter (fun x => negb (a x)) l).
      + pose proof (filter_negb l a). lia.
      + apply filter_ext. intros x. destruct (a x); auto.
  Qed.
  Lemma all_hold_app a (F G : list (list (bool * A))) : all_hold a (F ++ G) <-> all_hold a F /\ all_hold a G.
  Proof.
    unfold all_hold. split.
    - intros H. split; intros c Hc; apply H; apply in_app_iff; auto.
    - intros [H1 H2] c Hc. apply in_app_iff in Hc as [|]; auto.
  Qed.
  Lemma less_than_ok l u a : all_hold a (less_than_constraint l u) <-> how_many a l < u.
  Proof. apply inequality_less. Qed.
  Lemma less_or_equal_ok l u a : all_hold a (less_or_equal_constraint l u) <-> how_many a l <= u.
  Proof. unfold less_or_equal_constraint. rewrite inequality_less. lia. Qed.
  Lemma greater_than_ok l u a : all_hold a (greater_than_constraint l u) <-> how_many a l > u.
  Proof. apply inequality_greater. Qed.
  Lemma greater_or_equal_ok l u a : all_hold a (greater_or_equal_constraint l u) <-> how_many a l >= u.
  Proof. unfold greater_or_equal_constraint. rewrite inequality_greater. lia. Qed.
  Lemma equal_to_ok l u a : all_hold a (equal_to_constraint l u) <-> how_many a l = u.
  Proof. unfold equal_to_constraint. rewrite all_hold_app, less_or_equal_ok, greater_or_equal_ok. lia. Qed.

  (* the clauses over all the variables, and the one an assignment falsifies *)
  Lemma products_In {B} (ls : list (list B)) c : In c (products ls) <-> Forall2 (fun x (d : list B) => In x d) c ls.
  Proof.
    revert c. induction ls as [|d ls IH]; intros c; cbn [products].
    - split; [intros [<-|[]]; constructor|]. inversion 1. left; auto.
    - rewrite in_flat_map. split.
      + intros (x & Hx & H). apply in_map_iff in H as (u & <- & Hu). constructor; auto. apply IH. auto.
      + inversion 1; subst. exists x. split; auto. apply in_map. apply IH. auto.
  Qed.
  Definition falsified l a : list (bool * A) := map (fun v => (negb (a v), v)) l.
  Lemma falsified_In l a : In (falsified l a) (products (map (fun v => [(true, v); (false, v)]) l)).
  Proof. apply products_In. induction l; cbn [map falsified]; constructor; auto. destruct (a a0); cbn; auto. Qed.
  Lemma falsified_false l a : ~ clause_holds a (falsified l a).
  Proof.
    intros (p & v & H & E). apply in_map_iff in H as (x & Ex & _). injection Ex as <- <-. destruct (a x); discriminate.
  Qed.
  Lemma not_falsified l a c : In c (products (map (fun v => [(true, v); (false, v)]) l)) -> c <> falsified l a -> clause_holds a c.
  Proof.
    rewrite products_In. revert c. induction l as [|v t IH]; intros c H N; inversion H as [|x l' c' ls' Hx Hc]; subst.
    - exfalso. apply N. reflexivity.
    - destruct (Bool.bool_dec (fst x) (a v)) as [E|E].
      + exists (fst x), v. split; [|congruence]. left. destruct Hx as [<-|[<-|[]]]; reflexivity.
      + destruct (IH c' Hc) as (p & w & Hw & Ew).
        * intros K. apply N. subst. unfold falsified. cbn [map]. f_equal.
          destruct Hx as [<-|[<-|[]]]; cbn in E; destruct (a v); cbn; congruence.
        * exists p, w. split; auto. right; auto.
  Qed.
  Lemma falsified_count l a : Z.of_nat (List.length (filter (fun x => negb (fst x)) (falsified l a))) = how_many a l.
  Proof.
    unfold how_many, falsified. f_equal. induction l as [|v t IH]; cbn [map filter fst]; auto.
    destruct (a v); cbn [negb List.length]; auto.
  Qed.
  Lemma parity_ok l k a : all_hold a (parity_constraint l k) <-> how_many a l mod 2 = k.
  Proof.
    unfold parity_constraint. split.
    - intros H. destruct (Z.eq_dec (how_many a l mod 2) k) as [|N]; auto. exfalso.
      apply (falsified_false l a). apply H. apply filter_In. split; [apply falsified_In|].
      rewrite falsified_count. apply negb_true_iff. apply Z.eqb_neq. auto.
    - intros E c Hc. apply filter_In in Hc as [Hc K]. apply (not_falsified l a c Hc). intros ->.
      rewrite falsified_count, E, Z.eqb_refl in K. discriminate.
  Qed.
  Lemma majority_ok l a : all_hold a (loose_majority_constraint l) <-> 2 * how_many a l >= Z.of_nat (List.length l).
  Proof.
    unfold loose_majority_constraint. rewrite greater_or_equal_ok.
    pose proof (Z.div_mod (Z.of_nat (List.length l) + 1) 2). pose proof (Z.mod_pos_bound (Z.of_nat (List.length l) + 1) 2). lia.
  Qed.
  Lemma minority_ok l a : all_hold a (loose_minority_constraint l) <-> 2 * how_many a l <= Z.of_nat (List.length l).
  Proof.
    unfold loose_minority_constraint. rewrite less_or_equal_ok.
    pose proof (Z.div_mod (Z.of_nat (List.length l)) 2). pose proof (Z.mod_pos_bound (Z.of_nat (List.length l)) 2). lia.
  Qed.
  Lemma half_ceil_ok l a : all_hold a (exactly_half_ceil l) <-> (2 * how_many a l = Z.of_nat (List.length l) \/ 2 * how_many a l = Z.of_nat (List.length l) + 1).
  Proof.
    unfold exactly_half_ceil. rewrite equal_to_ok.
    pose proof (Z.div_mod (Z.of_nat (List.length l) + 1) 2). pose proof (Z.mod_pos_bound (Z.of_nat (List.length l) + 1) 2). lia.
  Qed.
  Lemma half_floor_ok l a : all_hold a (exactly_half_floor l) <-> (2 * how_many a l = Z.of_nat (List.length l) \/ 2 * how_many a l = Z.of_nat (List.length l) - 1).
  Proof.
    unfold exactly_half_floor. rewrite equal_to_ok.
    pose proof (Z.div_mod (Z.of_nat (List.length l)) 2). pose proof (Z.mod_pos_bound (Z.of_nat (List.length l)) 2). lia.
  Qed.
End Comb.
