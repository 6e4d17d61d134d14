(* PLabel.v -- proofs about the labels of the drawn graph *)
From Coq Require Import String Ascii ZArith List Bool Lia Permutation.
From Verif Require Import Spec PyBase MSet MText MQueue MDb MSolver MMain MProc MShare MCli MReport MDot SpecRun SpecThief SpecReport SpecLabel
  PLib PClause PRename PLo PNorm PEval PText PQueue PNode PStep PRun PSolver PSolve PThief PReader PReport.
Import ListNotations.
Open Scope Z_scope.

(* ---- the literal that occurs most ---- *)
Definition num (l : Z) (d : list (Z * Z)) : Z := match dget Z.eqb l d with Some n => n | None => 0 end.
Definition bump1 (d : list (Z * Z)) (l : Z) : list (Z * Z) := dset Z.eqb l (match dget Z.eqb l d with Some n => n + 1 | None => 1 end) d.
Lemma num_bump l x d : num l (bump1 d x) = num l d + (if Z.eq_dec x l then 1 else 0).
Proof.
  unfold num, bump1. destruct (Z.eq_dec x l) as [->|N].
  - rewrite (dget_dset_same _ zspec). destruct (dget Z.eqb l d); lia.
  - rewrite (dget_dset_other _ zspec) by auto. lia.
Qed.
Lemma num_fold l lits : forall d, num l (fold_left bump1 lits d) = num l d + Z.of_nat (count_occ Z.eq_dec lits l).
Proof.
  induction lits as [|x lits IH]; intros d; cbn [fold_left count_occ]; [lia|]. rewrite IH, num_bump. destruct (Z.eq_dec x l); lia.
Qed.
Lemma fold_keys lits : forall d, NoDup (dkeys d) -> NoDup (dkeys (fold_left bump1 lits d)) /\
  forall k, In k (dkeys (fold_left bump1 lits d)) <-> In k (dkeys d) \/ In k lits.
Proof.
  induction lits as [|x lits IH]; intros d N; cbn [fold_left]; [split; [auto|intros k; cbn [In]; tauto]|].
  destruct (IH (bump1 d x) (dset_NoDup _ zspec _ _ _ N)) as [A B]. split; [exact A|]. intros k. rewrite B. unfold bump1.
  rewrite (dset_keys_incl _ zspec). cbn [In]. intuition.
Qed.
Lemma max_by_value_spec d : forall best, exists kv, In kv (best :: d) /\ max_by_value best d = fst kv /\ forall kv', In kv' (best :: d) -> snd kv' <= snd kv.
Proof.
  induction d as [|x d IH]; intros best; cbn [max_by_value].
  - exists best. split; [left; auto|]. split; [auto|]. intros kv' [<-|[]]. lia.
  - destruct (IH (if snd best <? snd x then x else best)) as (kv & I & E & M). exists kv. split.
    + destruct I as [<-|I]; [|right; right; auto]. destruct (snd best <? snd x); [right; left; auto|left; auto].
    + split; [exact E|]. intros kv' [<-|[<-|I']]; [| |apply M; right; auto];
      specialize (M _ (or_introl eq_refl)); destruct (Z.ltb_spec (snd best) (snd x)); lia.
Qed.
Lemma highest_var_spec lits h : highest_var lits = Ok h -> most_frequent lits h.
Proof.
  unfold highest_var. change (count_literals lits) with (fold_left bump1 lits []).
  destruct (fold_keys lits [] (NoDup_nil _)) as [N K]. pose proof (fun l => num_fold l lits []) as C.
  remember (fold_left bump1 lits []) as d eqn:Ed. clear Ed. destruct d as [|kv d]; [discriminate|]. intros E. injection E as <-.
  destruct (max_by_value_spec d kv) as (b & I & -> & M).
  assert (V : forall k n, In (k, n) (kv :: d) -> n = Z.of_nat (count_occ Z.eq_dec lits k)).
  { intros k n J. specialize (C k). unfold num in C. rewrite (dget_In_NoDup _ zspec _ _ _ N J) in C. cbn [dget] in C. lia. }
  destruct b as [k n]. cbn [fst snd] in *. pose proof (V _ _ I) as Hn. split.
  - destruct (proj1 (K k)) as [[]|J]; [|exact J]. apply in_map_iff. exists (k, n). auto.
  - intros l. destruct (in_dec Z.eq_dec l lits) as [J|J].
    + destruct (proj2 (K l) (or_intror J)) as []; [destruct kv as [k0 n0]|].
      * cbn [fst] in *. subst k0. specialize (M _ (or_introl eq_refl)). pose proof (V _ _ (or_introl eq_refl)). cbn [snd] in M. lia.
      * apply in_map_iff in H as ([k0 n0] & Ek & H). cbn [fst] in Ek. subst k0. specialize (M _ (or_intror H)). pose proof (V _ _ (or_intror H)). cbn [snd] in M. lia.
    + apply (proj1 (count_occ_not_In Z.eq_dec lits l)) in J. lia.
Qed.
Lemma most_frequent_perm l l' h : Permutation l l' -> most_frequent l h -> most_frequent l' h.
Proof.
  intros P [A B]. split; [eapply Permutation_in; eauto|]. intros x.
  pose proof (proj1 (Permutation_count_occ Z.eq_dec l l') P) as Q. rewrite <- !Q. apply B.
Qed.
Definition top (s : cset) : Prop := most_frequent (concat (raws s)) (highest_occurring_var s).
Lemma rename_top s s' : rename_vars s = Ok s' -> top s'.
Proof.
  unfold rename_vars. destruct (rename_clauses (clauses s) [] 1) as [[cs nm] id]. intros H. apply bind_ok in H as (h & E & H).
  apply bind_ok in H as (f & _ & H). injection H as <-. unfold top. cbn [highest_occurring_var sort_within_clauses set_clauses set_names set_highest].
  apply highest_var_spec in E. eapply most_frequent_perm; [|exact E].
  unfold raws. cbn [clauses sort_within_clauses set_clauses set_names set_highest]. clear. induction cs as [|c cs IH]; cbn [map concat]; [constructor|].
  apply Permutation_app; [|exact IH]. apply Permutation_sym. apply (sort_abs_Perm (raw c)).
Qed.
Lemma sort_top s : top s -> top (sort_clauses s).
Proof.
  destruct (sort_clauses_eq s) as (cs & P & ->). unfold top. cbn [highest_occurring_var set_clauses]. apply most_frequent_perm.
  unfold raws. cbn [clauses set_clauses]. apply Permutation_concat. apply Permutation_map. exact P.
Qed.
Lemma lo_loop_top fuel m : forall s s', top s -> lo_loop fuel m s = Ok s' -> top s'.
Proof.
  induction fuel as [|f IH]; intros s s' T H; cbn [lo_loop] in H; [discriminate|].
  apply bind_ok in H as (b & _ & H). destruct b; [injection H as <-; exact T|]. destruct (sorts_clauses m).
  - apply bind_ok in H as (b1 & _ & H). destruct b1; [injection H as <-; apply sort_top; exact T|].
    apply bind_ok in H as (s2 & E & H). exact (IH _ _ (rename_top _ _ E) H).
  - apply bind_ok in H as (s2 & E & H). exact (IH _ _ (rename_top _ _ E) H).
Qed.
Lemma to_lo_top fuel m z t s s' : to_lo_condition fuel m z t s = Ok s' -> top s'.
Proof. rewrite to_lo_unfold. intros H. apply bind_ok in H as (s3 & E & H). exact (lo_loop_top _ _ _ _ (rename_top _ _ E) H). Qed.
Lemma searched_top hash o root x : searched hash o root x -> top x.
Proof.
  intros H. destruct H as [lf r H|lf x l r c c1 c2 h _ _ _ _ E H].
  - unfold prepare_root in H. apply bind_ok in H as (r1 & E1 & H). apply bind_ok in H as ([h r2] & E2 & H). injection H as <-.
    apply get_hash_forced in E2 as ->. exact (to_lo_top _ _ _ _ _ _ E1).
  - apply get_hash_forced in H as ->. exact (to_lo_top _ _ _ _ _ _ E).
Qed.

(* ---- what a set shows ---- *)
Definition shows (s : cset) : shown :=
  mkShown (numbered_clauses (clauses s)) (final_names_map s) (original_values s) (evaluated_vars s) (highest_occurring_var s).
Lemma shows_lits s : lits_of (shows s) = raws s.
Proof. unfold lits_of, shows, numbered_clauses, raws. cbn [sh_formula]. rewrite map_map. reflexivity. Qed.
Lemma pretty_shown s : svalue s = None -> clauses s <> [] -> nonempty_clauses (raws s) ->
  to_pretty s = Ok (shown_formula (numbered_clauses (clauses s))).
Proof.
  intros V N E. unfold to_pretty. rewrite V. destruct (clauses s) as [|c cs] eqn:Ec; [congruence|]. rewrite <- Ec in *. f_equal.
  unfold shown_formula, numbered_clauses. rewrite map_map. f_equal.
  assert (F : filter nonempty_raw (clauses s) = clauses s).
  { apply forallb_filter_id, forallb_forall. intros d I. unfold nonempty_raw. destruct (raw d) eqn:Er; [|reflexivity].
    exfalso. apply (E []); [|reflexivity]. rewrite <- Er. apply in_map. exact I. }
  rewrite F. apply map_ext. reflexivity.
Qed.

(* ---- texts that can be taken apart ---- *)
(* f writes values so that the rest of a text that starts with a character of T can be told from it *)
Definition parted {A} (T : list ascii) (f : A -> text) : Prop :=
  forall a b x y (u v : list ascii), In x T -> In y T -> (f a : list ascii) ++ x :: u = (f b : list ascii) ++ y :: v -> a = b /\ x = y /\ u = v.
Lemma parted_Z T : Forall (fun x => numchar x = false) T -> parted T str_Z.
Proof. intros F a b x y u v X Y E. rewrite Forall_forall in F. apply (number_then a b x y u v (F x X) (F y Y) E). Qed.
Lemma app_head (p : list ascii) u v : p ++ u = p ++ v -> u = v. Proof. apply app_inv_head. Qed.
(* lists: items joined by x :: sep, then close *)
Lemma parted_join {A} (f : A -> text) x (sep : list ascii) close :
  parted [x; close] f -> x <> close -> (forall a u, exists c t, (f a : list ascii) ++ u = c :: t /\ c <> close) ->
  forall l m u v, (join (x :: sep) (map f l) : list ascii) ++ close :: u = (join (x :: sep) (map f m) : list ascii) ++ close :: v -> l = m /\ u = v.
Proof.
  intros P N S.
  assert (ST : forall a l u, exists c t, (join (x :: sep) (map f (a :: l)) : list ascii) ++ u = c :: t /\ c <> close).
  { intros a l u. destruct l as [|b l]; [exact (S a u)|].
    change (join (x :: sep) (map f (a :: b :: l))) with ((f a : list ascii) ++ (x :: sep) ++ (join (x :: sep) (map f (b :: l)) : list ascii)).
    rewrite <- app_assoc. apply S. }
  induction l as [|a l IH]; intros m u v E.
  - destruct m as [|b m]; [cbn [map join app] in E; injection E as ->; auto|].
    exfalso. destruct (ST b m (close :: v)) as (c & t & Q & D). rewrite Q in E. cbn [map join app] in E. injection E as E _. congruence.
  - destruct m as [|b m].
    + exfalso. destruct (ST a l (close :: u)) as (c & t & Q & D). rewrite Q in E. cbn [map join app] in E. injection E as E _. congruence.
    + assert (J : forall a l u, (join (x :: sep) (map f (a :: l)) : list ascii) ++ close :: u =
          (f a : list ascii) ++ match l with [] => close :: u | _ => x :: sep ++ (join (x :: sep) (map f l) : list ascii) ++ close :: u end).
      { clear. intros a [|b l] u; [reflexivity|].
        change (join (x :: sep) (map f (a :: b :: l))) with ((f a : list ascii) ++ (x :: sep) ++ (join (x :: sep) (map f (b :: l)) : list ascii)).
        rewrite <- !app_assoc. reflexivity. }
      rewrite !J in E. destruct l as [|a' l], m as [|b' m]; apply P in E; try (cbn [In]; tauto).
      * destruct E as (-> & _ & ->). auto.
      * destruct E as (_ & Q & _). exfalso. apply N. solve [exact Q|exact (eq_sym Q)].
      * destruct E as (-> & _ & E). apply app_inv_head in E. apply IH in E as [-> ->]. auto.
Qed.
Lemma str_Z_start z : exists c t, (str_Z z : list ascii) = c :: t /\ numchar c = true.
Proof.
  pose proof (str_Z_numchar z) as H. destruct (str_Z z) as [|c t] eqn:E; [exfalso; exact (str_Z_ne z E)|].
  exists c, t. split; [reflexivity|]. inv H. assumption.
Qed.
Lemma numchar_ne c d : numchar c = true -> numchar d = false -> c <> d. Proof. congruence. Qed.

Lemma parted_clause T : parted T shown_clause.
Proof.
  intros [a i] [b j] x y u v _ _ E. unfold shown_clause in E. cbn [fst snd] in E. rewrite <- !app_assoc in E. apply app_inv_head in E.
  destruct (parted_join str_Z " "%char (txt "| ") ")"%char) with (l := a) (m := b) (u := txt "[" ++ str_Z i ++ txt "]" ++ x :: u) (v := txt "[" ++ str_Z j ++ txt "]" ++ y :: v) as [-> E2].
  - apply parted_Z. repeat constructor.
  - discriminate.
  - intros z w. destruct (str_Z_start z) as (c & t & -> & N). exists c, (t ++ w). split; [reflexivity|]. exact (numchar_ne c ")"%char N eq_refl).
  - exact E.
  - apply app_inv_head in E2. destruct (number_then i j "]"%char "]"%char (x :: u) (y :: v) eq_refl eq_refl E2) as (-> & _ & E3).
    injection E3 as -> ->. auto.
Qed.
Lemma parted_pair T : Forall (fun x => numchar x = false) T -> parted T shown_pair.
Proof.
  intros F [a i] [b j] x y u v X Y E. unfold shown_pair in E. cbn [fst snd] in E. rewrite <- !app_assoc in E.
  destruct (number_then a b ":"%char ":"%char (" "%char :: str_Z i ++ x :: u) (" "%char :: str_Z j ++ y :: v) eq_refl eq_refl E) as (-> & _ & E2).
  injection E2 as E2. rewrite Forall_forall in F. destruct (number_then i j x y u v (F x X) (F y Y) E2) as (-> & -> & ->). auto.
Qed.
Lemma parted_value T : parted T shown_value.
Proof.
  intros [a i] [b j] x y u v X Y E. unfold shown_value in E. cbn [fst snd] in E. rewrite <- !app_assoc in E.
  assert (K : forall (i : bool) (x : ascii) (u : list ascii), exists w : list ascii, (if i then txt ": True" else txt ": False") ++ x :: u = ":"%char :: w /\ w = " "%char :: (if i then txt "True" else txt "False") ++ x :: u).
  { clear. intros [] x u; eexists; split; reflexivity. }
  destruct (K i x u) as (w1 & K1 & W1). destruct (K j y v) as (w2 & K2 & W2). change (list ascii) with text in *. rewrite K1, K2 in E.
  destruct (number_then a b ":"%char ":"%char w1 w2 eq_refl eq_refl E) as (-> & _ & E2). subst w1 w2. injection E2 as E2.
  destruct i, j; cbn [txt list_ascii_of_string app] in E2; try discriminate; injection E2 as -> ->; auto.
Qed.
Lemma label_text_inj sh sh' : label_text sh = label_text sh' -> sh = sh'.
Proof.
  destruct sh as [F f ov sol h], sh' as [F' f' ov' sol' h']. unfold label_text, shown_solution. cbn [sh_formula sh_names sh_origin sh_path sh_most].
  intros E. rewrite <- !app_assoc in E.
  assert (NZ : forall d z w, numchar d = false -> exists c t, (str_Z z : list ascii) ++ w = c :: t /\ c <> d).
  { intros d z w D. destruct (str_Z_start z) as (c & t & -> & N). exists c, (t ++ w). split; [reflexivity|]. exact (numchar_ne c _ N D). }
  unfold shown_formula, line_end in E.
  destruct (parted_join shown_clause " "%char (txt "& ") "092"%char (parted_clause _) ltac:(discriminate)) with (2 := E) as [-> E1].
  { intros [c k] w. unfold shown_clause. cbn [fst snd]. eexists. eexists. split; [reflexivity|discriminate]. }
  clear E. injection E1 as E1.
  destruct (parted_join str_Z ","%char (txt " ") "]"%char (parted_Z [","%char; "]"%char] ltac:(repeat constructor)) ltac:(discriminate)) with (2 := E1) as [-> E2].
  { intros z w. apply NZ. reflexivity. }
  clear E1. injection E2 as E2.
  destruct (parted_join shown_pair ","%char (txt " ") "}"%char (parted_pair [","%char; "}"%char] ltac:(repeat constructor)) ltac:(discriminate)) with (2 := E2) as [-> E3].
  { intros [z y] w. unfold shown_pair. cbn [fst snd]. rewrite <- app_assoc. apply NZ. reflexivity. }
  clear E2. injection E3 as E3.
  destruct (parted_join shown_value ","%char (txt " ") "}"%char (parted_value _) ltac:(discriminate)) with (2 := E3) as [-> E4].
  { intros [z y] w. unfold shown_value. cbn [fst snd]. rewrite <- app_assoc. apply NZ. reflexivity. }
  clear E3. injection E4 as E4. apply str_Z_inj in E4. rewrite E4. reflexivity.
Qed.

(* ---- the sets of a search ---- *)
Lemma find_dget n (d : list (Z * Z)) : option_map snd (find (fun p => fst p =? n) d) = dget Z.eqb n d.
Proof.
  induction d as [|[k v] d IH]; [reflexivity|]. cbn [find dget fst]. rewrite Z.eqb_sym. destruct (n =? k); [reflexivity|exact IH].
Qed.
Lemma origin_of_orig F s v : node F s -> In v (fvars (raws s)) -> origin_of (shows s) v = orig s v.
Proof.
  intros N I. unfold origin_of, orig, name_at. cbn [shows sh_names sh_origin].
  pose proof (proj1 (rd_vars _ _ (n_ready _ _ N) v) I) as V. pose proof (rd_len _ _ (n_ready _ _ N)) as L.
  destruct (final_names_map s) as [|f fs] eqn:E; [cbn [List.length] in L; lia|]. destruct (Z.leb_spec 1 v); [|lia].
  destruct (nth_error (f :: fs) (Z.to_nat (v - 1))); [apply find_dget|reflexivity].
Qed.
Lemma origin_oname F s v : node F s -> In v (fvars (raws s)) -> origin (shows s) v = oname s v.
Proof. intros N I. unfold origin, oname. rewrite (origin_of_orig F s v N I). reflexivity. Qed.
Lemma node_about F s : node F s -> about F (shows s).
Proof.
  intros N. unfold about. rewrite shows_lits. split; [exact (n_ev _ _ N)|]. split; [|split].
  - intros v I. destruct (n_orig _ _ N v I) as (x & A & _ & B & C). exists x. rewrite (origin_of_orig F s v N I). auto.
  - intros v w I J E. apply (n_inj _ _ N v w I J). rewrite (origin_oname F s v N I), (origin_oname F s w N J) in E. unfold oname in E.
    destruct (n_orig _ _ N v I) as (x & A & _). destruct (n_orig _ _ N w J) as (y & B & _). rewrite A, B in *. congruence.
  - intros a X. rewrite (n_sem _ _ N a X). apply cnf_true_ext_iff. intros v I. rewrite (origin_oname F s v N I). reflexivity.
Qed.
Lemma searched_left hash o root x : root_ok root -> ~ In 0 (fvars (raws root)) -> searched hash o root x ->
  clauses_left (negb (o_rdb o)) (clauses root) (shows x).
Proof.
  intros RO HZ Hx. pose proof (searched_node _ _ _ _ RO Hx) as N. destruct (searched_prov hash o root x RO HZ Hx) as (Ds & P & HF).
  exists Ds. split; [exact P|]. cbn [shows sh_formula sh_path]. unfold numbered_clauses.
  assert (G : forall cs, incl cs (clauses x) -> forall Es,
     Forall2 (fun c D => (o_rdb o = false -> initial_index c = initial_index D) /\
        Permutation (map (rename_lit (oname x)) (raw c)) (open_literals (evaluated_vars x) (raw D))) cs Es ->
     Forall2 (fun c D => (negb (o_rdb o) = true -> snd c = initial_index D) /\
        Permutation (map (rename_lit (origin (shows x))) (fst c)) (open_literals (evaluated_vars x) (raw D)))
       (map (fun c => (raw c, initial_index c)) cs) Es).
  { induction cs as [|c cs IH]; intros Hin Es H; inversion H as [|c' D cs' Es' [A B] H']; subst; cbn [map]; constructor.
    - cbn [fst snd]. split; [intros K; apply A; destruct (o_rdb o); [discriminate|reflexivity]|].
      erewrite map_ext_in; [exact B|]. intros l I. apply rename_lit_ext. apply (origin_oname (raws root) x _ N).
      apply in_fvars. exists (raw c). split; [apply in_map; apply Hin; left; reflexivity|]. apply in_map. exact I.
    - apply IH; [|exact H']. intros z Z. apply Hin. right. exact Z. }
  apply G; [apply incl_refl|exact HF].
Qed.
Lemma node_pretty F s : node F s -> to_pretty s = Ok (shown_formula (numbered_clauses (clauses s))).
Proof.
  intros N. apply pretty_shown; [apply (n_value _ _ N)|apply (rd_ne _ _ (n_ready _ _ N))|apply (rd_nonempty _ _ (n_ready _ _ N))].
Qed.
Lemma solution_shown d : str_solution (Some d) = shown_solution d.
Proof.
  unfold str_solution, shown_solution. f_equal. f_equal. f_equal. apply map_ext. intros [k []]; reflexivity.
Qed.
Lemma node_label_shown F s : node F s -> node_label s = Ok (label_text (shows s)).
Proof.
  intros N. unfold node_label. rewrite (node_pretty F s N). cbn [bind]. f_equal. rewrite solution_shown. unfold label_text, str_list, str_dict.
  cbn [shows sh_formula sh_names sh_origin sh_path sh_most].
  change (txt "fnm = [") with (txt "fnm = " ++ txt "["). change (txt "ov = {") with (txt "ov = " ++ txt "{").
  rewrite <- !app_assoc. reflexivity.
Qed.

(* ---- the boxes ---- *)
Lemma boxes_combine l : dot_boxes l = combine (dot_nodes l) (dot_sets l).
Proof.
  induction l as [|c l IH]; [reflexivity|]. unfold dot_boxes, dot_nodes, dot_sets in *. cbn [flat_map]. destruct c; cbn [app combine]; rewrite <- IH; reflexivity.
Qed.
Lemma combine_self {A B} (f : A -> B) l : combine (map f l) l = map (fun s => (f s, s)) l.
Proof. induction l as [|x l IH]; [reflexivity|]. cbn [map combine]. rewrite IH. reflexivity. Qed.
Lemma mapM_labels F l : (forall s, In s l -> node F s) ->
  mapM (fun b => lb <- node_label (snd b) ;; Ok (fst b, lb)) (map (fun s => (sid s, s)) l) = Ok (map (fun s => (sid s, label_text (shows s))) l).
Proof.
  induction l as [|s l IH]; intros H; [reflexivity|]. cbn [map mapM fst snd]. rewrite (node_label_shown F s (H s (or_introl eq_refl))). cbn [bind].
  rewrite IH by (intros x I; apply H; right; exact I). reflexivity.
Qed.
Lemma expands_path hash o lf m F x k1 k2 y : node F x -> expands hash o lf m x k1 k2 -> k1 = KNode y \/ k2 = KNode y ->
  exists b, Permutation (evaluated_vars y) ((oname x (pivot_of x), b) :: evaluated_vars x).
Proof.
  intros N (l & r & Ev & P1 & P2) H. pose proof (node_view _ (o_rdb o) _ N) as Nv.
  destruct (node_evaluate _ _ Nv) as (l' & r' & po & Ev' & Hpi & Hp & Hn & H0 & HF & C1 & C2). rewrite Ev in Ev'. injection Ev' as <- <-.
  assert (Q : oname x (pivot_of x) = po).
  { assert (orig x (pivot_of x) = Some po) as K; [|unfold oname; rewrite K; reflexivity].
    unfold pivot_of in *. rewrite view_raws in Hp. destruct (o_rdb o); exact Hp. }
  rewrite Q.
  assert (G : forall b c k, child_of (view (o_rdb o) x) (pivot_of (view (o_rdb o) x)) po b c -> prepared hash o lf m c k -> k = KNode y ->
     Permutation (evaluated_vars y) ((po, b) :: evaluated_vars x)).
  { intros b c k C P ->. inversion P as [|c0 Hv Hlo]; subst.
    destruct (to_lo_spec _ _ _ _ _ _ (child_pre_lo _ _ _ _ _ C Hv) Hlo) as (f & NM & _).
    change (evaluated_vars (finish hash c0)) with (evaluated_vars c0). rewrite (nl_evaluated _ _ _ NM), (ch_evaluated _ _ _ _ _ C).
    rewrite (dset_new _ zspec) by exact Hn. eapply Permutation_trans; [apply Permutation_sym, Permutation_cons_append|]. constructor. apply view_ev. }
  destruct H as [->| ->]; [exists true; exact (G _ _ _ C1 P1 eq_refl)|exists false; exact (G _ _ _ C2 P2 eq_refl)].
Qed.
(* an arrow to a leaf *)
Lemma expands_leaf hash o lf m F x k1 k2 v : node F x -> expands hash o lf m x k1 k2 -> In v (kid_leaf k1 ++ kid_leaf k2) ->
  exists b, forall a, extends a ((oname x (pivot_of x), b) :: evaluated_vars x) -> (v = true -> cnf_true a F) /\ (v = false -> ~ cnf_true a F).
Proof.
  intros N (l & r & Ev & P1 & P2) H. pose proof (node_view _ (o_rdb o) _ N) as Nv.
  destruct (node_evaluate _ _ Nv) as (l' & r' & po & Ev' & Hpi & Hp & Hn & H0 & HF & C1 & C2). rewrite Ev in Ev'. injection Ev' as <- <-.
  assert (Q : oname x (pivot_of x) = po).
  { assert (orig x (pivot_of x) = Some po) as K; [|unfold oname; rewrite K; reflexivity].
    unfold pivot_of in *. rewrite view_raws in Hp. destruct (o_rdb o); exact Hp. }
  rewrite Q.
  assert (G : forall b c k, child_of (view (o_rdb o) x) (pivot_of (view (o_rdb o) x)) po b c -> prepared hash o lf m c k -> In v (kid_leaf k) ->
     forall a, extends a ((po, b) :: evaluated_vars x) -> (v = true -> cnf_true a F) /\ (v = false -> ~ cnf_true a F)).
  { intros b c k C P I a X. inversion P as [w Hv|c0 Hv Hlo]; subst k; [|destruct I]. destruct I as [<-|[]]. split; intros ->.
    - apply (child_leaf_true F _ po b c Nv Hp Hn C Hv). rewrite (ch_evaluated _ _ _ _ _ C). rewrite (dset_new _ zspec) by exact Hn.
      intros u d J. apply X. apply in_app_iff in J as [J|[J|[]]]; [right|left; exact J].
      apply (Permutation_in _ (view_ev (o_rdb o) x)). exact J.
    - intros T. apply (n_sem _ _ N a) in T; [|intros u d J; apply X; right; exact J].
      assert (Hb : a (oname x (pivot_of x)) = b) by (rewrite Q; apply X; left; reflexivity).
      apply (child_false _ _ _ _ _ C Hv (fun u => a (oname x u))).
      + unfold pivot_of in *. rewrite view_raws. exact Hb.
      + rewrite view_raws. exact T. }
  apply in_app_iff in H as [H|H]; [exists true; exact (G _ _ _ C1 P1 H)|exists false; exact (G _ _ _ C2 P2 H)].
Qed.
