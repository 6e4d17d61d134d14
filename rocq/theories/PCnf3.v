(* PCnf3.v -- DIMACS output of the generator *)
From Coq Require Import String Ascii ZArith NArith List Bool Lia Arith.
From Verif Require Import Spec SpecInput PyBase MSet MText MMain MCnf SpecCnf SpecRun PText PReader PLib PCnf1 PCnf2 PGen6.
Import ListNotations.
Open Scope Z_scope.

Lemma clause_line_spaced c : spaced (c ++ [0]) (clause_line c).
Proof.
  unfold clause_line. induction c as [|x c IH].
  - apply (spaced_last [] 0); [constructor|apply str_Z_numeral].
  - cbn [app map]. destruct (c ++ [0]) as [|y t] eqn:E; [destruct c; discriminate|]. cbn [map] in *.
    change (join (txt " ") (str_Z x :: str_Z y :: map str_Z t)) with ([] ++ str_Z x ++ " "%char :: join (txt " ") (str_Z y :: map str_Z t)).
    apply spaced_cons; [constructor|apply str_Z_numeral|exact IH].
Qed.
Lemma clause_line_one c : one_line (clause_line c).
Proof.
  unfold clause_line. apply one_line_join; [apply one_line_txt; reflexivity|]. apply Forall_forall. intros t H.
  apply in_map_iff in H as (z & <- & _). apply one_line_str.
Qed.
Lemma lstrip_incl sp t x : In x (lstrip sp t) -> In x t.
Proof. induction t as [|y t IH]; cbn; auto. destruct (sp y); auto. Qed.
Lemma lstrip_last sp t x : sp x = false -> exists u, lstrip sp (t ++ [x]) = u ++ [x].
Proof.
  intros H. induction t as [|y t (u & IH)]; cbn [app lstrip]; [rewrite H; exists []; auto|].
  destruct (sp y); [eauto|exists (y :: t); auto].
Qed.
Lemma comment_of_comment t : comment_line (comment_of t).
Proof.
  unfold comment_of, rstrip. change (txt "c " ++ t) with ("c"%char :: (txt " " ++ t)). cbn [rev].
  destruct (lstrip_last is_uspace (rev (txt " " ++ t)) "c"%char eq_refl) as (u & E). rewrite E, rev_app_distr. exists [], (rev u). split; [reflexivity|constructor].
Qed.
Lemma comment_of_one t : one_line t -> one_line (comment_of t).
Proof.
  intros H. unfold comment_of, rstrip, one_line. intros K. apply in_rev in K. apply lstrip_incl in K. apply in_rev in K.
  destruct K as [K|[K|K]]; try discriminate. auto.
Qed.
Lemma split_on_one c t : Forall (fun p => ~ In c p) (split_on c t).
Proof.
  induction t as [|x t IH]; cbn [split_on]; [constructor; [intros []|constructor]|].
  destruct (Ascii.eqb_spec x c) as [->|N]; [constructor; [intros []|auto]|].
  destruct (split_on c t) as [|p ps]; [constructor; [intros [K|[]]; auto|constructor]|].
  inversion IH; subst. constructor; auto. intros [K|K]; auto.
Qed.
Lemma removelast_In {A} (l : list A) x : In x (removelast l) -> In x l.
Proof. induction l as [|y t IH]; cbn [removelast]; auto. destruct t; [intros []|]. intros [->|H]; [left; auto|right; auto]. Qed.
Lemma comments_ok h e : Forall comment_line (comments h e) /\ Forall one_line (comments h e).
Proof.
  unfold comments. split; apply Forall_app; split.
  - apply Forall_forall. intros t H. apply in_map_iff in H as (u & <- & _). apply comment_of_comment.
  - destruct e; [|constructor]. apply Forall_forall. intros u H. apply in_map_iff in H as (v & <- & _). apply comment_of_comment.
  - apply Forall_forall. intros t H. apply in_map_iff in H as (u & <- & Hu). apply comment_of_one. apply removelast_In in Hu.
    pose proof (split_on_one newline h) as F. rewrite Forall_forall in F. apply F. auto.
  - destruct e as [e|]; [|constructor]. apply Forall_forall. intros t H. apply in_map_iff in H as (u & <- & Hu). apply comment_of_one.
    pose proof (split_on_one newline e) as F. rewrite Forall_forall in F. apply F. auto.
Qed.

Definition body (c : cnf) : list text :=
  p_line (Z.of_nat (List.length (cn_names c))) (Z.of_nat (List.length (cn_clauses c))) :: map clause_line (cn_clauses c) ++
  (match cn_clauses c with [] => [[]; []] | _ => [[]] end).
Lemma separated_cons l ls : ls <> [] -> separated nl (l :: ls) = l ++ nl :: separated nl ls.
Proof. destruct ls; [congruence|reflexivity]. Qed.
Lemma separated_comments cs ls : ls <> [] -> concat (map (fun l => l ++ [newline]) cs) ++ separated nl ls = separated nl (cs ++ ls).
Proof.
  intros H. induction cs as [|x cs IH]; auto. cbn [map concat app]. rewrite separated_cons.
  - rewrite <- app_assoc, IH, <- app_assoc. reflexivity.
  - intros E. apply app_eq_nil in E as [_ E]. contradiction.
Qed.
Lemma separated_lines p ls : concat (map (fun cl => newline :: clause_line cl) ls) ++ [newline] = separated nl ([] :: map clause_line ls ++ [[]]) ->
  (p ++ concat (map (fun cl => newline :: clause_line cl) ls)) ++ [newline] = separated nl (p :: map clause_line ls ++ [[]]).
Proof.
  intros H. rewrite <- app_assoc, H, !separated_cons; try (intros E; apply app_eq_nil in E as [_ E]; discriminate). reflexivity.
Qed.
Lemma lines_separated ls : concat (map (fun cl => newline :: clause_line cl) ls) ++ [newline] = separated nl ([] :: map clause_line ls ++ [[]]).
Proof.
  induction ls as [|x ls IH]; [reflexivity|]. cbn [map concat app]. rewrite separated_cons by discriminate.
  f_equal. rewrite <- app_assoc, IH. rewrite !separated_cons; try (intros E; apply app_eq_nil in E as [_ E]; discriminate). reflexivity.
Qed.
Lemma file_lines v h cmd c : cnfgen_file v h cmd c = file_of ((if v then comments h (Some (txt "COMMAND LINE: cnfgen " ++ cmd ++ [newline])) else []) ++ body c).
Proof.
  unfold cnfgen_file, dimacs. unfold file_of. rewrite <- separated_comments by discriminate. rewrite <- !app_assoc. f_equal.
  unfold body, p_line. destruct (cn_clauses c) as [|x cs]; [cbn [map concat app separated]; rewrite <- ?app_assoc; reflexivity|].
  rewrite <- separated_lines; [|apply lines_separated]. rewrite <- !app_assoc. reflexivity.
Qed.
Lemma body_lines F : dimacs_body (terminated F) (map clause_line F).
Proof.
  induction F as [|c F IH]; [constructor|]. cbn [map]. change (terminated (c :: F)) with ((c ++ [0]) ++ terminated F).
  apply body_ints; auto.
  - intros E. destruct c; discriminate.
  - apply clause_line_spaced.
Qed.
Lemma file_body v h cmd c : exists h0 ls rest, cnfgen_file v h cmd c = file_of (h0 :: ls ++ rest) /\
  Forall one_line (h0 :: ls ++ rest) /\ ignored_rest rest /\ dimacs_body (terminated (cn_clauses c)) ls.
Proof.
  rewrite file_lines.
  set (cs := if v then comments h (Some (txt "COMMAND LINE: cnfgen " ++ cmd ++ [newline])) else []).
  assert (C : Forall comment_line cs /\ Forall one_line cs) by (subst cs; destruct v; [apply comments_ok|auto]).
  destruct C as [C1 C2].
  set (p := p_line (Z.of_nat (List.length (cn_names c))) (Z.of_nat (List.length (cn_clauses c)))).
  set (rest := match cn_clauses c with [] => [[]; []] | _ => [[]] end : list text).
  assert (Er : rest = [] :: tl rest) by (subst rest; destruct (cn_clauses c); reflexivity).
  assert (Hr : Forall one_line rest) by (subst rest; destruct (cn_clauses c); repeat constructor; intros []).
  assert (Hp : one_line p).
  { subst p. unfold p_line. repeat apply one_line_app; try apply one_line_str; apply one_line_txt; reflexivity. }
  assert (Hb : Forall one_line (body c)).
  { unfold body. apply Forall_cons; auto. apply Forall_app. split; auto. apply Forall_forall. intros t Ht.
    apply in_map_iff in Ht as (u & <- & _). apply clause_line_one. }
  assert (I : ignored_rest rest) by (rewrite Er; right; exists [], (tl rest); split; auto; constructor).
  pose proof (body_lines (cn_clauses c)) as B.
  destruct cs as [|h0 cs'].
  - exists p, (map clause_line (cn_clauses c)), rest. auto.
  - inversion C1; inversion C2; subst. exists h0, (cs' ++ p :: map clause_line (cn_clauses c)), rest.
    split; [cbn [app]; unfold body; fold rest; rewrite <- app_assoc; reflexivity|]. split; [|split; auto].
    + apply Forall_cons; auto. rewrite <- app_assoc. apply Forall_app. split; auto.
    + apply body_comments; auto. apply body_problem; [apply p_line_problem|]. exact B.
Qed.
Lemma well_nonzero c : well c -> forall cl, In cl (cn_clauses c) -> ~ In 0 cl.
Proof. intros [N W] cl Hc Z0. specialize (W cl 0 Hc Z0). lia. Qed.
(* the file as the reader of NDP understands it *)
Lemma file_represents v h cmd c : well c -> (forall cl, In cl (cn_clauses c) -> (1 <= List.length cl <= 3)%nat) ->
  represents (InDimacs (cnfgen_file v h cmd c)) (cn_clauses c).
Proof.
  intros W H. destruct (file_body v h cmd c) as (h0 & ls & rest & -> & O & I & B).
  replace (cn_clauses c) with (cn_clauses c ++ match ([] : list Z) with [] => [] | _ => [[]] end) by apply app_nil_r.
  apply (rep_dimacs h0 ls rest (cn_clauses c) []); auto.
  - intros cl Hc. pose proof (H cl Hc). split; [intros ->; cbn in H0; lia|]. split; [eapply well_nonzero; eauto|lia].
  - left. cbn. lia.
  - rewrite app_nil_r. exact B.
Qed.
Lemma file_read v h cmd c : well c -> (forall cl, In cl (cn_clauses c) -> (List.length cl <= 3)%nat) ->
  get_cnf_set (InDimacs (cnfgen_file v h cmd c)) = Ok (add_numbered empty_set 1 (map dedup (filter ne_clause (cn_clauses c)))).
Proof.
  intros W H. destruct (file_body v h cmd c) as (h0 & ls & rest & -> & O & I & B).
  rewrite (read_body h0 ls rest (terminated (cn_clauses c))) by auto. rewrite feed_formula; [reflexivity|].
  intros cl Hc. split; [eapply well_nonzero; eauto|auto].
Qed.
(* the formula without its empty clauses *)
Definition without_empty (c : cnf) : cnf := mkCnf (cn_names c) (filter ne_clause (cn_clauses c)).
Lemma filter_twice {A} (f : A -> bool) l : filter f (filter f l) = filter f l.
Proof. induction l as [|x l IH]; auto. cbn [filter]. destruct (f x) eqn:E; auto. cbn [filter]. rewrite E, IH. auto. Qed.
Lemma without_empty_well c : well c -> well (without_empty c).
Proof. intros [N W]. split; auto. intros cl l Hc. apply filter_In in Hc as [Hc _]. apply W. auto. Qed.
Lemma file_without_empty v h cmd c : well c -> (forall cl, In cl (cn_clauses c) -> (List.length cl <= 3)%nat) ->
  get_cnf_set (InDimacs (cnfgen_file v h cmd c)) = get_cnf_set (InDimacs (cnfgen_file v h cmd (without_empty c))).
Proof.
  intros W H. rewrite !file_read; auto.
  - cbn [without_empty cn_clauses]. rewrite filter_twice. auto.
  - apply without_empty_well; auto.
  - intros cl Hc. apply filter_In in Hc as [Hc _]. auto.
Qed.
Lemma without_empty_clauses c : cnf_clauses (without_empty c) = filter (fun cl => match cl with [] => false | _ => true end) (cnf_clauses c).
Proof.
  unfold cnf_clauses. cbn [without_empty cn_clauses cn_names]. induction (cn_clauses c) as [|[|z cl] F IH]; cbn [filter map ne_clause uncompress_clause]; auto.
  f_equal; auto.
Qed.
Lemma split_terminated F cl : In cl F -> exists pre post, terminated F = pre ++ cl ++ 0 :: post /\ (pre = [] \/ exists p, pre = p ++ [0]).
Proof.
  intros H. apply in_split in H as (F1 & F2 & ->). exists (terminated F1), (terminated F2). split.
  - unfold terminated. rewrite map_app, concat_app. cbn [map concat]. rewrite <- !app_assoc. reflexivity.
  - destruct F1 as [|x F1] using rev_ind; [left; auto|right]. exists (terminated F1 ++ x). unfold terminated.
    rewrite map_app, concat_app. cbn [map concat]. rewrite app_nil_r, app_assoc. auto.
Qed.
Lemma file_wide v h cmd c cl : well c -> In cl (cn_clauses c) -> (3 < List.length cl)%nat ->
  get_cnf_set (InDimacs (cnfgen_file v h cmd c)) = Err OtherException.
Proof.
  intros W Hc L. destruct (file_body v h cmd c) as (h0 & ls & rest & -> & O & I & B).
  destruct (split_terminated _ _ Hc) as (pre & post & E & P).
  rewrite read_file by auto. rewrite (body_read _ _ B), E, feed_wide; auto. eapply well_nonzero; eauto.
Qed.
