(* PFile2.v -- DIMACS formulas written and read again *)
From Coq Require Import String Ascii ZArith NArith List Bool Lia Arith.
From Verif Require Import Spec SpecInput SpecFile PyBase MSet MText MCnf MFam MFam2 MTrans MFile SpecCnf PText PReader PLib PCnf1 PCnf2 PCnf3 PFam1 PGen6 PFile1.
Import ListNotations.
Open Scope Z_scope.

Lemma rstrip_app a b : rstrip (a ++ b) = match rstrip b with [] => rstrip a | _ => a ++ rstrip b end.
Proof.
  unfold rstrip. rewrite rev_app_distr. generalize (rev b). intros r. induction r as [|x r IH]; [reflexivity|]. cbn [app lstrip].
  destruct (is_uspace x); [exact IH|]. destruct (rev (x :: r)) as [|y s] eqn:E.
  - apply (f_equal (@rev _)) in E. rewrite rev_involutive in E. discriminate.
  - rewrite <- E. change (x :: r ++ rev a) with ((x :: r) ++ rev a). rewrite rev_app_distr, rev_involutive. reflexivity.
Qed.
Lemma rstrip_idem t : rstrip (rstrip t) = rstrip t.
Proof.
  unfold rstrip. rewrite rev_involutive. f_equal. generalize (rev t). intros r. induction r as [|x r IH]; [reflexivity|]. cbn [lstrip].
  destruct (is_uspace x) eqn:E; auto. cbn [lstrip]. rewrite E. reflexivity.
Qed.
Lemma rstrip_one t : one_line t -> one_line (rstrip t).
Proof. intros H K. unfold rstrip in K. apply in_rev in K. apply lstrip_incl in K. apply in_rev in K. auto. Qed.
Lemma comment_of_eq l : comment_of l = match rstrip l with [] => txt "c" | _ => txt "c " ++ rstrip l end.
Proof. unfold comment_of. rewrite rstrip_app. destruct (rstrip l); reflexivity. Qed.
Lemma comment_remark l : remark (comment_of l) (rstrip l).
Proof. rewrite comment_of_eq. destruct (rstrip l) as [|x t]; [apply remark_other; discriminate|apply remark_space]. Qed.
Lemma comment_rstrip l : comment_of (rstrip l) = comment_of l.
Proof. rewrite !comment_of_eq, rstrip_idem. reflexivity. Qed.
Lemma split_ended ls t : Forall one_line ls -> split_on newline (ended ls ++ t) = ls ++ split_on newline t.
Proof.
  induction 1 as [|l ls H _ IH]; [reflexivity|]. unfold ended in *. cbn [map concat]. rewrite <- !app_assoc. cbn [app].
  change nl with newline. rewrite split_on_app by exact H. f_equal. exact IH.
Qed.
(* the lines a header and a further text stand for *)
Definition header_lines (h : text) (e : option text) : list text :=
  removelast (split_on newline h) ++ match e with Some t => split_on newline t | None => [] end.
Lemma header_lines_one h e : Forall one_line (header_lines h e).
Proof.
  apply Forall_app. split.
  - apply Forall_forall. intros t H. apply removelast_In in H. pose proof (split_on_one newline h) as F. rewrite Forall_forall in F. apply F. auto.
  - destruct e as [e|]; [apply split_on_one|constructor].
Qed.
Lemma comments_lines h e : comments h e = map comment_of (header_lines h e).
Proof. unfold comments, header_lines. rewrite map_app. destruct e; reflexivity. Qed.
Lemma comments_again ls : Forall one_line ls -> comments (ended ls) None = map comment_of ls.
Proof.
  intros H. rewrite comments_lines. unfold header_lines. rewrite app_nil_r. f_equal.
  rewrite <- (app_nil_r (ended ls)), split_ended by auto. cbn [split_on]. apply removelast_last.
Qed.
Definition written (v : bool) (h : text) (e : option text) (c : cnf) : list text :=
  (if v then comments h e else []) ++ p_line (Z.of_nat (List.length (cn_names c))) (Z.of_nat (List.length (cn_clauses c))) :: map clause_line (cn_clauses c).
Definition read_header (v : bool) (h : text) (e : option text) : text := if v then ended (map rstrip (header_lines h e)) else [].
Lemma ended_app a b : ended (a ++ b) = ended a ++ ended b.
Proof. unfold ended. rewrite map_app, concat_app. reflexivity. Qed.
Lemma ended_clauses p F : ended (p :: map clause_line F) = p ++ concat (map (fun cl => newline :: clause_line cl) F) ++ [newline].
Proof.
  unfold ended. cbn [map concat]. rewrite <- app_assoc. f_equal. induction F as [|x F IH]; [reflexivity|]. cbn [map concat app]. f_equal.
  rewrite <- !app_assoc. f_equal. exact IH.
Qed.
Lemma dimacs_empty v h e c : cn_clauses c = [] -> dimacs v h e c = ended (written v h e c).
Proof.
  intros E. unfold dimacs, written. rewrite ended_app, ended_clauses, E. unfold ended at 1. cbn [List.length map concat app]. f_equal.
  unfold p_line. rewrite <- !app_assoc. reflexivity.
Qed.
Lemma dimacs_some v h e c : cn_clauses c <> [] -> dimacs v h e c ++ [newline] = ended (written v h e c).
Proof.
  intros E. unfold dimacs, written. rewrite ended_app, ended_clauses. unfold ended at 1. rewrite <- !app_assoc. f_equal.
  unfold p_line. rewrite <- !app_assoc. destruct (cn_clauses c) as [|x F]; [congruence|]. reflexivity.
Qed.
Lemma p_line_spec n m : spec_line n m (p_line n m).
Proof.
  exists [], (txt " "), (txt "cnf"), (txt " "), (str_Z n), (txt " "), (str_Z m), [].
  assert (G : gap (txt " ")) by (split; [discriminate|constructor; [left; reflexivity|constructor]]).
  split; [unfold p_line; rewrite app_nil_r; reflexivity|]. split; [split; [discriminate|intros c [<-|[]]; cbv; lia]|].
  split; [split; [discriminate|intros c [<-|[<-|[<-|[]]]]; cbv; lia]|]. split; [apply str_Z_numeral|]. split; [apply str_Z_numeral|]. repeat split; auto; try apply G. constructor.
Qed.
Lemma spaced_numbers ts l : spaced ts l -> numbers ts l.
Proof.
  assert (B : forall t, Forall (eq " "%char) t -> blanks t) by (intros t; apply Forall_impl; intros c <-; left; reflexivity).
  induction 1; [apply numbers_nil|apply numbers_last|apply numbers_cons]; auto. left; reflexivity.
Qed.
Lemma written_comments ls R h sp toks : formula_file R h sp toks -> formula_file (map comment_of ls ++ R) (ended (map rstrip ls) ++ h) sp toks.
Proof.
  intros H. induction ls as [|l ls IH]; [exact H|]. unfold ended in *. cbn [map app concat]. rewrite <- !app_assoc. cbn [app].
  apply file_comment; auto. apply comment_remark.
Qed.
Lemma written_clauses F : formula_file (map clause_line F) [] None (terminated F).
Proof.
  induction F as [|c F IH]; [constructor|]. change (terminated (c :: F)) with ((c ++ [0]) ++ terminated F). cbn [map].
  apply file_numbers; auto. apply spaced_numbers, clause_line_spaced.
Qed.
Lemma written_formula v h e c extra : Forall (eq []) extra -> formula_file (written v h e c ++ extra) (read_header v h e)
    (Some (Z.of_nat (List.length (cn_names c)), Z.of_nat (List.length (cn_clauses c)))) (terminated (cn_clauses c)).
Proof.
  intros X. assert (K : formula_file (map clause_line (cn_clauses c) ++ extra) [] None (terminated (cn_clauses c))).
  { induction (cn_clauses c) as [|d F IH].
    - induction X as [|l extra <- X IH]; [constructor|]. cbn [map app]. apply (file_numbers [] [] extra [] None []); auto. constructor. constructor.
    - change (terminated (d :: F)) with ((d ++ [0]) ++ terminated F). cbn [map app]. apply file_numbers; auto. apply spaced_numbers, clause_line_spaced. }
  unfold written, read_header. rewrite <- app_assoc. cbn [app]. pose proof (file_spec _ _ _ _ _ _ (p_line_spec (Z.of_nat (List.length (cn_names c))) (Z.of_nat (List.length (cn_clauses c)))) ltac:(lia) K) as S.
  destruct v; [|exact S]. rewrite comments_lines. rewrite <- (app_nil_r (ended _)). apply written_comments. exact S.
Qed.
Lemma written_one v h e c : Forall one_line (written v h e c).
Proof.
  apply Forall_app. split; [destruct v; [apply comments_ok|constructor]|]. constructor.
  - unfold p_line. repeat apply one_line_app; try apply one_line_str; apply one_line_txt; reflexivity.
  - apply Forall_forall. intros t Ht. apply in_map_iff in Ht as (u & <- & _). apply clause_line_one.
Qed.
Lemma read_written v h e c extra : well c -> Forall (eq []) extra -> dimacs2compressed_clauses (ended (written v h e c ++ extra)) =
  Ok (read_header v h e, Z.of_nat (List.length (cn_names c)), cn_clauses c).
Proof.
  intros W X. pose proof (written_formula v h e c extra X) as H. rewrite <- (app_nil_r (terminated _)) in H.
  assert (O : Forall one_line (written v h e c ++ extra)).
  { apply Forall_app. split; [apply written_one|]. revert X. apply Forall_impl. intros l <- []. }
  pose proof (read_good _ _ (Some (_, _)) _ [] O H ltac:(apply well_nonzero; auto) ltac:(intros [])) as R. cbv iota beta in R. rewrite Z.eqb_refl in R. exact R.
Qed.
Lemma clause_line_first cl : clause_line cl <> [] /\ hd_error (clause_line cl) <> Some "c"%char.
Proof.
  unfold clause_line. destruct (cl ++ [0]) as [|z t] eqn:E; [destruct cl; discriminate|]. cbn [map].
  assert (K : exists x u, str_Z z = x :: u /\ numchar x = true).
  { pose proof (str_Z_ne z). pose proof (str_Z_numchar z) as F. destruct (str_Z z) as [|x u]; [congruence|]. inversion F; eauto. }
  destruct K as (x & u & Ez & Hx). destruct (map str_Z t); rewrite Ez; cbn [join app hd_error]; (split; [discriminate|]); intros K; injection K as ->; discriminate.
Qed.
Lemma read_dimacs v h e c : well c -> dimacs2compressed_clauses (dimacs v h e c) = Ok (read_header v h e, Z.of_nat (List.length (cn_names c)), cn_clauses c) /\
  dimacs2compressed_clauses (dimacs v h e c ++ [nl]) = Ok (read_header v h e, Z.of_nat (List.length (cn_names c)), cn_clauses c).
Proof.
  intros W. pose proof (read_written v h e c [] W ltac:(constructor)) as A. rewrite app_nil_r in A.
  pose proof (read_written v h e c [[]] W ltac:(repeat constructor)) as B.
  destruct (cn_clauses c) as [|x F] eqn:E.
  - rewrite dimacs_empty by auto. split; auto. rewrite <- B. f_equal. rewrite ended_app. reflexivity.
  - assert (N : cn_clauses c <> []) by congruence. pose proof (dimacs_some v h e c N) as D. change newline with nl in D. rewrite D. split; auto. rewrite <- A.
    destruct (exists_last N) as (G & y & EG). unfold written in D |- *. rewrite EG, map_app in *. cbn [map] in *. rewrite app_comm_cons, app_assoc in *.
    rewrite <- read_last; [|pose proof (written_one v h e c) as K; unfold written in K; rewrite EG, map_app, app_comm_cons, app_assoc in K; apply Forall_app in K; apply K|apply clause_line_one|apply clause_line_first|apply clause_line_first].
    f_equal. rewrite ended_app in D. unfold ended in D at 2. cbn [map concat] in D. rewrite app_nil_r, app_assoc in D. apply app_inj_tail in D as [D _]. exact D.
Qed.
(* ---- as an object ---- *)
Definition number_of (c : cnf) (v : text) : text := match position v (cn_names c) 1 with Some k => str_Z k | None => [] end.
Lemma number_names c : NoDup (cn_names c) -> map (number_of c) (cn_names c) = decimals (Z.of_nat (List.length (cn_names c))).
Proof.
  intros N. apply nth_ext with (d := number_of c []) (d' := []).
  - rewrite map_length. unfold decimals. rewrite map_length, range_length. lia.
  - rewrite map_length. intros i Hi. rewrite map_nth. unfold number_of. rewrite position_nth by auto.
    replace i with (Z.to_nat (1 + Z.of_nat i - 1)) at 2 by lia. rewrite nth_decimals by lia. reflexivity.
Qed.
Lemma number_clauses c : well c -> cnf_clauses (mkCnf (decimals (Z.of_nat (List.length (cn_names c)))) (cn_clauses c)) =
  map (map (fun l => (fst l, number_of c (snd l)))) (cnf_clauses c).
Proof.
  intros [N W]. rewrite decimal_clauses by auto. unfold cnf_clauses. rewrite map_map. apply map_ext_in. intros cl Hc. unfold uncompress_clause. rewrite map_map.
  apply map_ext_in. intros l Hl. specialize (W cl l Hc Hl). cbn [fst snd]. f_equal. unfold number_of. rewrite position_nth by (auto; lia). f_equal. lia.
Qed.
Lemma rewritten v h e c : dimacs v (read_header v h e) None (mkCnf (decimals (Z.of_nat (List.length (cn_names c)))) (cn_clauses c)) = dimacs v h e c.
Proof.
  unfold dimacs. cbn [cn_names cn_clauses]. rewrite decimals_length by lia. f_equal. destruct v; [|reflexivity]. unfold read_header.
  rewrite comments_again, comments_lines.
  - f_equal. f_equal. rewrite (map_map rstrip comment_of). apply map_ext. apply comment_rstrip.
  - apply Forall_forall. intros t H. apply in_map_iff in H as (u & <- & H). apply rstrip_one. pose proof (header_lines_one h e) as F. rewrite Forall_forall in F. auto.
Qed.
Lemma same_models c : well c -> has_model (cnf_clauses (mkCnf (decimals (Z.of_nat (List.length (cn_names c)))) (cn_clauses c))) <-> has_model (cnf_clauses c).
Proof.
  intros W. pose proof W as [N Wl]. split.
  - intros (a & H). exists (fun v => a (number_of c v)). intros cl Hc. specialize (H (map (fun l => (fst l, number_of c (snd l))) cl)).
    destruct H as (p & v & Hi & E); [rewrite number_clauses by auto; apply in_map; auto|]. apply in_map_iff in Hi as ([q w] & E2 & Hi). cbn in E2. inversion E2; subst.
    exists (a (number_of c w)), w. auto.
  - intros (a & H).
    exists (fun t => match py_int t with Some i => a (nth (Z.to_nat (i - 1)) (cn_names c) []) | None => false end).
    intros cl Hc. rewrite number_clauses in Hc by auto. apply in_map_iff in Hc as (cl' & <- & Hc). destruct (H cl' Hc) as (p & v & Hi & E).
    exists p, (number_of c v). split; [apply in_map_iff; exists (p, v); auto|]. unfold number_of.
    destruct (position_In v (cn_names c) 1) as (k & Ek).
    { unfold cnf_clauses in Hc. apply in_map_iff in Hc as (z & <- & Hz). unfold uncompress_clause in Hi. apply in_map_iff in Hi as (l & El & Hl). inversion El; subst.
      apply nth_In. specialize (Wl z l Hz Hl). lia. }
    rewrite Ek, py_int_str. apply position_Some in Ek as (B & Nt). rewrite Nt. exact E.
Qed.
