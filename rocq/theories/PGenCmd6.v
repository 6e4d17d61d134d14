(* PGenCmd6.v -- the command line of the bundled generator from argv to standard output. *)
From Coq Require Import String Ascii ZArith List Bool Lia Arith Sorted Permutation.
From Verif Require Import Spec SpecInput SpecFile SpecSat PyBase MSet MText MCnf MFam MFam2 MFile MTrans MTool MGraph MGenCmd SpecCnf SpecFam SpecFam2 SpecTrans SpecTool SpecGraph SpecGenCmd.
From Verif Require Import PLib PCnf1 PCnf2 PFam1 PFam2 PFam4 PGenCmd1 PGenCmd2 PGenCmd3 PGenCmd4 PGenCmd5.
Import ListNotations.
Open Scope Z_scope.

(* ---- splitting the words ---- *)
Lemma split_none key (w : list text) : forall buf rest, ~ In key w -> splitlist (w ++ rest) key buf = splitlist rest key (buf ++ w).
Proof.
  induction w as [|x w IH]; intros buf rest N; cbn [app splitlist]; [rewrite app_nil_r; reflexivity|].
  destruct (text_eqb_spec x key) as [->|D]; [exfalso; apply N; left; auto|]. rewrite IH by (intros X; apply N; right; auto). rewrite <- app_assoc. reflexivity.
Qed.
Lemma split_chunks key (ws : list (list text)) : forall buf, Forall (fun w => ~ In key w) ws -> splitlist (concat (map (cons key) ws)) key buf = buf :: ws.
Proof.
  induction ws as [|w ws IH]; intros buf F; [reflexivity|]. inversion F as [|x l F1 F2]; subst. cbn [map concat app splitlist].
  destruct (text_eqb_spec key key) as [_|D]; [|congruence]. f_equal. rewrite split_none by auto. cbn [app]. apply IH. auto.
Qed.
Lemma split_line key (w : list text) ws : ~ In key w -> Forall (fun w => ~ In key w) ws -> splitlist (w ++ concat (map (cons key) ws)) key [] = w :: ws.
Proof. intros N F. rewrite split_none by auto. cbn [app]. apply split_chunks. auto. Qed.
Lemma split_back key : forall (L buf : list text), ~ In key buf -> exists w ws, splitlist L key buf = w :: ws /\ buf ++ L = w ++ concat (map (cons key) ws) /\ ~ In key w /\ Forall (fun w => ~ In key w) ws.
Proof.
  induction L as [|x L IH]; intros buf N; cbn [splitlist].
  - exists buf, []. cbn. auto.
  - destruct (text_eqb_spec x key) as [->|D].
    + destruct (IH [] ltac:(intros [])) as (w & ws & E & J & N1 & N2). exists buf, (w :: ws). rewrite E. cbn [map concat app] in *. rewrite J. auto.
    + destruct (IH (buf ++ [x])) as (w & ws & E & J & N1 & N2).
      * intros I. apply in_app_iff in I as [I|[I|[]]]; auto.
      * exists w, ws. rewrite <- app_assoc in J. auto.
Qed.
Lemma each_ok {A B} (f : A -> outcome B) ws ts : Forall2 (fun w t => f w = Gives t) ws ts -> each f ws = Gives ts.
Proof. induction 1 as [|w t ws ts H _ IH]; [reflexivity|]. cbn [each]. rewrite H. cbn [andthen]. rewrite IH. reflexivity. Qed.

(* ---- the checks while the options are parsed ---- *)
Lemma positive_ok zs : (forall z, In z zs -> 0 < z) -> positive zs = Gives tt.
Proof. intros H. unfold positive. replace (forallb (Z.ltb 0) zs) with true; auto. symmetry. apply forallb_forall. intros z I. apply Z.ltb_lt. auto. Qed.
Lemma positive_option_ok z : positive_if_given z -> positive_option z = Gives tt.
Proof. intros H. destruct z as [z|]; [|reflexivity]. cbn [positive_option]. apply positive_ok. intros x [<-|[]]. apply H. reflexivity. Qed.
Lemma check_simple_ok o input : obtainable o input -> check_simple o = Gives tt.
Proof.
  intros (D & P & A & _). unfold check_simple. rewrite (positive_option_ok _ P), (positive_option_ok _ A).
  destruct (so_source o); cbn [delivers] in D; try reflexivity; try (rewrite positive_ok; [reflexivity|]; intros z I; cbn in I; intuition lia).
  - replace (0 <? n) with true by (symmetry; apply Z.ltb_lt; auto). reflexivity.
  - rewrite positive_ok; [reflexivity|]. apply D.
  - rewrite positive_ok; [reflexivity|]. intros z I. apply (proj2 D) in I. lia.
Qed.
Lemma adjacent_equal_sorted l : NoDup l -> adjacent_equal (sort_by Z.ltb l) = false.
Proof.
  intros N. assert (N' : NoDup (sort_by Z.ltb l)) by (eapply Permutation_NoDup; [symmetry; apply sort_by_Perm|auto]). clear N. induction (sort_by Z.ltb l) as [|x t IH]; [reflexivity|].
  inversion N' as [|y l' NI N]; subst. destruct t as [|y t']; [reflexivity|]. cbn [adjacent_equal]. apply orb_false_iff. split; [|apply IH; auto]. apply Z.eqb_neq. intros ->. apply NI. left. auto.
Qed.
Lemma check_bipartite_ok o input : obtainable_bipartite o input -> check_bipartite o = Gives tt.
Proof.
  intros (D & A & P). unfold check_bipartite. rewrite (positive_option_ok _ A).
  assert (X : match bo_plantbiclique o with Some (l, r) => positive [l; r] | None => Gives tt end = Gives tt).
  { destruct (bo_plantbiclique o) as [[l r]|]; auto. destruct (P l r eq_refl) as (P1 & P2 & _). apply positive_ok. intros z I. cbn in I. intuition lia. }
  rewrite X. assert (Y : forall b, b = true -> required b = Gives tt) by (intros b ->; reflexivity).
  destruct (bo_source o) as [l r|l r m|l r d|l r d|values|l r|f]; cbn [delivers_bipartite] in D; try reflexivity.
  - rewrite Y; [reflexivity|]. destruct D. apply andb_true_iff. split; apply Z.ltb_lt; auto.
  - rewrite positive_ok by (intros z I; cbn in I; intuition lia). cbn [andthen]. rewrite Y; [reflexivity|]. apply Z.leb_le. lia.
  - rewrite positive_ok by (intros z I; cbn in I; intuition lia). cbn [andthen]. rewrite Y; [reflexivity|]. apply Z.leb_le. lia.
  - rewrite Y; [reflexivity|]. destruct D as (D1 & D2 & D3 & D4). rewrite !andb_true_iff. rewrite (Z.mul_comm d l), D4. repeat split; try apply Z.ltb_lt; try apply Z.leb_le; lia.
  - destruct values as [|N [|M pattern]]; try contradiction. destruct D as (D1 & D2 & D3 & D4). rewrite positive_ok.
    2:{ intros z [<-|[<-|I]]; auto. specialize (D4 z I). lia. }
    cbn [andthen]. rewrite Y; [reflexivity|]. rewrite adjacent_equal_sorted by auto. cbn [negb andb]. apply forallb_forall. intros x I. apply Z.leb_le. apply D4 in I. lia.
  - rewrite positive_ok by (intros z I; cbn in I; intuition lia). reflexivity.
Qed.
Lemma check_dag_ok s input : delivers_dag s input -> check_dag s = Gives tt.
Proof. intros D. destruct s; cbn [delivers_dag check_dag] in *; try (apply positive_ok; intros z [<-|[]]; auto). reflexivity. Qed.
Lemma check_ok gen input : graphs_obtainable gen input -> check_generator gen = Gives tt.
Proof.
  intros O. destruct gen; cbn [graphs_obtainable check_generator] in *; try reflexivity;
    try (eapply check_bipartite_ok; eassumption); try (eapply check_simple_ok; eassumption); try (eapply check_dag_ok; eassumption).
  - rewrite (check_simple_ok _ _ (proj1 O)). cbn [andthen]. eapply check_simple_ok, (proj2 O).
  - rewrite (check_simple_ok _ _ (proj1 O)). cbn [andthen]. eapply check_simple_ok, (proj2 O).
  - rewrite (check_dag_ok _ _ (proj1 O)). cbn [andthen]. eapply check_bipartite_ok, (proj2 O).
Qed.
(* a parsed command line *)
Lemma parsed E pl pt header prog w0 ws l ts input : ~ In (txt "-T") (prog :: w0) -> Forall (fun w => ~ In (txt "-T") w) ws ->
  pl w0 = Gives l -> Forall2 (fun w t => pt w = Gives t) ws ts -> (forall g, pl_generator l = Some g -> check_generator g = Gives tt) ->
  cnfgen E pl pt header ((prog :: w0) ++ concat (map (cons (txt "-T")) ws)) input = cnfgen_parsed E header l ts (w0 ++ concat (map (cons (txt "-T")) ws)) input.
Proof.
  intros N F P T C. unfold cnfgen. rewrite (split_line (txt "-T") (prog :: w0) ws N F). cbn [hd tl]. rewrite P. cbn [andthen].
  assert (X : match pl_generator l with Some g => check_generator g | None => Gives tt end = Gives tt) by (destruct (pl_generator l); auto).
  rewrite X. cbn [andthen]. rewrite (each_ok pt ws ts T). cbn [andthen app tl]. reflexivity.
Qed.
