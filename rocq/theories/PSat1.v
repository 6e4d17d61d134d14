(* PSat1.v -- the interface to external SAT solvers *)
From Coq Require Import String Ascii ZArith List Bool Lia.
From Verif Require Import Spec SpecInput SpecFile SpecTool PyBase MSet MText MCnf MFile MGraph MSat SpecCnf SpecSat PText PReader PLib PCnf1 PCnf2 PCnf3 PFam1 PFam4 PFile1 PFile2 PFile6 PFile7.
Import ListNotations.
Open Scope Z_scope.

(* ---- the file handed to the solver ---- *)
Lemma handed h c : well c -> dimacs_text (dimacs true h None c) (Z.of_nat (List.length (cn_names c))) (cn_clauses c).
Proof.
  intros [N W]. exists (written true h None c), (read_header true h None). split; [apply written_one|]. split; [|split; [exact W|]].
  - destruct (cn_clauses c) as [|x F] eqn:E; [left; apply dimacs_empty; auto|right]. apply (dimacs_some true h None c). congruence.
  - pose proof (written_formula true h None c [] ltac:(constructor)) as H. rewrite app_nil_r in H. exact H.
Qed.

(* ---- the result file ---- *)
Lemma name_eqb_spec a b : reflect (a = b) (name_eqb a b).
Proof.
  destruct a as [a|], b as [b|]; cbn [name_eqb]; try (constructor; congruence). destruct (text_eqb_spec a b); constructor; congruence.
Qed.
Lemma dupdate_new (d2 : list (option text * bool)) : forall d, NoDup (dkeys (d ++ d2)) -> dupdate name_eqb d d2 = d ++ d2.
Proof.
  unfold dupdate. induction d2 as [|[k v] t IH]; intros d H; cbn [fold_left]; [rewrite app_nil_r; reflexivity|].
  rewrite (dset_new name_eqb name_eqb_spec).
  - rewrite IH; rewrite <- app_assoc; cbn [app]; auto.
  - unfold dkeys in H |- *. rewrite map_app in H. cbn [map fst] in H. apply NoDup_remove_2 in H. intros K. apply H. apply in_or_app. left. auto.
Qed.
Lemma several_numbers zs : several_words (map str_Z (zs ++ [0])) (clause_line zs).
Proof.
  unfold clause_line. induction zs as [|z zs IH].
  - apply (words_last [] (str_Z 0)); [constructor|eapply numeral_word, str_Z_numeral].
  - cbn [app map]. destruct (zs ++ [0]) as [|y t] eqn:E; [destruct zs; discriminate|]. cbn [map] in *. cbn [join].
    apply (words_cons [] (str_Z z) _ " "%char); [constructor|eapply numeral_word, str_Z_numeral| |exact IH]. vm_compute. auto.
Qed.
Lemma sat_words zs : split_ws (sat_file zs) = txt "SAT" :: map str_Z (zs ++ [0]).
Proof.
  unfold sat_file. change (chars "SAT") with (txt "SAT"). unfold split_ws. cbn [app]. rewrite split_ws_word_sp; [|split; [discriminate|]|reflexivity].
  - f_equal. fold (split_ws (join (chars " ") (map str_Z (zs ++ [0])) ++ [nl])). rewrite split_ws_nl. rewrite <- (app_nil_r (join _ _)). apply several_split; [apply several_numbers|constructor].
  - intros x Hx. cbn in Hx. destruct Hx as [<-|[<-|[<-|[]]]]; vm_compute; lia.
Qed.
Lemma kept_words zs : (forall z, In z zs -> z <> 0) -> filter (fun v => negb (text_eqb v (txt "0"))) (map str_Z (zs ++ [0])) = map str_Z zs.
Proof.
  induction zs as [|z zs IH]; intros H; [reflexivity|]. cbn [map app filter].
  destruct (text_eqb_spec (str_Z z) (txt "0")) as [E|_].
  - exfalso. apply (H z); [left; auto|]. apply str_Z_inj. exact E.
  - cbn [negb]. f_equal. apply IH. intros; apply H; right; auto.
Qed.
Lemma integers_str zs : integers (map str_Z zs) = Ok zs.
Proof.
  unfold integers. assert (E : mapO py_int (map str_Z zs) = Some zs); [|rewrite E; reflexivity].
  induction zs as [|z zs IH]; [reflexivity|]. cbn [map mapO]. rewrite py_int_str, IH. reflexivity.
Qed.
Definition item (c : cnf) (v : Z) : option text * bool := (Some (nth (Z.to_nat (Z.abs v - 1)) (cn_names c) []), 0 <? v).
Lemma items_ok c zs : (forall z, In z zs -> 1 <= Z.abs z <= Z.of_nat (List.length (cn_names c))) ->
  mapM (fun v => k <- py_index (index2name c) (Z.abs v) ;; Ok (k, 0 <? v)) zs = Ok (map (item c) zs).
Proof.
  induction zs as [|z zs IH]; intros H; [reflexivity|]. cbn [mapM map].
  assert (B : 1 <= Z.abs z <= Z.of_nat (List.length (cn_names c))) by (apply H; left; auto).
  assert (E : py_index (index2name c) (Z.abs z) = Ok (Some (nth (Z.to_nat (Z.abs z - 1)) (cn_names c) []))).
  { destruct (py_index_nonneg (index2name c) (Z.abs z)) as (x & E & K).
    - unfold index2name. cbn [List.length]. rewrite map_length. lia.
    - rewrite E. f_equal. unfold index2name in K. replace (Z.to_nat (Z.abs z)) with (Datatypes.S (Z.to_nat (Z.abs z - 1))) in K by lia. cbn [nth_error] in K.
      rewrite nth_error_map in K. destruct (nth_error (cn_names c) (Z.to_nat (Z.abs z - 1))) as [y|] eqn:D; [|discriminate]. cbn [option_map] in K.
      pose proof (nth_error_nth _ _ [] D) as Q. transitivity (Some y); [congruence|]. f_equal. symmetry. exact Q. }
  rewrite E. cbn [bind]. rewrite IH by (intros; apply H; right; auto). reflexivity.
Qed.
Lemma item_keys c zs : NoDup (cn_names c) -> NoDup (map Z.abs zs) -> (forall z, In z zs -> 1 <= Z.abs z <= Z.of_nat (List.length (cn_names c))) ->
  NoDup (dkeys (map (item c) zs)).
Proof.
  intros N D B. unfold dkeys. rewrite map_map. induction zs as [|z zs IH]; [constructor|]. cbn [map] in *. inversion D as [|? ? D1 D2]; subst. constructor.
  - intros K. apply in_map_iff in K as (y & E & Hy). apply D1. apply in_map_iff. exists y. split; auto.
    assert (B1 := B z (or_introl eq_refl)). assert (B2 := B y (or_intror Hy)). cbn [item fst] in E.
    assert (E' : nth (Z.to_nat (Z.abs y - 1)) (cn_names c) [] = nth (Z.to_nat (Z.abs z - 1)) (cn_names c) []) by congruence.
    apply (proj1 (NoDup_nth (cn_names c) [])) in E'; auto; lia.
  - apply IH; auto. intros; apply B; right; auto.
Qed.
Lemma answer_sat m h c cmd zs : NoDup (cn_names c) -> NoDup (map Z.abs zs) -> (forall z, In z zs -> 1 <= Z.abs z <= Z.of_nat (List.length (cn_names c))) ->
  mc_file m (split_ws cmd) (dimacs true h None c) = Some (sat_file zs) ->
  satsolve_filein_fileout m h c cmd = Ok (true, match zs with [] => None | _ => Some (map (item c) zs) end).
Proof.
  intros N D B E. unfold satsolve_filein_fileout. rewrite E, sat_words. rewrite text_eqb_refl. rewrite kept_words by (intros z Hz K; specialize (B z Hz); lia).
  rewrite integers_str. cbn [bind]. unfold witness_of. rewrite items_ok by auto. cbn [bind]. rewrite dupdate_new by (apply item_keys; auto).
  cbn [app bind]. unfold final. destruct zs; reflexivity.
Qed.
Lemma answer_unsat m h c cmd : mc_file m (split_ws cmd) (dimacs true h None c) = Some unsat_file -> satsolve_filein_fileout m h c cmd = Ok (false, None).
Proof. intros E. unfold satsolve_filein_fileout. rewrite E. reflexivity. Qed.

(* ---- witnesses ---- *)
Lemma items_good c zs : well c -> NoDup (map Z.abs zs) -> (forall z, In z zs -> 1 <= Z.abs z <= Z.of_nat (List.length (cn_names c))) ->
  (forall cl, In cl (cn_clauses c) -> exists l, In l cl /\ In l zs) -> good_witness c (map (item c) zs).
Proof.
  intros [N W] D B H. split; [apply (item_keys c zs); auto|]. split.
  - intros k b K. apply in_map_iff in K as (z & E & Hz). assert (E' : k = fst (item c z)) by (rewrite E; reflexivity). cbn [item fst] in E'.
    eexists. split; [exact E'|]. apply nth_In. specialize (B z Hz). unfold cnf_variables, text in *. lia.
  - intros a A cl Hc. unfold cnf_clauses in Hc. apply in_map_iff in Hc as (z & <- & Hz). destruct (H z Hz) as (l & L1 & L2).
    exists (0 <? l), (nth (Z.to_nat (Z.abs l - 1)) (cn_names c) []). split; [apply in_map_iff; exists l; auto|]. apply A. apply in_map_iff. exists l. auto.
Qed.
Lemma literals_model n (F : list (list Z)) zs : NoDup (map Z.abs zs) -> (forall z, In z zs -> 1 <= Z.abs z <= n) ->
  (forall cl, In cl F -> exists l, In l cl /\ In l zs) -> satisfiable F.
Proof.
  intros D B H. exists (fun k => zmem k zs). intros cl Hc. destruct (H cl Hc) as (l & L1 & L2). exists l. split; auto. unfold lit_true.
  specialize (B l L2). destruct (Z.ltb_spec l 0); [|apply zmem_In; auto]. apply negb_true_iff. destruct (zmem (- l) zs) eqn:Z; auto. exfalso.
  apply zmem_In in Z. clear - D L2 Z H0 B. induction zs as [|z zs IH]; [destruct L2|]. cbn [map] in D. inversion D as [|? ? D1 D2]; subst.
  destruct L2 as [E1|L2], Z as [E2|Z]; subst.
  - lia.
  - apply D1. apply in_map_iff. exists (- l). split; auto. lia.
  - apply D1. apply in_map_iff. exists l. split; auto. lia.
  - auto.
Qed.

(* ---- the other interfaces ---- *)
Lemma scan_none ls : forall r w, scan_lines ls r w = Ok (r, w).
Proof. induction ls as [|[|b l] ls IH]; intros r w; cbn [scan_lines item_is bind]; auto. Qed.
Lemma parse_none c o : parse_output c o = Err RuntimeError.
Proof. unfold parse_output. rewrite scan_none. reflexivity. Qed.

(* ---- dispatch ---- *)
Lemma supported_spec s : supported s = true <-> In s solvers_in_order.
Proof.
  unfold supported. change solvers_in_order with supported_satsolvers. rewrite existsb_exists. split.
  - intros (x & H & E). apply text_eqb_eq in E. subst. auto.
  - intros H. exists s. split; auto. apply text_eqb_refl.
Qed.
Lemma dimacs_interface s : In s dimacs_style -> exists f, dget text_eqb s interfaces = Some f /\ forall m h c cmd, f m h c cmd = Err RuntimeError.
Proof.
  intros H. cbn [dimacs_style map In] in H.
  repeat (destruct H as [<-|H]; [eexists; split; [reflexivity|intros; apply parse_none]|]). destruct H.
Qed.
Lemma style_supported s : In s dimacs_style \/ In s minisat_style -> supported s = true.
Proof.
  intros [H|H]; cbn [dimacs_style minisat_style map In] in H; repeat (destruct H as [<-|H]; [reflexivity|]); destruct H.
Qed.
Lemma index_first {A} (w : A) ws : py_index (w :: ws) 0 = Ok w.
Proof. unfold py_index. cbn [List.length]. destruct (Z.leb_spec (Z.of_nat (Datatypes.S (List.length ws))) 0); [lia|]. reflexivity. Qed.
Lemma words_of (w : text) (ws : list text) (cmd : text) : several_words (w :: ws) cmd -> split_ws cmd = @cons text w ws.
Proof. intros H. rewrite <- (app_nil_r cmd). apply several_split; [auto|constructor]. Qed.
Lemma try_one m h c sa cmd w ws s f rest : split_ws cmd = w :: ws -> s = match sa with Some s => s | None => w end -> dget text_eqb s interfaces = Some f ->
  try_solvers m h c sa (cmd :: rest) = if mc_starts m w then f m h c cmd else try_solvers m h c sa rest.
Proof.
  intros Ew -> E. cbn [try_solvers]. rewrite Ew, index_first. cbn [bind]. rewrite E. cbn [of_option bind]. unfold have_satsolver. cbn [existsb].
  destruct (mc_starts m w); reflexivity.
Qed.
Lemma called_runs m h c cmd w ws sa s f : split_ws cmd = w :: ws -> (sa = None /\ s = w \/ sa = Some s) ->
  supported s = true -> dget text_eqb s interfaces = Some f -> is_satisfiable m h c (Some cmd) sa = if mc_starts m w then f m h c cmd else Err RuntimeError.
Proof.
  intros Ew K Su E. unfold is_satisfiable. destruct K as [[-> ->]| ->].
  - rewrite Ew, Su. cbn [negb andb]. rewrite (try_one m h c None cmd w ws w f []); auto.
  - rewrite Su. cbn [negb]. rewrite Ew. rewrite andb_false_r. rewrite (try_one m h c (Some s) cmd w ws s f []); auto.
Qed.
Lemma minisat_called m h c cmd w ws sa : called m cmd w ws sa minisat_style -> is_satisfiable m h c (Some cmd) sa = satsolve_filein_fileout m h c cmd.
Proof.
  intros (SW & St & K). assert (K' : sa = None /\ chars "minisat" = w \/ sa = Some (chars "minisat")).
  { destruct K as [[-> [<-|[]]]|(s & -> & [<-|[]])]; auto. }
  rewrite (called_runs m h c cmd w ws sa (chars "minisat") satsolve_filein_fileout); auto; [rewrite St; reflexivity|]. apply words_of; auto.
Qed.
Lemma white_space b : white b -> is_uspace b = true.
Proof. unfold white. intros H. rewrite <- (ascii_nat_embedding b). cbn [In] in H. repeat (destruct H as [<-|H]; [reflexivity|]). destruct H. Qed.
Lemma first_split w t : first_word w t -> exists ws, split_ws t = w :: ws.
Proof.
  intros (W & pre & post & P & -> & K). unfold split_ws. rewrite split_ws_gap by (eapply Forall_impl; [|exact P]; apply white_space).
  destruct K as [->|(b & u & -> & B)].
  - rewrite app_nil_r, split_ws_last by auto. eauto.
  - rewrite split_ws_word_sp by (auto; apply white_space; auto). eauto.
Qed.
Lemma no_words t : Forall white t -> split_ws t = [].
Proof. intros H. apply split_ws_spaces. eapply Forall_impl; [|exact H]. apply white_space. Qed.
Lemma integers_bad ws f : In f ws -> malformed f -> integers ws = Err ValueError.
Proof.
  intros H M. unfold integers. assert (E : mapO py_int ws = None); [|rewrite E; reflexivity].
  induction ws as [|w ws IH]; [destruct H|]. cbn [mapO]. destruct H as [->|H]; [rewrite (malformed_word f M); reflexivity|]. rewrite (IH H). destruct (py_int w); reflexivity.
Qed.
Lemma items_bad c zs : (exists z, In z zs /\ Z.of_nat (List.length (cn_names c)) < Z.abs z) -> witness_of c zs = Err IndexError.
Proof.
  intros H. unfold witness_of. assert (E : mapM (fun v => k <- py_index (index2name c) (Z.abs v) ;; Ok (k, 0 <? v)) zs = Err IndexError); [|rewrite E; reflexivity].
  induction zs as [|z zs IH]; [destruct H as (? & [] & _)|]. cbn [mapM].
  destruct (Z_le_gt_dec (Z.abs z) (Z.of_nat (List.length (cn_names c)))) as [L|L].
  - destruct (py_index_nonneg (index2name c) (Z.abs z)) as (x & E & _); [unfold index2name; cbn [List.length]; rewrite map_length; lia|]. rewrite E. cbn [bind].
    rewrite IH; [reflexivity|]. destruct H as (y & [->|Hy] & B); [lia|]. eauto.
  - assert (E : py_index (index2name c) (Z.abs z) = Err IndexError); [|rewrite E; reflexivity]. unfold py_index. destruct (Z.ltb_spec (Z.abs z) 0); [lia|].
    assert (G : (Z.of_nat (List.length (index2name c)) <=? Z.abs z) = true); [|rewrite G, orb_true_r; reflexivity]. apply Z.leb_le. unfold index2name. cbn [List.length]. rewrite map_length. lia.
Qed.
Lemma solver_name s : In s solvers_in_order -> split_ws s = [s] /\ exists f, dget text_eqb s interfaces = Some f.
Proof.
  intros H. cbn [solvers_in_order map In] in H. repeat (destruct H as [<-|H]; [split; [reflexivity|eexists; reflexivity]|]). destruct H.
Qed.
Lemma supported_interface s : supported s = true -> exists f, dget text_eqb s interfaces = Some f.
Proof. intros H. apply supported_spec in H. apply solver_name; auto. Qed.

(* ---- a correct solver exists: all assignments are tried ---- *)
Lemma blank_end ls h s toks : formula_file ls h s toks -> formula_file (ls ++ [[]]) h s toks.
Proof.
  induction 1; cbn [app].
  - apply (file_numbers [] [] [] [] None []); repeat constructor.
  - apply file_comment; auto.
  - eapply file_spec; eauto.
  - apply file_numbers; auto.
Qed.
Lemma dimacs_read t n F : dimacs_text t n F -> exists h, dimacs2compressed_clauses (t ++ [nl]) = Ok (h, n, F).
Proof.
  intros (ls & h & O & K & V & FF). exists h.
  assert (G : forall ls, Forall one_line ls -> formula_file ls h (Some (n, Z.of_nat (List.length F))) (terminated F) -> dimacs2compressed_clauses (ended ls) = Ok (h, n, F)).
  { intros l O' FF'. rewrite <- (app_nil_r (terminated F)) in FF'. pose proof (read_good _ _ _ _ [] O' FF') as R. cbv iota beta in R. rewrite Z.eqb_refl in R. apply R; [|intros []].
    intros cl Hc H0. specialize (V cl 0 Hc H0). lia. }
  destruct K as [->| ->]; [|apply G; auto]. replace (ended ls ++ [nl]) with (ended (ls ++ [[]])) by (rewrite ended_app; reflexivity).
  apply G; [apply Forall_app; split; auto; constructor; [intros []|constructor]|apply blank_end; auto].
Qed.
Definition choices (n : Z) : list (list Z) := products (map (fun v => [v; - v]) (range 1 (n + 1))).
Definition works (F : list (list Z)) (zs : list Z) : bool := forallb (existsb (fun l => zmem l zs)) F.
Definition exhaustive (t : text) : option text :=
  match dimacs2compressed_clauses (t ++ [nl]) with
  | Ok (_, n, F) => Some (match find (works F) (choices n) with Some zs => sat_file zs | None => unsat_file end)
  | _ => None
  end.
Lemma choices_abs n zs : In zs (choices n) -> map Z.abs zs = range 1 (n + 1).
Proof.
  intros H. apply products_In in H. assert (P : forall v, In v (range 1 (n + 1)) -> 1 <= v) by (intros v Hv; apply range_In in Hv; lia). revert zs H P.
  induction (range 1 (n + 1)) as [|v l IH]; intros zs H P; cbn [map] in H; inversion H; subst; [reflexivity|]. cbn [map].
  rewrite (IH l0) by (auto; intros; apply P; right; auto). f_equal. assert (1 <= v) by (apply P; left; auto). match goal with K : In _ [v; - v] |- _ => destruct K as [<-|[<-|[]]] end; lia.
Qed.
Lemma exhaustive_right : right_minisat exhaustive.
Proof.
  intros t n F D. destruct (dimacs_read t n F D) as (h & R). unfold exhaustive. rewrite R. destruct D as (_ & _ & _ & _ & V & _).
  destruct (find (works F) (choices n)) as [zs|] eqn:E.
  - right. apply find_some in E as [I W]. apply choices_abs in I. exists zs. split; [reflexivity|]. split; [rewrite I; apply range_NoDup|]. split.
    + intros l Hl. assert (K : In (Z.abs l) (range 1 (n + 1))) by (rewrite <- I; apply in_map; auto). apply range_In in K. lia.
    + intros cl Hc. unfold works in W. rewrite forallb_forall in W. specialize (W cl Hc). apply existsb_exists in W as (l & L1 & L2). apply zmem_In in L2. eauto.
  - left. split; [reflexivity|]. intros (a & A). set (zs := map (fun v => if a v then v else - v) (range 1 (n + 1))).
    assert (I : In zs (choices n)).
    { unfold zs, choices. apply products_In. clear. induction (range 1 (n + 1)) as [|v l IH]; cbn [map]; constructor; auto. destruct (a v); cbn; auto. }
    pose proof (find_none _ _ E zs I) as W. enough (works F zs = true) by congruence. unfold works. apply forallb_forall. intros cl Hc. apply existsb_exists.
    destruct (A cl Hc) as (l & L1 & L2). exists l. split; auto. apply zmem_In. unfold zs. apply in_map_iff. exists (Z.abs l). specialize (V cl l Hc L1). unfold lit_true in L2.
    destruct (Z.ltb_spec l 0).
    + rewrite Z.abs_neq by lia. apply negb_true_iff in L2. rewrite L2. split; [lia|]. apply range_In. lia.
    + rewrite Z.abs_eq by lia. rewrite L2. split; [lia|]. apply range_In. lia.
Qed.
