(* PPipe5.v -- a transformation in the program or behind a pipe *)
From Coq Require Import String Ascii ZArith List Bool Lia Arith Permutation.
From Verif Require Import Spec SpecInput SpecFile SpecCnf SpecFam SpecTrans PyBase MSet MText MCnf MFam MFam2 MTrans MFile MTool MGraph MGenCmd SpecTool SpecGraph SpecGenCmd SpecPipe.
From Verif Require Import PLib PCnf1 PCnf2 PFam1 PFam2 PFam4 PFile1 PFile2 PTrans1 PTrans4 PTrans6 PTool2 PTool4 PCnf3 PP16 PP21 PGenCmd3 PGenCmd7 PPipe1 PPipe2 PPipe3 PPipe4.
Import ListNotations.
Open Scope Z_scope.

Lemma renamed_sym c1 c2 : renamed c1 c2 -> renamed c2 c1.
Proof. intros [A B]. split; congruence. Qed.
Lemma same_compressed_result r1 r2 : same_result r1 r2 -> same_result (compressed r1) (compressed r2).
Proof. destruct r1 as [a|e|], r2 as [b|f|]; cbn; try tauto. intros <-. destruct e; reflexivity. Qed.
Lemma transform_renamed t c1 c2 : NoDup (cn_names c1) -> NoDup (cn_names c2) -> renamed c1 c2 -> drawn t -> same_result (transform t c1) (transform t c2).
Proof.
  intros N1 N2 R D. destruct t as [|k|k|k|k|k| |k|k| |b|b|s]; cbn [transform].
  - exact R.
  - apply or_renamed; auto.
  - apply xor_renamed; auto.
  - apply eq_renamed; auto.
  - apply neq_renamed; auto.
  - apply maj_renamed; auto.
  - apply ite_renamed; auto.
  - apply one_renamed; auto.
  - apply lift_renamed; auto.
  - apply flip_renamed; auto.
  - apply same_compressed_result, compression_renamed; auto.
  - apply same_compressed_result, compression_renamed; auto.
  - destruct D as [FS BP]. unfold shuffle_with. pose proof R as [Ln Cl]. rewrite <- Cl, <- Ln.
    replace (if sh_no_variables s then cn_names c2 else sh_variables s (cn_names c2))
      with (map (other c1 c2) (if sh_no_variables s then cn_names c1 else sh_variables s (cn_names c1))).
    + apply shuffle_renamed; auto. destruct (sh_no_variables s); intros x Hx; auto. eapply Permutation_in; [apply (fs_variables s FS)|exact Hx].
    + destruct (sh_no_variables s); [apply other_names; auto|]. rewrite <- BP. f_equal. apply other_names; auto.
Qed.
(* a transformation succeeds, or it is a compression by a graph of another size *)
Lemma applied t h c : made c -> drawn t ->
  (exists c', transform t c = Ok c' /\ apply_transformation (Some t) (h, c) = Gives (transform_header t h, c')) \/
  (compresses t /\ transform t c = Err SystemExit /\ apply_transformation (Some t) (h, c) = Exits (-1)).
Proof.
  intros M D.
  assert (K : ~ compresses t -> (exists F, transform t c = Ok F) -> exists c', transform t c = Ok c' /\ apply_transformation (Some t) (h, c) = Gives (transform_header t h, c')).
  { intros NC (F & E). exists F. split; auto. cbn [apply_transformation fst snd]. destruct t; try (rewrite E; reflexivity); exfalso; apply NC; eexists; eauto. }
  destruct t as [|k|k|k|k|k| |k|k| |b|b|s]; cbn [drawn] in D; try (left; refine (K _ _); [intros (b & [X|X]); discriminate X|]).
  - exists c. reflexivity.
  - destruct (p_C79_or c k M) as (F & E & _). exists F. exact E.
  - destruct (p_C79_xor c k M) as (F & E & _). exists F. exact E.
  - destruct (p_C79_all_equal c k M) as (F & E & _). exists F. exact E.
  - destruct (p_C79_not_all_equal c k M) as (F & E & _). exists F. exact E.
  - destruct (p_C79_majority c k M) as (F & E & _). exists F. exact E.
  - destruct (p_C79_if_then_else c M) as (F & E & _). exists F. exact E.
  - destruct (p_C79_exactly_one c k M) as (F & E & _). exists F. exact E.
  - destruct (p_C79_lifting c k M) as (F & E & _). exists F. exact E.
  - destruct (p_C79_flip c M) as (F & E & _). exists F. exact E.
  - destruct (p_C79_compression c b (txt "xor") M D) as (_ & X & Y). cbn [apply_transformation transform fst snd]. destruct (Nat.eq_dec (List.length (b_right b)) (List.length (cn_names c))) as [L|L].
    + left. destruct (Y false eq_refl L) as (F & E & _). exists F. rewrite E. split; reflexivity.
    + right. rewrite (X L). split; [exists b; auto|]. split; reflexivity.
  - destruct (p_C79_compression c b (txt "maj") M D) as (_ & X & Y). cbn [apply_transformation transform fst snd]. destruct (Nat.eq_dec (List.length (b_right b)) (List.length (cn_names c))) as [L|L].
    + left. destruct (Y true eq_refl L) as (F & E & _). exists F. rewrite E. split; reflexivity.
    + right. rewrite (X L). split; [exists b; auto|]. split; reflexivity.
  - destruct (kept_one (T_shuffle s) h c) as (F & E & _); auto; [split; [intros (b & [X|X]); discriminate X|apply D]|]. exists F. cbn [apply_transformation fst snd] in E.
    destruct (transform (T_shuffle s) c) as [x|e|]; cbn [plain andthen] in E; congruence.
Qed.

(* ---- the text ---- *)
Definition body (c : cnf) : text :=
  txt " cnf " ++ str_Z (Z.of_nat (List.length (cn_names c))) ++ txt " " ++ str_Z (Z.of_nat (List.length (cn_clauses c))) ++
  (match cn_clauses c with [] => [newline] | _ => [] end) ++ concat (map (fun cl => newline :: clause_line cl) (cn_clauses c)).
Lemma dimacs_body v h e c : dimacs v h e c = ended (if v then comments h e else []) ++ "p"%char :: body c.
Proof. reflexivity. Qed.
Lemma body_renamed c1 c2 : renamed c1 c2 -> body c1 = body c2.
Proof. intros [A B]. unfold body. rewrite A, B. reflexivity. Qed.

Definition holds_text (out : text) (c : cnf) : Prop := exists v h e c2, made c2 /\ renamed c c2 /\ out = dimacs v h e c2 ++ [newline].
Lemma read_back out c : holds_text out c -> exists h c3, dimacs2cnf out = Ok (h, c3, true) /\ made c3 /\ renamed c c3.
Proof.
  intros (v & h & e & c2 & M & [R1 R2] & ->). pose proof (made_well c2 M) as W. destruct (read_dimacs v h e c2 W) as [_ B]. apply dimacs2cnf_ok in B. rewrite decimals_length in B by lia.
  assert (C : coherent (Z.of_nat (List.length (cn_names c2))) (cn_clauses c2) = true) by (apply coherent_spec; apply W). rewrite C in B.
  exists (read_header v h e), (mkCnf (decimals (Z.of_nat (List.length (cn_names c2)))) (cn_clauses c2)). split; [exact B|]. split.
  - apply made_of_numbers; [apply decimals_NoDup|]. intros cl z Hc Hz. rewrite decimals_length by lia. apply W with cl; auto.
  - split; cbn [cn_names cn_clauses]; auto. pose proof (decimals_length (Z.of_nat (List.length (cn_names c2))) ltac:(lia)). unfold text in *. lia.
Qed.
Lemma piped_one t v out h c : made c -> holds_text out c -> drawn t ->
  (exists h2 c' c2, dimacstransform t v out = Ok (dimacs v h2 None c2 ++ [newline]) /\ made c2 /\ renamed c' c2 /\ made c' /\
     transform t c = Ok c' /\ apply_transformation (Some t) (h, c) = Gives (transform_header t h, c')) \/
  (compresses t /\ dimacstransform t v out = Err SystemExit /\ transform t c = Err SystemExit /\ apply_transformation (Some t) (h, c) = Exits (-1)).
Proof.
  intros M H D. destruct (read_back out c H) as (h3 & c3 & E & M3 & R). unfold dimacstransform. rewrite E. cbn [bind negb].
  pose proof (transform_renamed t c c3 (proj1 (made_well c M)) (proj1 (made_well c3 M3)) R D) as S.
  destruct (applied t h c M D) as [(c' & T & A)|(C & T & A)].
  - left. rewrite T in S. destruct (transform t c3) as [c2|e|] eqn:T2; try contradiction. cbn [bind]. exists (transform_header t h3), c', c2. split; [reflexivity|].
    split; [exact (transform_made t c3 c2 M3 T2)|]. split; [exact S|]. split; [exact (transform_made t c c' M T)|]. split; [exact T|exact A].
  - right. rewrite T in S. destruct (transform t c3) as [c2|e|] eqn:T2; try contradiction. cbn [same_result] in S. subst e. cbn [bind]. auto.
Qed.
Lemma piped_all : forall ts v out h c, made c -> holds_text out c -> Forall drawn ts ->
  (exists out' c', pipe ts v out = Ok out' /\ holds_text out' c' /\ made c' /\ (ts <> [] -> exists h2 c2, out' = dimacs v h2 None c2 ++ [newline] /\ renamed c' c2) /\
     apply_transformations (map Some ts) (h, c) = Gives (final_header ts h, c')) \/
  (Exists compresses ts /\ pipe ts v out = Err SystemExit /\ apply_transformations (map Some ts) (h, c) = Exits (-1)).
Proof.
  induction ts as [|t ts IH]; intros v out h c M H D; cbn [pipe map apply_transformations].
  - left. exists out, c. split; [reflexivity|]. split; [exact H|]. split; [exact M|]. split; [congruence|reflexivity].
  - inversion D as [|x l D1 D2]; subst. destruct (piped_one t v out h c M H D1) as [(h2 & c' & c2 & E & M2 & R & M' & _ & A)|(C & E & _ & A)].
    + rewrite E, A. cbn [bind andthen]. assert (H' : holds_text (dimacs v h2 None c2 ++ [newline]) c') by (exists v, h2, None, c2; auto).
      destruct (IH v _ (transform_header t h) c' M' H' D2) as [(o & d & P & Q & Md & X & Y)|(C & P & Q)].
      * left. exists o, d. split; [exact P|]. split; [exact Q|]. split; [exact Md|]. split; [|exact Y]. intros _. destruct ts as [|t2 ts]; [|apply X; discriminate].
        cbn [pipe] in P. cbn [map apply_transformations] in Y. assert (d = c') by (cbn in Y; congruence). subst d. exists h2, c2. split; [congruence|exact R].
      * right. split; [apply Exists_cons_tl; exact C|]. auto.
    + right. rewrite E, A. split; [apply Exists_cons_hd; exact C|]. split; reflexivity.
Qed.
Lemma texts_same v1 h1 e1 c1 v2 h2 e2 c2 t : renamed c1 c2 -> same_formula (dimacs v1 h1 e1 c1 ++ t) (dimacs v2 h2 e2 c2 ++ t).
Proof.
  intros R. exists (if v1 then comments h1 e1 else []), (if v2 then comments h2 e2 else []), (body c1 ++ t).
  assert (K : forall v h e, Forall (fun l => one_line l /\ hd_error l = Some "c"%char) (if v : bool then comments h e else [])).
  { intros v h e. destruct v; [|constructor]. destruct (comments_ok h e) as [A B]. rewrite Forall_forall in *. intros l I. split; [apply B; auto|]. rewrite comments_lines in I. apply in_map_iff in I as (m & <- & _).
    rewrite comment_of_eq. destruct (rstrip m); reflexivity. }
  split; [apply K|]. split; [apply K|]. rewrite !dimacs_body, <- !app_assoc. split; [reflexivity|]. rewrite (body_renamed _ _ R). reflexivity.
Qed.
Lemma quiet_same h1 e1 c1 h2 e2 c2 : renamed c1 c2 -> dimacs false h1 e1 c1 = dimacs false h2 e2 c2.
Proof. intros R. rewrite !dimacs_body, (body_renamed _ _ R). reflexivity. Qed.
Lemma written_by h c words v : made c -> holds_text (cnfgen_file v h words c) c.
Proof. intros M. unfold cnfgen_file. eexists v, h, _, c. split; [exact M|]. split; [split; reflexivity|reflexivity]. Qed.
Lemma applied_app ts us hc : apply_transformations (ts ++ us) hc = andthen (apply_transformations ts hc) (apply_transformations us).
Proof. revert hc. induction ts as [|t ts IH]; intros hc; cbn [app apply_transformations andthen]; [destruct hc; reflexivity|]. destruct (apply_transformation t hc); cbn [andthen]; auto. Qed.
Lemma applied_made : forall ts h c h' c', made c -> apply_transformations ts (h, c) = Gives (h', c') -> made c'.
Proof.
  induction ts as [|t ts IH]; intros h c h' c' M A; cbn [apply_transformations] in A; [injection A as _ <-; exact M|].
  apply gives_then in A as ([h1 c1] & A1 & A). apply (IH h1 c1 h' c'); auto. destruct t as [t|]; [|discriminate]. cbn [apply_transformation fst snd] in A1.
  apply gives_then in A1 as (c2 & A1 & A2). assert (c2 = c1) by congruence. subst c2. destruct t; try (apply plain_gives in A1; exact (transform_made _ c c1 M A1)); apply checked_gives in A1; eapply compression_made; eauto.
Qed.
