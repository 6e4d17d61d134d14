(* PLatex.v -- proofs about MLatex.v. *)
From Coq Require Import String Ascii ZArith List Bool Lia.
From Verif Require Import PyBase MText MCnf MTrans MLatex SpecCnf SpecLatex PLib PText PReader PCnf1 PCnf2 PCnf3 PFam1 PGen6 PFile1 PFile2.
Import ListNotations.
Open Scope Z_scope.

Definition bl : ascii := " "%char.
Definition nonempty (w : text) : bool := match w with [] => false | _ => true end.
Lemma words_app a b : words_of (a ++ bl :: b) = words_of a ++ words_of b.
Proof. unfold words_of. rewrite split_on_app2. apply filter_app. Qed.
Lemma words_word w : lacks bl w -> nonempty w = true -> words_of w = [w].
Proof. intros H N. unfold words_of. rewrite split_on_lacks by auto. cbn [filter]. change (match w with [] => false | _ => true end) with (nonempty w). rewrite N. reflexivity. Qed.
Lemma words_blank t : words_of (bl :: t) = words_of t.
Proof. exact (words_app [] t). Qed.

(* ---- names ---- *)
Lemma find_underscore_some n k : find_underscore n = Some k ->
  n = firstn k n ++ "_"%char :: skipn (S k) n /\ ~ In "_"%char (firstn k n) /\ skipn k n = "_"%char :: skipn (S k) n.
Proof.
  revert k. induction n as [|c n IH]; intros k H; [discriminate|]. cbn [find_underscore] in H. unfold underscore in H.
  destruct (Ascii.eqb_spec c "_"%char) as [->|N].
  - injection H as <-. cbn. auto.
  - destruct (find_underscore n) as [j|]; [|discriminate]. injection H as <-. destruct (IH j eq_refl) as (A & B & C).
    cbn [firstn skipn app]. repeat split; [f_equal; exact A | intros [E|I]; [congruence | tauto] | exact C].
Qed.
Lemma find_underscore_none n : find_underscore n = None -> ~ In "_"%char n.
Proof.
  induction n as [|c n IH]; cbn [find_underscore]; intros H; [intros []|]. unfold underscore in H.
  destruct (Ascii.eqb_spec c "_"%char) as [->|N]; [discriminate|]. destruct (find_underscore n); [discriminate|].
  intros [E|I]; [congruence|]. exact (IH eq_refl I).
Qed.
Lemma covered_clear n : clear_name n -> ~ In "}"%char (firstn (split_point n) n).
Proof.
  intros (_ & _ & _ & H1 & H2). unfold split_point. destruct (find_underscore n) as [k|] eqn:E.
  - destruct (find_underscore_some _ _ E) as (A & B & _). exact (H1 _ _ A B).
  - pose proof (find_underscore_none _ E) as N. destruct (list_eq_dec ascii_dec n []) as [->|X]; [intros []|]. destruct (exists_last X) as (a & x & ->).
    rewrite app_length. cbn [List.length]. rewrite Nat.add_sub, firstn_app, Nat.sub_diag, firstn_all. cbn [firstn]. rewrite app_nil_r.
    exact (H2 _ _ eq_refl N).
Qed.

Lemma until_brace_app a b : ~ In "}"%char a -> until_brace (a ++ "}"%char :: b) = (a, b).
Proof.
  induction a as [|c a IH]; intros H; cbn [app until_brace].
  - reflexivity.
  - destruct (Ascii.eqb_spec c "}"%char) as [->|N]; [exfalso; apply H; left; auto|].
    rewrite IH; auto. intros I. apply H. right; auto.
Qed.
Lemma starts_backslash n : ~ In "\"%char n -> starts_with negation n = false.
Proof.
  intros H. destruct n as [|c n]; [reflexivity|]. change negation with ("\"%char :: txt "overline{"). cbn [starts_with].
  destruct (Ascii.eqb_spec "\"%char c) as [<-|N]; [exfalso; apply H; left; auto|reflexivity].
Qed.
Lemma starts_app p t : starts_with p (p ++ t) = true.
Proof. induction p as [|c p IH]; cbn [starts_with app]; auto. rewrite Ascii.eqb_refl. exact IH. Qed.

Lemma lacks_app c a b : lacks c a -> lacks c b -> lacks c (a ++ b).
Proof. unfold lacks. intros A B I. apply in_app_iff in I as [I|I]; auto. Qed.
Lemma lacks_firstn c k (a : text) : lacks c a -> lacks c (firstn k a).
Proof. unfold lacks. intros A I. apply A. rewrite <- (firstn_skipn k a). apply in_app_iff; auto. Qed.
Lemma lacks_skipn c k (a : text) : lacks c a -> lacks c (skipn k a).
Proof. unfold lacks. intros A I. apply A. rewrite <- (firstn_skipn k a). apply in_app_iff; auto. Qed.
Lemma lacks_nil c : lacks c [].
Proof. intros []. Qed.
Ltac lit := intro; repeat match goal with H : In _ _ |- _ => cbn in H end; intuition discriminate.

(* the literal a number stands for *)
Definition literal_of (names : list text) (l : Z) : bool * text := (0 <? l, nth (Z.to_nat (Z.abs l - 1)) names []).
Definition negated (n : text) : text := txt "{\overline{" ++ firstn (split_point n) n ++ txt "}" ++ skipn (split_point n) n ++ txt "}".
Lemma Ok_inj {A} (a b : A) : Ok a = Ok b -> a = b.
Proof. congruence. Qed.
Lemma literal_ok names l w : latex_literal names l = Ok w ->
  let n := nth (Z.to_nat (Z.abs l - 1)) names [] in
  In n names /\ w = if 0 <? l then txt "           {" ++ n ++ txt "}" else negated n.
Proof.
  unfold latex_literal. destruct (l =? 0); [discriminate|].
  destruct (nth_error names (Z.to_nat (Z.abs l - 1))) as [n|] eqn:E; cbn [of_option bind]; [|discriminate].
  intros H. injection H as <-. cbv zeta. pose proof (nth_error_nth _ _ ([] : text) E) as X. cbv beta in X. unfold text in *. rewrite X. split; [exact (nth_error_In _ _ E)|reflexivity].
Qed.
Lemma literal_defined names l : 1 <= Z.abs l <= Z.of_nat (List.length names) -> exists w, latex_literal names l = Ok w.
Proof.
  intros H. unfold latex_literal. destruct (Z.eqb_spec l 0); [lia|].
  destruct (nth_error names (Z.to_nat (Z.abs l - 1))) as [n'|] eqn:E; cbn [of_option bind]; [eexists; reflexivity|].
  apply nth_error_None in E. lia.
Qed.
Lemma read_covered X Y : ~ In "}"%char X -> read_literal (txt "{\overline{" ++ X ++ txt "}" ++ Y ++ txt "}") = Some (false, X ++ Y).
Proof.
  intros C. change (txt "{\overline{" ++ X ++ txt "}" ++ Y ++ txt "}") with ("{"%char :: (negation ++ X ++ "}"%char :: (Y ++ ["}"%char]))).
  assert (E : removelast (negation ++ X ++ "}"%char :: (Y ++ ["}"%char])) = negation ++ X ++ "}"%char :: Y).
  { replace (negation ++ X ++ "}"%char :: (Y ++ ["}"%char])) with ((negation ++ X ++ "}"%char :: Y) ++ ["}"%char]) by (rewrite <- !app_assoc; reflexivity).
    apply removelast_last. }
  unfold read_literal. replace (last _ _) with "}"%char.
  2:{ symmetry. replace (negation ++ X ++ "}"%char :: (Y ++ ["}"%char])) with ((negation ++ X ++ "}"%char :: Y) ++ ["}"%char]) by (rewrite <- !app_assoc; reflexivity). apply last_last. }
  cbn [Ascii.eqb Bool.eqb andb]. rewrite E, starts_app.
  replace (skipn (List.length negation) (negation ++ X ++ "}"%char :: Y)) with (X ++ "}"%char :: Y)
    by (rewrite skipn_app, skipn_all, Nat.sub_diag; reflexivity).
  rewrite until_brace_app by exact C. reflexivity.
Qed.
Lemma read_negated n : clear_name n -> read_literal (negated n) = Some (false, n).
Proof. intros H. unfold negated. rewrite read_covered by exact (covered_clear n H). rewrite firstn_skipn. reflexivity. Qed.
Lemma read_positive n : clear_name n -> read_literal (txt "{" ++ n ++ txt "}") = Some (true, n).
Proof.
  intros (_ & _ & B & _). change (txt "{" ++ n ++ txt "}") with ("{"%char :: (n ++ ["}"%char])). unfold read_literal. rewrite last_last. cbn [Ascii.eqb Bool.eqb andb].
  rewrite removelast_last, starts_backslash by exact B. reflexivity.
Qed.
Lemma negated_lacks c n : lacks c n -> lacks c (txt "{\overline{}") -> lacks c (negated n).
Proof.
  intros H K. unfold negated. repeat apply lacks_app; try (apply lacks_firstn; exact H); try (apply lacks_skipn; exact H);
    intros I; apply K; cbn in I |- *; tauto.
Qed.
Definition literal_word (n : text) (p : bool) : text := if p then txt "{" ++ n ++ txt "}" else negated n.
Lemma literal_words names l w : latex_literal names l = Ok w -> Forall clear_name names ->
  exists v, words_of w = [v] /\ read_literal v = Some (literal_of names l).
Proof.
  intros H F. destruct (literal_ok _ _ _ H) as (I & ->). unfold literal_of. set (n := nth _ names []) in *.
  pose proof (proj1 (Forall_forall _ _) F n I) as C. destruct (0 <? l).
  - exists (txt "{" ++ n ++ txt "}"). split; [|exact (read_positive n C)].
    change (txt "           {" ++ n ++ txt "}") with (bl :: bl :: bl :: bl :: bl :: bl :: bl :: bl :: bl :: bl :: bl :: (txt "{" ++ n ++ txt "}")).
    rewrite !words_blank. apply words_word; [|reflexivity]. apply lacks_app; [lit | apply lacks_app; [apply C | lit]].
  - exists (negated n). split; [|exact (read_negated n C)]. apply words_word; [|reflexivity]. apply negated_lacks; [apply C | lit].
Qed.
Lemma literal_line names l w : latex_literal names l = Ok w -> Forall (lacks newline) names -> lacks newline w.
Proof.
  intros H F. destruct (literal_ok _ _ _ H) as (I & ->). set (n := nth _ names []) in *.
  pose proof (proj1 (Forall_forall _ _) F n I) as C. destruct (0 <? l).
  - repeat apply lacks_app; try exact C; lit.
  - apply negated_lacks; [exact C | lit].
Qed.

(* ---- clauses ---- *)
Lemma mapM_Forall2 {A B} (f : A -> result B) l ys : mapM f l = Ok ys -> Forall2 (fun x y => f x = Ok y) l ys.
Proof.
  revert ys. induction l as [|x t IH]; intros ys H; cbn [mapM] in H; [injection H as <-; constructor|].
  apply bind_ok in H as (y & E1 & H). apply bind_ok in H as (ys' & E2 & H). injection H as <-. constructor; auto.
Qed.
Lemma mapM_defined {A B} (f : A -> result B) l : (forall x, In x l -> exists y, f x = Ok y) -> exists ys, mapM f l = Ok ys.
Proof.
  induction l as [|x t IH]; intros H; cbn [mapM]; [eexists; reflexivity|].
  destruct (H x (or_introl eq_refl)) as (y & ->). destruct IH as (ys & ->); [intros; apply H; right; auto|]. cbn [bind]. eexists; reflexivity.
Qed.
Lemma lor_words w t : words_of (w ++ txt " \lor " ++ t) = words_of w ++ txt "\lor" :: words_of t.
Proof.
  change (w ++ txt " \lor " ++ t) with (w ++ bl :: (txt "\lor" ++ bl :: t)). rewrite !words_app. reflexivity.
Qed.
Fixpoint ored (vs : list text) : list text := match vs with [] => [] | [v] => [v] | v :: t => v :: txt "\lor" :: ored t end.
Lemma join_words ws vs : Forall2 (fun w v => words_of w = [v]) ws vs -> words_of (join (txt " \lor ") ws) = ored vs.
Proof.
  induction 1 as [|w v ws vs E F IH]; [reflexivity|]. destruct F as [|w' v' ws vs E' F]; [exact E|].
  change (join (txt " \lor ") (w :: w' :: ws)) with (w ++ txt " \lor " ++ join (txt " \lor ") (w' :: ws)). rewrite lor_words, IH, E. reflexivity.
Qed.
Lemma read_ored vs xs : Forall2 (fun v x => read_literal v = Some x) vs xs -> vs <> [] -> read_or (ored vs) = Some xs.
Proof.
  induction 1 as [|v x vs xs E F IH]; intros N; [congruence|]. destruct F as [|v' x' vs xs E' F].
  - cbn [ored read_or]. rewrite E. reflexivity.
  - change (ored (v :: v' :: vs)) with (v :: txt "\lor" :: ored (v' :: vs)). cbn [read_or]. rewrite E.
    change (text_eqb (txt "\lor") (txt "\lor")) with true. cbv iota. rewrite IH by discriminate. reflexivity.
Qed.
(* a word that is no part of the layout *)
Definition braced (v : text) : Prop := exists r, v = "{"%char :: r.
Lemma read_braced v x : read_literal v = Some x -> braced v.
Proof.
  unfold read_literal. destruct v as [|c r]; [discriminate|]. destruct (Ascii.eqb_spec c "{"%char) as [->|]; [|discriminate]. cbn [andb]. intros _. exists r. auto.
Qed.
Lemma ored_first v vs : exists r, ored (v :: vs) = v :: r.
Proof. destruct vs; eexists; reflexivity. Qed.
Lemma ored_last vs : vs <> [] -> exists r v, In v vs /\ ored vs = r ++ [v].
Proof.
  induction vs as [|v vs IH]; intros H; [congruence|]. destruct vs as [|v' vs]; [exists [], v; split; [left|]; reflexivity|].
  destruct IH as (r & z & I & E); [discriminate|]. exists (v :: txt "\lor" :: r), z. split; [right; exact I|].
  change (ored (v :: v' :: vs)) with (v :: txt "\lor" :: ored (v' :: vs)). rewrite E. reflexivity.
Qed.
Lemma join_lacks c sep ws : lacks c sep -> Forall (lacks c) ws -> lacks c (join sep ws).
Proof. intros S F I. apply join_In in I as [I|(p & P & I)]; [exact (S I)|]. rewrite Forall_forall in F. exact (F p P I). Qed.

Lemma body_ok names full cl b : latex_body names full cl = Ok b ->
  (cl = [] /\ b = txt "\square") \/
  exists ws, Forall2 (fun l w => latex_literal names l = Ok w) cl ws /\
    b = if full then join (txt " \lor ") ws else txt "\left( " ++ join (txt " \lor ") ws ++ txt " \right)".
Proof.
  unfold latex_body. destruct cl as [|l cl]; intros H; [injection H as <-; auto|]. right.
  apply bind_ok in H as (ws & E & H). exists ws. split; [exact (mapM_Forall2 _ _ _ E)|]. injection H as <-. reflexivity.
Qed.
Lemma body_words names full cl b : latex_body names full cl = Ok b -> Forall clear_name names ->
  exists ws : list text, words_of b = ws /\
    SpecLatex.read_body ws = Some (negb full && match cl with [] => false | _ => true end, uncompress_clause names cl) /\
    (exists (f : text) (r : list text), ws = f :: r /\ text_eqb f (txt "\land") = false) /\
    (exists (r : list text) (z : text), ws = r ++ [z] /\ text_eqb z (txt "\\") = false).
Proof.
  intros H F. unfold latex_body in H. destruct cl as [|l cl].
  - apply Ok_inj in H. subst b. exists [txt "\square"]. rewrite andb_false_r. repeat split; [exists (txt "\square"), [] | exists [], (txt "\square")]; auto.
  - apply bind_ok in H as (ws & E & H). apply Ok_inj in H. subst b. apply mapM_Forall2 in E. rewrite andb_true_r.
    assert (V : exists vs, Forall2 (fun w v => words_of w = [v]) ws vs /\ Forall2 (fun v x => read_literal v = Some x) vs (uncompress_clause names (l :: cl))).
    { clear - E F. induction E as [|y w ys ws E1 _ IH]; [exists []; split; constructor|]. destruct IH as (vs & A & B).
      destruct (literal_words _ _ _ E1 F) as (v & V1 & V2). exists (v :: vs). split; constructor; auto. }
    destruct V as (vs & A & B). pose proof (join_words _ _ A) as J.
    assert (Bv : Forall braced vs) by (clear - B; induction B; constructor; eauto using read_braced).
    assert (N : vs <> []) by (intros ->; inversion B). pose proof (read_ored _ _ B N) as RO. clear A.
    destruct full; cbn [negb].
    + exists (ored vs). split; [exact J|]. destruct vs as [|v vs]; [congruence|]. destruct (ored_first v vs) as (r & O1).
      inversion Bv as [|? ? (u & ->) Bv']; subst. split; [|split].
      * rewrite O1 in RO |- *. unfold SpecLatex.read_body. change (text_eqb ("{"%char :: u) (txt "\square")) with false.
        change (text_eqb ("{"%char :: u) (txt "\left(")) with false. cbv iota. rewrite RO. reflexivity.
      * exists ("{"%char :: u), r. split; [exact O1|reflexivity].
      * destruct (ored_last _ N) as (r' & z & Z & O2). exists r', z. split; [exact O2|]. rewrite Forall_forall in Bv. destruct (Bv z Z) as (y & ->). reflexivity.
    + exists (txt "\left(" :: ored vs ++ [txt "\right)"]). split; [|split; [|split]].
      * change (txt "\left( " ++ join (txt " \lor ") ws ++ txt " \right)") with (txt "\left(" ++ bl :: (join (txt " \lor ") ws ++ bl :: txt "\right)")).
        rewrite !words_app, J. reflexivity.
      * unfold SpecLatex.read_body. change (text_eqb (txt "\left(") (txt "\square")) with false. change (text_eqb (txt "\left(") (txt "\left(")) with true. cbv iota.
        rewrite rev_unit. change (text_eqb (txt "\right)") (txt "\right)")) with true. cbv iota. rewrite rev_involutive, RO. reflexivity.
      * exists (txt "\left("), (ored vs ++ [txt "\right)"]). split; reflexivity.
      * exists (txt "\left(" :: ored vs), (txt "\right)"). split; reflexivity.
Qed.
Lemma body_line names full cl b : latex_body names full cl = Ok b -> Forall (lacks newline) names -> lacks newline b.
Proof.
  intros H F. destruct (body_ok _ _ _ _ H) as [(-> & ->)|(ws & W & ->)]; [lit|].
  assert (J : lacks newline (join (txt " \lor ") ws)).
  { apply join_lacks; [lit|]. clear H. induction W; constructor; eauto using literal_line. }
  destruct full; [exact J|]. apply lacks_app; [lit|]. apply lacks_app; [exact J|lit].
Qed.

(* a row of the text *)
Definition row_text (names : list text) (full land ended : bool) (r : text) (cl : list Z) : Prop :=
  exists body, latex_body names full cl = Ok body /\
    r = (txt "&" ++ (if land then txt " \land " else txt "       ") ++ body) ++ (if ended then txt " \\" else []).
Lemma row_text_read names full land ended r cl : row_text names full land ended r cl -> Forall clear_name names ->
  read_row r = Some (mkRow land (negb full && match cl with [] => false | _ => true end) (uncompress_clause names cl) ended).
Proof.
  intros (b & B & ->) F. destruct (body_words _ _ _ _ B F) as (ws & W & RB & (f & r & Ef & Hf) & (r' & z & Ez & Hz)).
  assert (X : words_of ((txt "&" ++ (if land then txt " \land " else txt "       ") ++ b) ++ (if ended then txt " \\" else []))
    = txt "&" :: (if land then [txt "\land"] else []) ++ ws ++ (if ended then [txt "\\"] else [])).
  { assert (Y : words_of (txt "&" ++ (if land then txt " \land " else txt "       ") ++ b) = txt "&" :: (if land then [txt "\land"] else []) ++ ws).
    { destruct land.
      - change (txt "&" ++ txt " \land " ++ b) with (txt "&" ++ bl :: (txt "\land" ++ bl :: b)). rewrite !words_app, W. reflexivity.
      - change (txt "&" ++ txt "       " ++ b) with (txt "&" ++ bl :: bl :: bl :: bl :: bl :: bl :: bl :: b). rewrite words_app, !words_blank, W. reflexivity. }
    destruct ended; [|rewrite !app_nil_r; exact Y]. change (txt " \\") with (bl :: txt "\\"). rewrite words_app, Y. cbn [app]. rewrite <- app_assoc. reflexivity. }
  unfold read_row. rewrite X. change (text_eqb (txt "&") (txt "&")) with true. cbv iota. clear X W.
  assert (Y : (match rev ((if land then [txt "\land"] else []) ++ ws ++ (if ended then [txt "\\"] else [])) with
               | z :: r => if text_eqb z (txt "\\") then (rev r, true) else ((if land then [txt "\land"] else []) ++ ws ++ (if ended then [txt "\\"] else []), false)
               | [] => ((if land then [txt "\land"] else []) ++ ws ++ (if ended then [txt "\\"] else []), false) end)
              = ((if land then [txt "\land"] else []) ++ ws, ended)).
  { destruct ended.
    - rewrite app_assoc, rev_unit. change (text_eqb (txt "\\") (txt "\\")) with true. cbv iota. rewrite rev_involutive. reflexivity.
    - rewrite app_nil_r. rewrite Ez at 1. rewrite app_assoc, rev_unit, Hz. reflexivity. }
  rewrite Y. cbv iota beta. destruct land.
  - cbn [app]. change (text_eqb (txt "\land") (txt "\land")) with true. cbv iota beta. rewrite RB. reflexivity.
  - cbn [app]. rewrite Ef. rewrite Hf. cbv iota beta. rewrite <- Ef, RB. reflexivity.
Qed.
(* consecutive rows; first: nothing comes before them *)
Fixpoint rows_text (names : list text) (full first : bool) (R : list text) (cls : list (list Z)) : Prop :=
  match R, cls with
  | [], [] => True
  | r :: R', cl :: cls' => row_text names full (negb (full || first)) (match R' with [] => false | _ => true end) r cl /\ rows_text names full false R' cls'
  | _, _ => False
  end.

(* ---- pages ---- *)
Definition room (i : Z) : Z := if (i mod 40 =? 0) && negb (i =? 0) then 0 else 40 - i mod 40.
Definition good_pages (Ps : list (list text)) : Prop :=
  Forall (fun p => 1 <= Z.of_nat (List.length p) <= 40) Ps /\ Forall (fun p => Z.of_nat (List.length p) = 40) (removelast Ps).
Definition laid_out (full : bool) (i : Z) (R : list text) (Ps : list (list text)) : Prop :=
  if full then Z.of_nat (List.length R) <= room i /\ (Ps <> [] -> Z.of_nat (List.length R) = room i) /\ good_pages Ps else Ps = [].

Lemma room_next i : 0 <= i -> (i mod 40 =? 0) && negb (i =? 0) = false -> room i = 1 + room (i + 1).
Proof.
  intros H E. unfold room at 1. rewrite E. unfold room. destruct (Z.eqb_spec (i + 1) 0); [lia|]. cbn [negb]. rewrite andb_true_r.
  pose proof (Z.mod_pos_bound i 40 eq_refl). pose proof (Z_div_mod_eq_full i 40).
  destruct (Z.eqb_spec ((i + 1) mod 40) 0) as [E2|E2].
  - assert (i mod 40 = 39); [|lia]. pose proof (Z_div_mod_eq_full (i + 1) 40). lia.
  - pose proof (Z_div_mod_eq_full (i + 1) 40). pose proof (Z.mod_pos_bound (i + 1) 40 eq_refl). lia.
Qed.
Lemma room_first i : 0 <= i -> (i mod 40 =? 0) && negb (i =? 0) = true -> room i = 0 /\ room (i + 1) = 39.
Proof.
  intros H E. unfold room at 1. rewrite E. split; auto. apply andb_true_iff in E as (E & _). apply Z.eqb_eq in E.
  unfold room. pose proof (Z_div_mod_eq_full i 40). pose proof (Z_div_mod_eq_full (i + 1) 40). pose proof (Z.mod_pos_bound (i + 1) 40 eq_refl).
  assert ((i + 1) mod 40 = 1) as -> by lia. cbn [Z.eqb Pos.eqb andb]. lia.
Qed.
Lemma paged_page l ls : begins_page l = true -> paged (l :: ls) = ([], fst (paged ls) :: snd (paged ls)).
Proof. intros H. cbn [paged]. rewrite H. destruct (paged ls); reflexivity. Qed.
Lemma paged_row l ls : begins_page l = false -> is_row l = true -> paged (l :: ls) = (l :: fst (paged ls), snd (paged ls)).
Proof. intros H K. cbn [paged]. rewrite H, K. destruct (paged ls); reflexivity. Qed.
Lemma paged_other l ls : begins_page l = false -> is_row l = false -> paged (l :: ls) = paged ls.
Proof. intros H K. cbn [paged]. rewrite H, K. destruct (paged ls); reflexivity. Qed.

Lemma clauses_paged names full : Forall (lacks newline) names -> forall cls i t p rest,
  latex_clauses names full i cls = Ok t -> 0 <= i -> lacks newline p -> paged (split_on newline rest) = ([], []) ->
  exists R Ps lines Cr Cs,
    split_on newline (p ++ t ++ newline :: rest) = (p ++ (match R with [] => [] | _ => if i =? 0 then [] else txt " \\" end)) :: lines /\
    paged lines = (R, Ps) /\ cls = Cr ++ concat Cs /\ rows_text names full (i =? 0) R Cr /\ Forall2 (rows_text names full true) Ps Cs /\
    laid_out full i R Ps.
Proof.
  intros F. induction cls as [|cl cls IH]; intros i t p rest H Hi Hp Hr; cbn [latex_clauses] in H.
  - apply Ok_inj in H. subst t. exists [], [], (split_on newline rest), [], []. cbn [app concat]. rewrite app_nil_r.
    split; [apply split_on_app; exact Hp|]. split; [exact Hr|]. split; [reflexivity|]. split; [exact I|]. split; [constructor|].
    unfold laid_out. destruct full; auto. cbn [List.length]. split; [|split; [congruence|split; constructor]].
    unfold room. pose proof (Z.mod_pos_bound i 40 eq_refl). destruct ((i mod 40 =? 0) && negb (i =? 0)); lia.
  - apply bind_ok in H as (row & E & H). apply bind_ok in H as (t' & E' & H). apply Ok_inj in H. subst t.
    destruct ((i mod clauses_per_page =? 0) && negb (i =? 0) && full) eqn:C.
    + apply andb_true_iff in C as (C & ->). change clauses_per_page with 40 in C. destruct (room_first i Hi C) as (R1 & R2).
      apply bind_ok in E as (r & E & X). apply Ok_inj in X. subst row. unfold latex_clause in E. apply bind_ok in E as (b & B & X). apply Ok_inj in X. subst r.
      cbn [orb].
      set (line := txt "&" ++ txt "       " ++ b).
      assert (Hl : lacks newline line) by (apply lacks_app; [lit|]; apply lacks_app; [lit|]; exact (body_line _ _ _ _ B F)).
      destruct (IH (i + 1) t' line rest E' ltac:(lia) Hl Hr) as (R & Ps & lines & Cr & Cs & SL & PL & EC & Sh & Shs & Lay).
      replace (i + 1 =? 0) with false in * by (symmetry; apply Z.eqb_neq; lia).
      set (s := match R with [] => ([] : text) | _ => txt " \\" end) in *.
      exists [], (((line ++ s) :: R) :: Ps), (txt "\end{align}\pagebreak" :: txt "\begin{align}" :: (line ++ s) :: lines), [], ((cl :: Cr) :: Cs).
      split; [|split; [|split; [|split; [|split]]]].
      * rewrite app_nil_r.
        match goal with |- split_on newline ?X = _ =>
          replace X with (p ++ newline :: (txt "\end{align}\pagebreak" ++ newline :: (txt "\begin{align}" ++ newline :: (line ++ t' ++ newline :: rest))))
            by (unfold line; rewrite <- ?app_assoc; reflexivity) end.
        rewrite split_on_app by exact Hp. rewrite split_on_app by lit. rewrite split_on_app by lit. rewrite SL. reflexivity.
      * rewrite paged_other by reflexivity. rewrite paged_page by reflexivity. rewrite paged_row by reflexivity. rewrite PL. reflexivity.
      * cbn [app concat]. rewrite EC. reflexivity.
      * exact I.
      * constructor; [|exact Shs]. cbn [rows_text orb negb]. split; [|exact Sh]. exists b. split; [exact B|].
        unfold s, line. destruct R; reflexivity.
      * cbn [laid_out] in Lay |- *. destruct Lay as (L1 & L2 & L3 & L4). cbn [List.length].
        split; [lia|]. split; [lia|]. split.
        -- constructor; [cbn [List.length]; lia | exact L3].
        -- destruct Ps as [|P Ps]; [constructor|].
           change (removelast (((line ++ s) :: R) :: P :: Ps)) with (((line ++ s) :: R) :: removelast (P :: Ps)).
           constructor; [|exact L4]. cbn [List.length]. rewrite Nat2Z.inj_succ, L2 by discriminate. lia.
    + unfold latex_clause in E. apply bind_ok in E as (b & B & X). apply Ok_inj in X. subst row.
      set (lead := if full || (i =? 0) then txt "       " else txt " \land ").
      assert (Hd : lead = txt "       " \/ lead = txt " \land ") by (unfold lead; destruct (full || (i =? 0)); auto).
      set (s0 := if i =? 0 then ([] : text) else txt " \\").
      assert (Hs0 : s0 = [] \/ s0 = txt " \\") by (unfold s0; destruct (i =? 0); auto).
      set (line := txt "&" ++ lead ++ b).
      assert (Hl : lacks newline line).
      { apply lacks_app; [lit|]. apply lacks_app; [destruct Hd as [-> | ->]; lit|]. exact (body_line _ _ _ _ B F). }
      destruct (IH (i + 1) t' line rest E' ltac:(lia) Hl Hr) as (R & Ps & lines & Cr & Cs & SL & PL & EC & Sh & Shs & Lay).
      replace (i + 1 =? 0) with false in * by (symmetry; apply Z.eqb_neq; lia).
      set (s := match R with [] => ([] : text) | _ => txt " \\" end) in *.
      exists ((line ++ s) :: R), Ps, ((line ++ s) :: lines), (cl :: Cr), Cs.
      split; [|split; [|split; [|split; [|split]]]].
      * match goal with |- split_on newline ?X = _ =>
          replace X with ((p ++ s0) ++ newline :: (line ++ t' ++ newline :: rest))
            by (unfold line, s0, lead; rewrite <- ?app_assoc; reflexivity) end.
        rewrite split_on_app by (apply lacks_app; [exact Hp | destruct Hs0 as [-> | ->]; lit]). rewrite SL. reflexivity.
      * rewrite paged_row by reflexivity. rewrite PL. reflexivity.
      * rewrite EC. reflexivity.
      * cbn [rows_text]. split; [|exact Sh]. exists b. split; [exact B|]. unfold s, line, lead. destruct (full || (i =? 0)), R; reflexivity.
      * exact Shs.
      * unfold laid_out in *. destruct full; auto. rewrite andb_true_r in C. change clauses_per_page with 40 in C.
        pose proof (room_next i Hi C). cbn [List.length]. rewrite Nat2Z.inj_succ. destruct Lay as (L1 & L2 & L3).
        split; [lia|]. split; [intros N; rewrite (L2 N); lia|exact L3].
Qed.

(* ---- the document around the rows ---- *)
Definition plain_line (l : text) : Prop := begins_page l = false /\ is_row l = false.
Definition silent (a : text) : Prop := forall t, paged (split_on newline (a ++ t)) = paged (split_on newline t).
Lemma silent_nil : silent [].
Proof. intros t. reflexivity. Qed.
Lemma silent_app a b : silent a -> silent b -> silent (a ++ b).
Proof. intros A B t. rewrite <- app_assoc, A. apply B. Qed.
Lemma paged_quiet ls t : Forall plain_line ls -> paged (ls ++ t) = paged t.
Proof. induction 1 as [|l ls (A & B) _ IH]; auto. cbn [app]. rewrite paged_other by auto. exact IH. Qed.
Lemma silent_quiet a : quiet a -> silent (a ++ [newline]).
Proof. intros Q t. rewrite <- app_assoc. cbn [app]. rewrite split_on_app2. apply paged_quiet. exact Q. Qed.
Lemma silent_line l : lacks newline l -> plain_line l -> silent (l ++ [newline]).
Proof. intros H P. apply silent_quiet. unfold quiet. rewrite split_on_lacks by exact H. constructor; auto. Qed.
Lemma starts_split p l u : starts_with p (l ++ u) = true -> starts_with p l = true \/ exists x q, p = l ++ x :: q /\ starts_with (x :: q) u = true.
Proof.
  revert l. induction p as [|x p IH]; intros l H; [left; destruct l; reflexivity|]. destruct l as [|y l].
  - right. exists x, p. split; [reflexivity|exact H].
  - cbn [app starts_with] in H |- *. apply andb_true_iff in H as (E & H). apply Ascii.eqb_eq in E as ->. rewrite Ascii.eqb_refl. cbn [andb].
    destruct (IH _ H) as [K|(z & q & -> & K)]; [auto|]. right. exists z, q. auto.
Qed.
Lemma plain_append l u : plain_line l -> plain_line (("\"%char :: u) : text) -> plain_line (l ++ "\"%char :: u).
Proof.
  intros (A & B) (C & D). unfold plain_line. unfold begins_page, is_row in *. split.
  - destruct (starts_with (txt "\begin{align}") (l ++ "\"%char :: u)) eqn:E; auto.
    apply starts_split in E as [E|(x & q & E & S)]; [congruence|]. destruct l as [|y l].
    + cbn [app] in E. rewrite <- E in S. congruence.
    + exfalso. cbn [starts_with] in S. apply andb_true_iff in S as (S & _). apply Ascii.eqb_eq in S as ->.
      change (txt "\begin{align}") with ("\"%char :: txt "begin{align}") in E. cbn [app] in E. injection E as _ E.
      assert (I : In "\"%char (txt "begin{align}")) by (change (txt "begin{align}") with ["b"; "e"; "g"; "i"; "n"; "{"; "a"; "l"; "i"; "g"; "n"; "}"]%char; rewrite E; apply in_app_iff; right; left; auto).
      cbn in I. intuition discriminate.
  - destruct l as [|y l]; [exact D|]. change (txt "&") with ["&"%char] in *. cbn [app starts_with] in *. exact B.
Qed.
Lemma split_last_append t u : lacks newline u -> exists ps p, split_on newline t = ps ++ [p] /\ split_on newline (t ++ u) = ps ++ [p ++ u].
Proof.
  intros U. induction t as [|c t IH].
  - exists [], []. cbn [app split_on]. split; [reflexivity|]. apply split_on_lacks. exact U.
  - destruct IH as (ps & p & A & B). cbn [app split_on]. destruct (Ascii.eqb c newline).
    + exists ([] :: ps), p. rewrite A, B. auto.
    + rewrite A, B. destruct ps as [|q ps]; cbn [app]; [exists [], (c :: p); auto | exists ((c :: q) :: ps), p; auto].
Qed.
Lemma silent_raw h u : quiet h -> lacks newline ("\"%char :: u) -> plain_line (("\"%char :: u) : text) -> silent (h ++ ("\"%char :: u) ++ [newline]).
Proof.
  intros Q L P. rewrite app_assoc. apply silent_quiet. unfold quiet in *. destruct (split_last_append h ("\"%char :: u) L) as (ps & p & A & B).
  rewrite A in Q. apply Forall_app in Q as (Q1 & Q2). unfold text in *. rewrite B. apply Forall_app. split; [exact Q1|]. constructor; [|constructor].
  inversion Q2; subst. apply plain_append; auto.
Qed.
Lemma silent_comments h : silent (concat (map (fun s => rstrip (txt "% " ++ s) ++ [newline]) (removelast (split_on newline h)))).
Proof.
  assert (F : Forall (lacks newline) (removelast (split_on newline h))).
  { apply Forall_forall. intros t H. apply removelast_In in H. pose proof (split_on_one newline h) as F. rewrite Forall_forall in F. apply F. auto. }
  induction F as [|l ls H _ IH]; [exact silent_nil|]. cbn [map concat]. apply silent_app; [|exact IH].
  assert (E : rstrip (txt "% " ++ l) = match rstrip l with [] => txt "%" | _ => txt "% " ++ rstrip l end) by (rewrite rstrip_app; destruct (rstrip l); reflexivity).
  rewrite E. apply silent_line; [|destruct (rstrip l); split; reflexivity].
  destruct (rstrip l) eqn:R; [lit|]. rewrite <- R. apply lacks_app; [lit|]. apply (rstrip_one l). exact H.
Qed.
Lemma escape_lacks t : lacks newline t -> lacks newline (escape_underscores t).
Proof.
  intros H I. unfold escape_underscores in I. apply in_flat_map in I as (c & C & I). destruct (Ascii.eqb c underscore).
  - cbn in I. intuition discriminate.
  - destruct I as [->|[]]. exact (H C).
Qed.
Lemma silent_step l rest : lacks newline l -> plain_line l -> silent rest -> silent (l ++ [newline] ++ rest).
Proof. intros A B C. rewrite app_assoc. apply silent_app; [apply silent_line|]; auto. Qed.
Lemma silent_lines ls : Forall (fun l => lacks newline l /\ plain_line l) ls -> silent (concat (map (fun l => l ++ [newline]) ls)).
Proof. induction 1 as [|l ls (A & B) _ IH]; [exact silent_nil|]. cbn [map concat]. apply silent_app; [apply silent_line|]; auto. Qed.
Lemma silent_opening h : quiet h -> silent (latex_opening h).
Proof.
  intros Q. unfold latex_opening. apply silent_app.
  { unfold latex_preamble. apply silent_lines. repeat (apply Forall_cons; [split; [lit|split; reflexivity]|]). apply Forall_nil. }
  apply silent_step; [lit|split; reflexivity|].
  replace (txt "\title{" ++ escape_underscores (hd [] (split_on newline h)) ++ txt "}" ++ [newline] ++
    txt "\author{CNFgen formula generator}" ++ [newline] ++ txt "\maketitle" ++ [newline] ++ txt "\noindent\textbf{Formula header:}" ++ [newline] ++
    txt "\begin{lstlisting}[breaklines]" ++ [newline] ++ h ++ txt "\end{lstlisting}" ++ [newline] ++ txt "\bigskip" ++ [newline])
  with ((txt "\title{" ++ escape_underscores (hd [] (split_on newline h)) ++ txt "}") ++ [newline] ++
    txt "\author{CNFgen formula generator}" ++ [newline] ++ txt "\maketitle" ++ [newline] ++ txt "\noindent\textbf{Formula header:}" ++ [newline] ++
    txt "\begin{lstlisting}[breaklines]" ++ [newline] ++ (h ++ txt "\end{lstlisting}" ++ [newline]) ++ txt "\bigskip" ++ [newline])
  by (rewrite <- !app_assoc; reflexivity).
  apply silent_step.
  - apply lacks_app; [lit|]. apply lacks_app; [|lit]. apply escape_lacks. pose proof (split_on_one newline h) as F.
    destruct (split_on newline h); [apply lacks_nil|]. inversion F; auto.
  - split; reflexivity.
  - do 4 (apply silent_step; [lit|split; reflexivity|]). apply silent_app.
    + exact (silent_raw h (txt "end{lstlisting}") Q ltac:(lit) ltac:(split; reflexivity)).
    + apply silent_line; [lit|split; reflexivity].
Qed.
Lemma str_line z : lacks newline (str_Z z).
Proof. apply str_Z_lacks. left. reflexivity. Qed.

Definition quiet_option (x : option text) : Prop := match x with Some e => quiet e | None => True end.
Lemma quiet_nil : quiet [].
Proof. constructor; [split; reflexivity|constructor]. Qed.
Theorem latex_paged e h x (full : bool) c t : latex e h x full c = Ok t -> Forall (lacks newline) (cn_names c) ->
  (full = true -> quiet h /\ quiet_option x) ->
  exists P Ps Cs, pages_of t = P :: Ps /\ cn_clauses c = concat Cs /\ Forall2 (rows_text (cn_names c) full true) (P :: Ps) Cs /\ laid_out full 0 P Ps.
Proof.
  intros H F Q. unfold latex in H. apply bind_ok in H as (rows & E & H). apply Ok_inj in H. subst t.
  set (count := txt "\noindent\textbf{CNF with " ++ str_Z (Z.of_nat (List.length (cn_names c))) ++ txt " variables and and " ++ str_Z (Z.of_nat (List.length (cn_clauses c))) ++ txt " clauses:}").
  set (rest := txt "\end{align}" ++ (if full then [newline] ++ txt "\end{document}" else [])).
  match goal with |- context [pages_of ?X] => replace X with
    ((if e then concat (map (fun s => rstrip (txt "% " ++ s) ++ [newline]) (removelast (split_on newline h))) else []) ++
     (if full then latex_opening h else []) ++
     (if full then (match x with Some t => t | None => [] end) ++ count ++ [newline] else []) ++
     (txt "\begin{align}" ++ rows ++ newline :: rest)) end.
  2: { unfold rest, count. destruct full; rewrite <- ?app_assoc; cbn [app]; reflexivity. }
  assert (S1 : silent (if e then concat (map (fun s => rstrip (txt "% " ++ s) ++ [newline]) (removelast (split_on newline h))) else []))
    by (destruct e; [apply silent_comments|exact silent_nil]).
  assert (S2 : silent (if full then latex_opening h else [])) by (destruct full; [apply silent_opening; apply Q; auto|exact silent_nil]).
  assert (S3 : silent (if full then (match x with Some t => t | None => [] end) ++ count ++ [newline] else [])).
  { destruct full; [|exact silent_nil].
    assert (Qx : quiet (match x with Some t => t | None => [] end)) by (destruct (Q eq_refl) as (_ & X); destruct x; [exact X|exact quiet_nil]).
    assert (L : lacks newline count) by (unfold count; repeat (apply lacks_app; [first [apply str_line|lit]|]); lit).
    refine (silent_raw _ (tl count) Qx L _). split; reflexivity. }
  unfold pages_of. rewrite S1, S2, S3. clear S1 S2 S3.
  assert (PR : paged (split_on newline rest) = ([], [])) by (unfold rest; destruct full; reflexivity).
  assert (K : exists t, latex_clauses (cn_names c) full 0 (cn_clauses c) = Ok t /\ (cn_clauses c <> [] -> t = rows)).
  { destruct (cn_clauses c); [exists []; split; [reflexivity|congruence]|exists rows; auto]. }
  destruct K as (t & Et & Er).
  destruct (clauses_paged _ _ F _ _ _ (txt "\begin{align}") rest Et ltac:(lia) ltac:(lit) PR) as (R & Ps & lines & Cr & Cs & SL & PL & EC & Sh & Shs & Lay).
  replace (match R with [] => [] | _ => if 0 =? 0 then [] else txt " \\" end) with ([] : text) in SL by (destruct R; reflexivity).
  exists R, Ps, (Cr :: Cs). split; [|split; [exact EC|split; [constructor; [exact Sh|exact Shs]|exact Lay]]].
  destruct (cn_clauses c) as [|cl cls] eqn:C.
  - apply Ok_inj in E. subst rows.
    cbn [latex_clauses] in Et. apply Ok_inj in Et. subst t. change (txt "\begin{align}" ++ [] ++ newline :: rest) with (txt "\begin{align}" ++ newline :: rest) in SL.
    rewrite split_on_app in SL by lit. apply (f_equal (@tl _)) in SL. cbn [tl] in SL. rewrite <- SL, PR in PL. injection PL as <- <-.
    change (txt "\begin{align}" ++ ([newline] ++ txt "   \top") ++ newline :: rest) with (txt "\begin{align}" ++ newline :: (txt "   \top" ++ newline :: rest)).
    rewrite split_on_app by lit. rewrite split_on_app by lit. rewrite paged_page by reflexivity. rewrite paged_other by reflexivity. rewrite PR. reflexivity.
  - rewrite <- (Er ltac:(discriminate)) in *. rewrite SL. rewrite paged_page by (apply starts_app). rewrite PL. reflexivity.
Qed.

(* ---- latex does not fail on formulas of the public interface ---- *)
Lemma clauses_defined names full cls : (forall cl l, In cl cls -> In l cl -> 1 <= Z.abs l <= Z.of_nat (List.length names)) ->
  forall i, exists t, latex_clauses names full i cls = Ok t.
Proof.
  induction cls as [|cl cls IH]; intros H i; cbn [latex_clauses]; [eexists; reflexivity|].
  assert (B : exists b, latex_body names full cl = Ok b).
  { unfold latex_body. destruct cl as [|l cl]; [eexists; reflexivity|].
    destruct (mapM_defined (latex_literal names) (l :: cl)) as (ws & ->); [intros y Y; apply literal_defined; apply (H (l :: cl)); [left; auto|exact Y]|].
    cbn [bind]. eexists; reflexivity. }
  destruct B as (b & B). destruct (IH ltac:(intros; eapply H; [right; eassumption|assumption]) (i + 1)) as (t & T).
  unfold latex_clause. rewrite B, T. cbn [bind]. destruct ((i mod clauses_per_page =? 0) && negb (i =? 0) && full); cbn [bind]; eexists; reflexivity.
Qed.
Lemma latex_defined e h x full c : made c -> exists t, latex e h x full c = Ok t.
Proof.
  intros M. destruct (made_well c M) as (_ & W). unfold latex.
  destruct (cn_clauses c) as [|cl cls] eqn:C; [cbn [bind]; eexists; reflexivity|].
  destruct (clauses_defined (cn_names c) full (cl :: cls) W 0) as (t & ->). cbn [bind]. eexists; reflexivity.
Qed.

(* ---- braces ---- *)
Lemma depth_app a b d : depth (a ++ b) d = match depth a d with Some d' => depth b d' | None => None end.
Proof.
  revert d. induction a as [|c a IH]; intros d; cbn [app depth]; auto.
  destruct (Ascii.eqb c "{"%char); auto. destruct (Ascii.eqb c "}"%char); auto. destruct d; auto.
Qed.
Lemma depth_shift t d d' k : depth t d = Some d' -> depth t (d + k)%nat = Some (d' + k)%nat.
Proof.
  revert d. induction t as [|c t IH]; intros d H; cbn [depth] in *; [congruence|].
  destruct (Ascii.eqb c "{"%char); [exact (IH _ H)|]. destruct (Ascii.eqb c "}"%char); [|auto].
  destruct d as [|d]; [discriminate|]. cbn [Nat.add]. auto.
Qed.
Definition neutral (t : text) : Prop := forall d, depth t d = Some d.
Lemma balanced_neutral t : balanced t -> neutral t.
Proof. intros H d. exact (depth_shift t 0 0 d H). Qed.
Lemma neutral_app a b : neutral a -> neutral b -> neutral (a ++ b).
Proof. intros A B d. rewrite depth_app, A. apply B. Qed.
Ltac neu := intros ?; reflexivity.
Lemma neutral_negated n : balanced n -> neutral (negated n).
Proof.
  intros H d. unfold balanced in H. rewrite <- (firstn_skipn (split_point n) n), depth_app in H. unfold negated.
  revert H. generalize (firstn (split_point n) n) (skipn (split_point n) n). intros X Y H.
  destruct (depth X 0) as [j|] eqn:J; [|discriminate]. rewrite depth_app. change (depth (txt "{\overline{") d) with (Some (S (S d))).
  cbv iota. rewrite depth_app. pose proof (depth_shift X 0 j (S (S d)) J) as J'. cbn [Nat.add] in J'. rewrite J', Nat.add_succ_r. cbv iota. rewrite depth_app.
  change (depth (txt "}") (S (j + S d))) with (Some (j + S d)%nat). cbv iota. rewrite depth_app, (depth_shift Y j 0 (S d) H). reflexivity.
Qed.
Lemma neutral_join sep ws : neutral sep -> Forall neutral ws -> neutral (join sep ws).
Proof.
  intros S. induction 1 as [|w ws A F IH]; [neu|]. destruct ws as [|v ws]; [exact A|].
  change (join sep (w :: v :: ws)) with (w ++ sep ++ join sep (v :: ws)). repeat apply neutral_app; auto.
Qed.
Lemma row_text_balanced names full land ended r cl : row_text names full land ended r cl -> Forall balanced names -> balanced r.
Proof.
  intros (b & B & ->) F. apply (neutral_app _ _); [|destruct ended; neu].
  apply neutral_app; [neu|]. apply neutral_app; [destruct land; neu|].
  destruct (body_ok _ _ _ _ B) as [(-> & ->)|(ws & W & ->)]; [neu|].
  assert (N : neutral (join (txt " \lor ") ws)).
  { apply neutral_join; [neu|]. clear B. induction W as [|l w cl ws E W IH]; constructor; auto.
    destruct (literal_ok _ _ _ E) as (I & ->). set (n := nth _ names []) in *. rewrite Forall_forall in F. pose proof (F n I) as Bn.
    destruct (0 <? l); [|exact (neutral_negated n Bn)].
    intros d. rewrite depth_app. change (depth (txt "           {") d) with (Some (S d)). cbv iota. rewrite depth_app, (balanced_neutral n Bn). reflexivity. }
  destruct full; [exact N|]. apply neutral_app; [neu|]. apply neutral_app; [exact N|neu].
Qed.
Lemma Forall2_same_length {A B} (R : A -> B -> Prop) l l' : Forall2 R l l' -> List.length l = List.length l'.
Proof. induction 1; cbn [List.length]; auto. Qed.

(* ---- reading whole pages ---- *)
Lemma rows_shown names full : Forall clear_name names -> forall R cls first, rows_text names full first R cls ->
  List.length R = List.length cls /\
  forall k l cl, nth_error R k = Some l -> nth_error cls k = Some cl ->
    read_row l = Some (mkRow (negb (full || (first && Nat.eqb k 0))) (negb full && match cl with [] => false | _ => true end) (uncompress_clause names cl)
                             (Nat.ltb (S k) (List.length R))).
Proof.
  intros F. induction R as [|r R IH]; intros [|cl cls] first H; cbn [rows_text] in H; try contradiction.
  - split; [reflexivity|]. intros [|k] l cl E; discriminate E.
  - destruct H as (H1 & H2). destruct (IH _ _ H2) as (L & G). split; [cbn [List.length]; congruence|].
    intros [|k] l c E E'; cbn [nth_error] in E, E'.
    + injection E as <-. injection E' as <-. rewrite (row_text_read _ _ _ _ _ _ H1 F). rewrite andb_true_r.
      f_equal. f_equal. destruct R; reflexivity.
    + rewrite (G k l c E E'). rewrite andb_false_r. cbn [andb Nat.eqb]. reflexivity.
Qed.
Lemma page_shown names full R cls : Forall clear_name names -> rows_text names full true R cls ->
  shows_clauses full R (map (uncompress_clause names) cls).
Proof.
  intros F H. destruct (rows_shown names full F _ _ _ H) as (L & G). split; [rewrite map_length; exact L|].
  intros k l cl E E'. rewrite nth_error_map in E'. destruct (nth_error cls k) as [c0|] eqn:C; [|discriminate E']. cbn [option_map] in E'.
  injection E' as <-. rewrite (G k l c0 E C). cbn [andb]. rewrite negb_orb. f_equal. f_equal. destruct c0; reflexivity.
Qed.
Lemma rows_length names full : forall R cls first, rows_text names full first R cls -> List.length R = List.length cls.
Proof.
  induction R as [|r R IH]; intros [|cl cls] first H; cbn [rows_text] in H; try contradiction; [reflexivity|].
  cbn [List.length]. f_equal. exact (IH _ _ (proj2 H)).
Qed.
Lemma rows_balanced names full : Forall balanced names -> forall R cls first, rows_text names full first R cls -> Forall balanced R.
Proof.
  intros B. induction R as [|r R IH]; intros [|cl cls] first H; cbn [rows_text] in H; try contradiction; constructor.
  - exact (row_text_balanced _ _ _ _ _ _ (proj1 H) B).
  - exact (IH _ _ (proj2 H)).
Qed.
Lemma pages_length names full Ps Cs : Forall2 (rows_text names full true) Ps Cs -> List.length (concat Ps) = List.length (concat Cs).
Proof. induction 1 as [|P C Ps Cs H _ IH]; [reflexivity|]. cbn [concat]. rewrite !app_length, IH, (rows_length _ _ _ _ _ H). reflexivity. Qed.
(* across the two forms of the text *)
Lemma shown_any d d' R a b : shows_clauses d R a -> shows_clauses d' R b -> a = b.
Proof.
  intros (L1 & G1) (L2 & G2). unfold text in *. apply nth_ext with (d := []) (d' := []); [congruence|].
  intros k K. destruct (nth_error a k) as [x|] eqn:X; [|apply nth_error_None in X; lia]. destruct (nth_error b k) as [y|] eqn:Y; [|apply nth_error_None in Y; lia].
  destruct (nth_error R k) as [l|] eqn:Z; [|apply nth_error_None in Z; lia].
  pose proof (G1 k l x Z X) as A. pose proof (G2 k l y Z Y) as B. rewrite A in B. apply (f_equal (option_map r_clause)) in B. cbn [option_map r_clause] in B.
  rewrite (nth_error_nth _ _ _ X), (nth_error_nth _ _ _ Y). congruence.
Qed.
Lemma shown_pages d d' Ps A B : Forall2 (shows_clauses d) Ps A -> Forall2 (shows_clauses d') Ps B -> A = B.
Proof.
  intros H. revert B. induction H as [|P a Ps A H _ IH]; intros B K; inversion K; subst; [reflexivity|]. f_equal; [eapply shown_any; eassumption|auto].
Qed.

(* ---- the lines of the text without the document ---- *)
Lemma clauses_lines names : Forall (lacks newline) names -> forall cls i t p rest,
  latex_clauses names false i cls = Ok t -> 0 <= i -> lacks newline p ->
  exists R, split_on newline (p ++ t ++ newline :: rest) = (p ++ (match R with [] => [] | _ => if i =? 0 then [] else txt " \\" end)) :: R ++ split_on newline rest /\
    rows_text names false (i =? 0) R cls.
Proof.
  intros F. induction cls as [|cl cls IH]; intros i t p rest H Hi Hp; cbn [latex_clauses] in H.
  - apply Ok_inj in H. subst t. exists []. cbn [app]. rewrite app_nil_r. split; [apply split_on_app; exact Hp|exact I].
  - apply bind_ok in H as (row & E & H). apply bind_ok in H as (t' & E' & H). apply Ok_inj in H. subst t. rewrite andb_false_r in E.
    unfold latex_clause in E. apply bind_ok in E as (b & B & X). apply Ok_inj in X. subst row. cbn [orb].
    set (lead := if i =? 0 then txt "       " else txt " \land ").
    assert (Hd : lead = txt "       " \/ lead = txt " \land ") by (unfold lead; destruct (i =? 0); auto).
    set (s0 := if i =? 0 then ([] : text) else txt " \\").
    assert (Hs0 : s0 = [] \/ s0 = txt " \\") by (unfold s0; destruct (i =? 0); auto).
    set (line := txt "&" ++ lead ++ b).
    assert (Hl : lacks newline line).
    { apply lacks_app; [lit|]. apply lacks_app; [destruct Hd as [-> | ->]; lit|]. exact (body_line _ _ _ _ B F). }
    destruct (IH (i + 1) t' line rest E' ltac:(lia) Hl) as (R & SL & Sh).
    replace (i + 1 =? 0) with false in * by (symmetry; apply Z.eqb_neq; lia).
    exists ((line ++ match R with [] => [] | _ => txt " \\" end) :: R). split.
    + match goal with |- split_on newline ?X = _ =>
        replace X with ((p ++ s0) ++ newline :: (line ++ t' ++ newline :: rest))
          by (unfold line, s0, lead; rewrite <- ?app_assoc; reflexivity) end.
      rewrite split_on_app by (apply lacks_app; [exact Hp | destruct Hs0 as [-> | ->]; lit]). rewrite SL. reflexivity.
    + cbn [rows_text]. split; [|exact Sh]. exists b. split; [exact B|]. unfold line, lead. destruct (i =? 0), R; reflexivity.
Qed.
Lemma latex_lines x h c t : latex false h x false c = Ok t -> Forall (lacks newline) (cn_names c) ->
  exists R, split_on newline t = txt "\begin{align}" :: (match cn_clauses c with [] => [txt "   \top"] | _ => R end) ++ [txt "\end{align}"] /\
    rows_text (cn_names c) false true R (cn_clauses c).
Proof.
  intros H F. unfold latex in H. apply bind_ok in H as (rows & E & H). apply Ok_inj in H. subst t. cbn [app]. rewrite app_nil_r.
  destruct (cn_clauses c) as [|cl cls] eqn:C.
  - apply Ok_inj in E. subst rows. exists []. split; [reflexivity|exact I].
  - destruct (clauses_lines _ F _ _ _ (txt "\begin{align}") (txt "\end{align}") E ltac:(lia) ltac:(lit)) as (R & SL & Sh).
    exists R. split; [|exact Sh].
    match goal with |- split_on newline ?X = _ => change X with (txt "\begin{align}" ++ rows ++ newline :: txt "\end{align}") end.
    rewrite SL. f_equal. destruct R; [rewrite app_nil_r|cbn [Z.eqb]; rewrite app_nil_r]; reflexivity.
Qed.

Lemma escape_typeset t : typeset t (escape_underscores t).
Proof.
  induction t as [|c t IH]; [constructor|]. unfold escape_underscores. cbn [flat_map]. fold (escape_underscores t).
  destruct (Ascii.eqb_spec c underscore) as [->|N]; cbn [app]; constructor; auto.
Qed.
Lemma lstrip_split (p : ascii -> bool) t : exists b, t = b ++ lstrip p t /\ Forall (fun c => p c = true) b /\
  match lstrip p t with [] => True | c :: _ => p c = false end.
Proof.
  induction t as [|c t (b & E & F & L)]; [exists []; repeat split; constructor|]. cbn [lstrip]. destruct (p c) eqn:P.
  - exists (c :: b). cbn [app]. rewrite E at 1. repeat split; auto.
  - exists []. repeat split; [constructor|exact P].
Qed.
Lemma rstrip_comment l : latex_comment l (rstrip (txt "% " ++ l)).
Proof.
  unfold latex_comment, rstrip. destruct (lstrip_split is_uspace (rev (txt "% " ++ l))) as (b & E & F & L).
  exists (rev b). split; [|split].
  - apply (f_equal (@rev ascii)) in E. rewrite rev_involutive, rev_app_distr in E. exact E.
  - apply Forall_rev. exact F.
  - destruct (lstrip is_uspace (rev (txt "% " ++ l))) as [|c r]; [reflexivity|]. cbn [rev]. rewrite last_last. exact L.
Qed.
