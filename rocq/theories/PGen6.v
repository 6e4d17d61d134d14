(* PGen6.v -- the text the generator prints is a DIMACS file for its formula. *)
From Coq Require Import String Ascii ZArith NArith List Bool Lia Arith.
From Verif Require Import Spec SpecInput PyBase MText MGen SpecGen SpecRun PText PReader PGen1 PGen4 PGen5.
Import ListNotations.
Open Scope Z_scope.

Lemma show_literal l : show_bit (literal l) = str_Z l.
Proof.
  unfold literal, show_bit. destruct (Z.ltb_spec l 0); auto. unfold str_Z. rewrite (proj2 (Z.ltb_lt l 0)) by lia.
  rewrite (proj2 (Z.ltb_ge (- l) 0)) by lia. reflexivity.
Qed.
Lemma show_clause_ints c : show_clause (map literal c) = join (txt " ") (map str_Z c) ++ txt " 0".
Proof. unfold show_clause. rewrite map_map. do 2 f_equal. apply map_ext. apply show_literal. Qed.
Lemma show_clause_spaced c : c <> [] -> spaced (c ++ [0]) (show_clause (map literal c)).
Proof.
  intros Hc. rewrite show_clause_ints. assert (Z0 : numeral 0 (txt "0")) by (apply (str_Z_numeral 0)).
  induction c as [|x c IH]; [congruence|]. destruct c as [|y c].
  - cbn [map join app]. change (str_Z x ++ txt " 0") with ([] ++ str_Z x ++ " "%char :: txt "0").
    apply spaced_cons; [constructor|apply str_Z_numeral|]. apply (spaced_last [] 0); auto.
  - change (join (txt " ") (map str_Z (x :: y :: c))) with (str_Z x ++ txt " " ++ join (txt " ") (map str_Z (y :: c))).
    rewrite <- !app_assoc. change (str_Z x ++ txt " " ++ join (txt " ") (map str_Z (y :: c)) ++ txt " 0")
      with ([] ++ str_Z x ++ " "%char :: (join (txt " ") (map str_Z (y :: c)) ++ txt " 0")).
    apply spaced_cons; [constructor|apply str_Z_numeral|]. apply IH. discriminate.
Qed.
Lemma join_separated ls : join (txt "
") ls = file_of ls.
Proof.
  unfold file_of. induction ls as [|l ls IH]; auto. destruct ls as [|l' ls]; auto.
  change (l ++ txt "
" ++ join (txt "
") (l' :: ls) = l ++ nl :: separated nl (l' :: ls)). rewrite IH. reflexivity.
Qed.
Lemma one_line_app a b : one_line a -> one_line b -> one_line (a ++ b).
Proof. unfold one_line. intros H1 H2 H. apply in_app_iff in H as [H|H]; auto. Qed.
Lemma one_line_str z : one_line (str_Z z).
Proof. apply (str_Z_lacks nl z). left. reflexivity. Qed.
Lemma one_line_txt s : existsb (Ascii.eqb nl) (txt s) = false -> one_line (txt s).
Proof.
  intros H Hi. assert (X : existsb (Ascii.eqb nl) (txt s) = true); [|congruence].
  apply existsb_exists. exists nl. split; [exact Hi|reflexivity].
Qed.
Lemma one_line_bit b : one_line (show_bit b).
Proof.
  destruct b as [[|]|v|v]; cbn [show_bit]; try (apply one_line_txt; reflexivity); [apply one_line_str|].
  apply one_line_app; [apply one_line_txt; reflexivity|apply one_line_str].
Qed.
Lemma one_line_join s ps : one_line (txt s) -> Forall one_line ps -> one_line (join (txt s) ps).
Proof.
  intros Hs H. induction H as [|p ps Hp H IH]; [intros []|]. destruct ps as [|p' ps]; auto.
  change (one_line (p ++ txt s ++ join (txt s) (p' :: ps))). auto using one_line_app.
Qed.
Lemma one_line_bits bs : Forall one_line (map show_bit bs).
Proof. apply Forall_forall. intros t H. apply in_map_iff in H as (b & <- & _). apply one_line_bit. Qed.
Lemma one_line_show bs : one_line (show_bits bs).
Proof.
  unfold show_bits. repeat apply one_line_app; try (apply one_line_txt; reflexivity).
  apply one_line_join; [apply one_line_txt; reflexivity|apply one_line_bits].
Qed.
Lemma one_line_clause c : one_line (show_clause c).
Proof.
  apply one_line_app; [|apply one_line_txt; reflexivity].
  apply one_line_join; [apply one_line_txt; reflexivity|apply one_line_bits].
Qed.
(* header lines *)
Definition gen_header (a : adder_arg) (m : multiplier_arg) (n : Z) (g : generated) : list text :=
  firstn 8 (tl (gen_lines a m n g)).
Definition p_line (vars clauses : Z) : text := txt "p cnf " ++ str_Z vars ++ txt " " ++ str_Z clauses.
Lemma gen_lines_split a m n g : gen_lines a m n g =
  hd [] (gen_lines a m n g) :: gen_header a m n g ++ [p_line (g_last g) (Z.of_nat (length (g_cnf g)))] ++ map show_clause (g_cnf g).
Proof. reflexivity. Qed.
Lemma header_comments a m n g : Forall comment_line (hd [] (gen_lines a m n g) :: gen_header a m n g).
Proof. repeat apply Forall_cons; try apply Forall_nil; (eexists [], _; split; [reflexivity|constructor]). Qed.
Lemma gen_lines_one_line a m n g : Forall one_line (gen_lines a m n g).
Proof.
  unfold gen_lines. apply Forall_app. split.
  - repeat apply Forall_cons; try apply Forall_nil;
      repeat match goal with |- one_line (_ ++ _) => apply one_line_app end;
      try apply one_line_show; try apply one_line_str;
      try (destruct m; apply one_line_txt; reflexivity); destruct a; apply one_line_txt; reflexivity.
  - apply Forall_forall. intros t H. apply in_map_iff in H as (c & <- & _). apply one_line_clause.
Qed.
Lemma word_str z : word (str_Z z).
Proof.
  split; [apply str_Z_ne|]. intros c Hc. pose proof (str_Z_lacks c z) as L. unfold lacks in L.
  destruct (Nat.lt_ge_cases 32 (nat_of_ascii c)) as [|Hl]; auto. exfalso. apply L; auto. left.
  unfold code. unfold nat_of_ascii in Hl. lia.
Qed.
Lemma word_txt s : txt s <> [] -> forallb (fun c => Nat.ltb 32 (nat_of_ascii c)) (txt s) = true -> word (txt s).
Proof. intros H1 H2. split; auto. intros c Hc. rewrite forallb_forall in H2. apply Nat.ltb_lt. auto. Qed.
Lemma p_line_problem v c : problem_line (p_line v c).
Proof.
  exists [], [], (txt " "), (txt "cnf"), (txt " "), (str_Z v), (txt " "), (str_Z c), [].
  assert (B : blanks (txt " ")) by (constructor; [left; reflexivity|constructor]).
  assert (G : gap (txt " ")) by (split; [discriminate|auto]).
  assert (W1 : word ("p"%char :: [])). { split; [discriminate|]. intros x [<-|[]]. cbv; lia. }
  assert (W2 : word (txt "cnf")). { apply word_txt; [discriminate|reflexivity]. }
  rewrite app_nil_r. repeat (split; [first [assumption|apply word_str|reflexivity|constructor]|]). exact G.
Qed.
Lemma body_comments toks hs ls : Forall comment_line hs -> dimacs_body toks ls -> dimacs_body toks (hs ++ ls).
Proof. induction 1; intros; cbn [app]; auto. apply body_comment; auto. Qed.
Lemma body_clauses F : (forall c, In c F -> c <> []) ->
  dimacs_body (terminated F) (map show_clause (map (map literal) F)).
Proof.
  induction F as [|c F IH]; intros H; [constructor|]. cbn [map]. change (terminated (c :: F)) with ((c ++ [0]) ++ terminated F).
  apply body_ints.
  - intros E. destruct c; discriminate.
  - apply show_clause_spaced. apply H. left; auto.
  - apply IH. intros; apply H; right; auto.
Qed.
Lemma text_represents a m n g F : g_cnf g = map (map literal) F ->
  (forall c, In c F -> c <> [] /\ ~ In 0 c /\ (length c <= 3)%nat) ->
  represents (InDimacs (join (txt "
") (gen_lines a m n g ++ [[]]))) F.
Proof.
  intros E H. rewrite join_separated.
  pose proof (rep_dimacs (hd [] (gen_lines a m n g))
    (gen_header a m n g ++ [p_line (g_last g) (Z.of_nat (length (g_cnf g)))] ++ map show_clause (g_cnf g)) [[]] F []) as R.
  cbv match in R. rewrite !app_nil_r in R. rewrite gen_lines_split.
  assert (L : Forall one_line (gen_lines a m n g)) by apply gen_lines_one_line. rewrite gen_lines_split in L.
  apply R; auto.
  - apply Forall_cons_iff in L as [L1 L2]. apply Forall_cons; auto. apply Forall_app. split; auto.
    apply Forall_cons; [intros []|constructor].
  - right. exists [], []. split; auto. constructor.
  - left. cbn. lia.
  - apply body_comments.
    + pose proof (header_comments a m n g) as K. apply Forall_cons_iff in K as [_ K]. exact K.
    + cbn [app]. apply body_problem; [apply p_line_problem|]. rewrite E. apply body_clauses. intros c Hc. apply H; auto.
Qed.
