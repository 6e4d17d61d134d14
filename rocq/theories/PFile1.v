(* PFile1.v -- reading DIMACS formulas *)
From Coq Require Import String Ascii ZArith NArith List Bool Lia Arith.
From Verif Require Import Spec SpecInput SpecFile PyBase MSet MText MCnf MFam MFam2 MTrans MFile SpecCnf PText PReader PLib PCnf1 PCnf2 PCnf3 PFam1.
Import ListNotations.
Open Scope Z_scope.

(* ---- lines ---- *)
Lemma readlines_cons l t : one_line l -> readlines (l ++ nl :: t) = (l ++ [nl]) :: readlines t.
Proof.
  induction l as [|x l IH]; intros H; cbn [app readlines]; [reflexivity|].
  destruct (Ascii.eqb_spec x newline) as [->|N]; [exfalso; apply H; left; reflexivity|].
  rewrite IH; [reflexivity|]. intros K. apply H. right. auto.
Qed.
Lemma readlines_last l : one_line l -> l <> [] -> readlines l = [l].
Proof.
  induction l as [|x l IH]; intros H N; [congruence|]. cbn [readlines].
  destruct (Ascii.eqb_spec x newline) as [->|_]; [exfalso; apply H; left; reflexivity|].
  destruct l as [|y l]; [reflexivity|]. rewrite IH; [reflexivity| |discriminate]. intros K. apply H. right. auto.
Qed.
Lemma readlines_ended ls t : Forall one_line ls -> readlines (ended ls ++ t) = map (fun l => l ++ [nl]) ls ++ readlines t.
Proof.
  induction 1 as [|l ls H _ IH]; [reflexivity|]. unfold ended in *. cbn [map concat]. rewrite <- !app_assoc. cbn [app].
  rewrite readlines_cons by auto. rewrite IH. reflexivity.
Qed.
Lemma read_lines_app ls ls' : forall s, read_lines (ls ++ ls') s = (s' <- read_lines ls s ;; read_lines ls' s').
Proof. induction ls as [|l ls IH]; intros s; cbn [app read_lines]; [reflexivity|]. destruct (read_line s l); cbn [bind]; auto. Qed.

(* ---- words ---- *)
Lemma numeral_word z n : numeral z n -> word n.
Proof.
  intros H. apply numeral_chars in H as [H1 H2]. split; auto. intros c Hc. rewrite Forall_forall in H2. specialize (H2 c Hc).
  unfold signchar in H2. apply orb_true_iff in H2 as [H2|H2].
  - apply numchar_bound in H2. unfold nat_of_ascii, code in *. lia.
  - apply Ascii.eqb_eq in H2. subst c. cbv. lia.
Qed.
Lemma numeral_int z n : numeral z n -> py_int n = Some z.
Proof. intros H. pose proof (py_int_numeral z n [] [] H) as E. rewrite app_nil_r in E. apply E; constructor. Qed.
Lemma split_ws_word_sp w b t : word w -> is_uspace b = true -> split_ws_acc [] (w ++ b :: t) = w :: split_ws_acc [] t.
Proof.
  intros Hw Hb. rewrite split_ws_word by (apply word_nouspace; auto). rewrite app_nil_r. cbn [split_ws_acc]. rewrite Hb.
  destruct (rev w) as [|y r] eqn:E.
  - destruct Hw as [Hw _]. apply (f_equal (@rev _)) in E. rewrite rev_involutive in E. simpl in E. congruence.
  - rewrite <- E, rev_involutive. auto.
Qed.
Definition spaces (t : text) : Prop := Forall (fun c => is_uspace c = true) t.
Lemma split_ws_spaces t : spaces t -> split_ws t = [].
Proof. intros H. unfold split_ws. rewrite <- (app_nil_r t), split_ws_gap by auto. reflexivity. Qed.
Lemma blank_usp b : is_blank b -> is_uspace b = true.
Proof. intros [-> | ->]; reflexivity. Qed.
Lemma numbers_words ts l tail : numbers ts l -> spaces tail -> integers (split_ws (l ++ tail)) = Ok ts.
Proof.
  intros H Ht. assert (E : mapO py_int (split_ws (l ++ tail)) = Some ts); [|unfold integers; rewrite E; reflexivity].
  unfold split_ws. induction H as [t H|pre z n H1 H2|pre z n zs b u H1 H2 Hb H3 IH].
  - rewrite split_ws_gap by (apply blank_uspace; auto). rewrite <- (app_nil_r tail), split_ws_gap by auto. reflexivity.
  - rewrite <- app_assoc, split_ws_gap by (apply blank_uspace; auto). pose proof (numeral_word _ _ H2) as Hw.
    destruct tail as [|x tail].
    + rewrite app_nil_r, split_ws_last by auto. cbn [mapO]. rewrite (numeral_int _ _ H2). reflexivity.
    + inversion Ht; subst. rewrite split_ws_word_sp by auto. fold (split_ws tail). rewrite split_ws_spaces by auto. cbn [mapO]. rewrite (numeral_int _ _ H2). reflexivity.
  - rewrite <- !app_assoc, split_ws_gap by (apply blank_uspace; auto). cbn [app].
    rewrite split_ws_word_sp by (eauto using numeral_word, blank_usp). cbn [mapO]. rewrite (numeral_int _ _ H2), IH. reflexivity.
Qed.
Lemma numbers_chars ts l : numbers ts l -> forall c, In c l -> is_blank c \/ signchar c = true.
Proof.
  induction 1 as [t H|pre z n H1 H2|pre z n zs b u H1 H2 Hb H3 IH]; intros c Hc.
  - left. unfold blanks in H. rewrite Forall_forall in H. auto.
  - apply numeral_chars in H2 as [_ H2]. unfold blanks in H1. rewrite Forall_forall in *. apply in_app_iff in Hc as [Hc|Hc]; auto.
  - apply numeral_chars in H2 as [_ H2]. unfold blanks in H1. rewrite Forall_forall in *. apply in_app_iff in Hc as [Hc|Hc]; auto.
    apply in_app_iff in Hc as [Hc|[<-|Hc]]; auto.
Qed.
Lemma numbers_first ts l tail : numbers ts l -> exists x u, l ++ nl :: tail = x :: u /\ Ascii.eqb x "c" = false /\ Ascii.eqb x "p" = false.
Proof.
  intros H. destruct l as [|x l]; [exists nl, tail; auto|]. exists x, (l ++ nl :: tail). split; auto.
  destruct (numbers_chars _ _ H x) as [[-> | ->]|K]; [left; auto|auto|auto|].
  split; [destruct (Ascii.eqb_spec x "c") as [->|]|destruct (Ascii.eqb_spec x "p") as [->|]]; auto; discriminate K.
Qed.

(* ---- one line ---- *)
Lemma read_remark s l t : remark l t -> read_line s (l ++ [nl]) = Ok (mkParsed (p_header s ++ t ++ [nl]) (p_n s) (p_m s) (p_clauses s) (p_buffer s)).
Proof.
  intros [u|u H].
  - destruct u; reflexivity.
  - cbn [app read_line]. change (Ascii.eqb "c" "c") with true. cbv iota. destruct u as [|x u]; [reflexivity|]. cbn [app].
    destruct (Ascii.eqb_spec x " ") as [->|_]; [cbn in H; congruence|]. reflexivity.
Qed.
Lemma spec_words n m l : spec_line n m l -> exists w fmt wn wm, split_ws (l ++ [nl]) = ["p"%char :: w; fmt; wn; wm] /\ py_int wn = Some n /\ py_int wm = Some m.
Proof.
  intros (w & s1 & fmt & s2 & wn & s3 & wm & post & -> & H1 & H2 & H3 & H4 & G1 & G2 & G3 & B).
  exists w, fmt, wn, wm. split; [|split; eapply numeral_int; eauto].
  unfold split_ws. rewrite <- !app_assoc. rewrite (split_ws_word_gap ("p"%char :: w)) by auto. rewrite (split_ws_word_gap fmt) by auto.
  rewrite (split_ws_word_gap wn) by (eauto using numeral_word). apply numeral_word in H4. apply blank_uspace in B.
  assert (S : spaces (post ++ [nl])) by (apply Forall_app; split; auto).
  destruct (post ++ [nl]) as [|x u] eqn:E; [destruct post; discriminate|]. inversion S; subst.
  rewrite split_ws_word_sp by auto. fold (split_ws u). rewrite split_ws_spaces by auto. reflexivity.
Qed.
Lemma spec_first n m l : spec_line n m l -> exists t, l = "p"%char :: t.
Proof. intros (w & s1 & fmt & s2 & wn & s3 & wm & post & -> & _). eexists. reflexivity. Qed.
Lemma read_spec s n m l : spec_line n m l -> p_n s < 0 -> read_line s (l ++ [nl]) = Ok (mkParsed (p_header s) n m (p_clauses s) (p_buffer s)).
Proof.
  intros H N. destruct (spec_words _ _ _ H) as (w & fmt & wn & wm & E & E1 & E2). destruct (spec_first _ _ _ H) as (t & ->).
  cbn [app read_line] in *. change (Ascii.eqb "p" "c") with false. change (Ascii.eqb "p" "p") with true. cbv iota.
  destruct (Z.leb_spec 0 (p_n s)); [lia|]. rewrite E, E1. cbn [of_option bind]. rewrite E2. reflexivity.
Qed.
Lemma read_second s t : 0 <= p_n s -> read_line s ("p"%char :: t) = Err ValueError.
Proof.
  intros N. cbn [read_line]. change (Ascii.eqb "p" "c") with false. change (Ascii.eqb "p" "p") with true. cbv iota.
  destruct (Z.leb_spec 0 (p_n s)); [reflexivity|lia].
Qed.
Lemma read_numbers s ts l : numbers ts l -> read_line s (l ++ [nl]) =
  Ok (mkParsed (p_header s) (p_n s) (p_m s) (fst (read_literals ts (p_clauses s) (p_buffer s))) (snd (read_literals ts (p_clauses s) (p_buffer s)))).
Proof.
  intros H. pose proof (numbers_words ts l [nl] H) as E. destruct (numbers_first ts l [] H) as (x & u & E1 & E2 & E3).
  rewrite E1 in *. cbn [read_line]. rewrite E2, E3, E by (constructor; [reflexivity|constructor]). cbn [bind].
  destruct (read_literals ts (p_clauses s) (p_buffer s)); reflexivity.
Qed.
Lemma read_literals_app ts us : forall cls buf, read_literals (ts ++ us) cls buf =
  read_literals us (fst (read_literals ts cls buf)) (snd (read_literals ts cls buf)).
Proof. induction ts as [|z ts IH]; intros cls buf; cbn [app read_literals]; [reflexivity|]. destruct (z =? 0); auto. Qed.
(* ---- all lines ---- *)
Lemma read_formula ls h sp toks : formula_file ls h sp toks -> forall s, (sp <> None -> p_n s < 0) ->
  read_lines (map (fun l => l ++ [nl]) ls) s =
  Ok (mkParsed (p_header s ++ h) (match sp with Some (n, _) => n | None => p_n s end) (match sp with Some (_, m) => m | None => p_m s end)
        (fst (read_literals toks (p_clauses s) (p_buffer s))) (snd (read_literals toks (p_clauses s) (p_buffer s)))).
Proof.
  induction 1 as [|l t ls h sp toks Hl H IH|l n m ls h toks Hl Hn H IH|l ts ls h sp toks Hl H IH]; intros s Hs.
  - cbn [map read_lines read_literals fst snd]. rewrite app_nil_r. destruct s; reflexivity.
  - cbn [map read_lines]. rewrite (read_remark _ _ _ Hl). cbn [bind]. rewrite IH by (intros K; cbn [p_n]; auto). cbn [p_header p_n p_m p_clauses p_buffer].
    rewrite <- !app_assoc. reflexivity.
  - cbn [map read_lines]. rewrite (read_spec _ _ _ _ Hl) by (apply Hs; discriminate). cbn [bind]. rewrite IH by congruence. reflexivity.
  - cbn [map read_lines]. rewrite (read_numbers _ _ _ Hl). cbn [bind]. rewrite IH by (cbn [p_n]; auto). cbn [p_header p_n p_m p_clauses p_buffer].
    rewrite read_literals_app. reflexivity.
Qed.
Lemma read_terminated F : (forall cl, In cl F -> ~ In 0 cl) -> forall rest cls, ~ In 0 rest ->
  read_literals (terminated F ++ rest) cls [] = (cls ++ F, rest).
Proof.
  assert (B : forall cl, ~ In 0 cl -> forall u cls buf, read_literals (cl ++ u) cls buf = read_literals u cls (buf ++ cl)).
  { induction cl as [|z cl IH]; intros N u cls buf; cbn [app read_literals]; [rewrite app_nil_r; auto|].
    destruct (Z.eqb_spec z 0) as [->|_]; [exfalso; apply N; left; auto|]. rewrite IH by (intros K; apply N; right; auto). rewrite <- app_assoc. reflexivity. }
  induction F as [|c F IH]; intros N rest cls R.
  - cbn. rewrite <- (app_nil_r rest) at 1. rewrite B by auto. cbn [read_literals]. rewrite app_nil_r. reflexivity.
  - change (terminated (c :: F)) with ((c ++ [0]) ++ terminated F). rewrite <- !app_assoc. rewrite B by (apply N; left; auto).
    cbn [app read_literals Z.eqb]. rewrite IH; auto; [|intros; apply N; right; auto]. rewrite <- app_assoc. reflexivity.
Qed.
Definition fresh : parsed := mkParsed [] (-1) (-1) [] [].
Lemma read_good ls h sp F rest : Forall one_line ls -> formula_file ls h sp (terminated F ++ rest) -> (forall cl, In cl F -> ~ In 0 cl) -> ~ In 0 rest ->
  dimacs2compressed_clauses (ended ls) =
  match rest with
  | [] => match sp with Some (n, m) => if m =? Z.of_nat (List.length F) then Ok (h, n, F) else Err ValueError | None => Err ValueError end
  | _ => Err ValueError
  end.
Proof.
  intros O H N R. unfold dimacs2compressed_clauses. rewrite <- (app_nil_r (ended ls)), readlines_ended by auto. cbn [readlines]. rewrite app_nil_r.
  rewrite (read_formula _ _ _ _ H) by reflexivity. cbn [bind p_header p_n p_m p_clauses p_buffer app]. rewrite (read_terminated F N rest []) by auto. cbn [fst snd app].
  destruct rest; [|reflexivity]. destruct sp as [[n m]|]; [reflexivity|]. destruct (Z.eqb_spec (-1) (Z.of_nat (List.length F))); [lia|reflexivity].
Qed.
Lemma readlines_first x t : x <> nl -> exists l ls, readlines (x :: t) = (x :: l) :: ls.
Proof.
  intros H. cbn [readlines]. destruct (Ascii.eqb_spec x newline) as [->|_]; [exfalso; apply H; reflexivity|].
  destruct (readlines t) as [|l ls]; eauto.
Qed.
Lemma read_twice ls h n m toks t : Forall one_line ls -> formula_file ls h (Some (n, m)) toks -> 0 <= n ->
  dimacs2compressed_clauses (ended ls ++ "p"%char :: t) = Err ValueError.
Proof.
  intros O H Hn. unfold dimacs2compressed_clauses. rewrite readlines_ended by auto. destruct (readlines_first "p" t) as (l & r & ->); [discriminate|].
  rewrite read_lines_app, (read_formula _ _ _ _ H) by reflexivity. cbn [bind read_lines]. rewrite read_second by exact Hn. reflexivity.
Qed.
Lemma formula_spec_nonneg ls h n m toks : formula_file ls h (Some (n, m)) toks -> 0 <= n.
Proof. intros H. remember (Some (n, m)) as sp. induction H; try congruence; auto. Qed.
(* a word that is no integer *)
Lemma malformed_word f : malformed f -> py_int f = None.
Proof.
  intros H. destruct (py_int f) as [z|] eqn:E; auto. exfalso. apply py_int_chars in E as [A (c & B1 & B2)]. destruct H as [H|(x & H1 & H2 & H3 & H4)].
  - apply (H c B1). apply is_digit_spec; auto.
  - destruct (A x H1) as [D|[D|D]].
    + apply H2, is_digit_spec; auto.
    + apply H3. simpl in *. tauto.
    + apply H4, is_space_code; auto.
Qed.
Lemma split_ws_tail t u : (u = [] \/ exists b v, u = b :: v /\ is_uspace b = true) -> forall cur,
  split_ws_acc cur (t ++ u) = split_ws_acc cur t ++ split_ws_acc [] u.
Proof.
  intros H. induction t as [|x t IH]; intros cur; cbn [app split_ws_acc].
  - destruct H as [->|(b & v & -> & Hb)]; [cbn; rewrite app_nil_r; reflexivity|]. cbn [split_ws_acc]. rewrite Hb. destruct cur; reflexivity.
  - destruct (is_uspace x); [destruct cur; rewrite IH; reflexivity|apply IH].
Qed.
Lemma split_ws_pre t b u : is_uspace b = true -> split_ws ((t ++ [b]) ++ u) = split_ws t ++ split_ws u.
Proof.
  intros H. rewrite <- app_assoc. cbn [app]. unfold split_ws. rewrite split_ws_tail by (right; eauto). cbn [split_ws_acc]. rewrite H. reflexivity.
Qed.
Lemma mapO_bad {A B} (f : A -> option B) l x : In x l -> f x = None -> mapO f l = None.
Proof. induction l as [|y l IH]; intros [].
  - subst. intros E. cbn [mapO]. rewrite E. reflexivity.
  - intros E. cbn [mapO]. destruct (f y); [rewrite IH by auto|]; reflexivity.
Qed.
Lemma bad_word pre f post : word f -> malformed f -> (pre = [] \/ exists p b, pre = p ++ [b] /\ is_uspace b = true) ->
  (post = [] \/ exists b p, post = b :: p /\ is_uspace b = true) -> integers (split_ws (pre ++ f ++ post)) = Err ValueError.
Proof.
  intros Hw Hm Hp Hq. unfold integers. rewrite (mapO_bad _ _ f); [reflexivity| |apply malformed_word; auto].
  assert (K : In f (split_ws (f ++ post))).
  { unfold split_ws. rewrite split_ws_tail by auto. apply in_app_iff. left. rewrite split_ws_last by auto. left; auto. }
  destruct Hp as [->|(p & b & -> & Hb)]; auto. rewrite split_ws_pre by auto. apply in_app_iff. auto.
Qed.
Lemma split_ws_nl l : split_ws (l ++ [nl]) = split_ws l.
Proof. unfold split_ws. rewrite split_ws_tail by (right; eauto). cbn [split_ws_acc]. cbn. apply app_nil_r. Qed.
Lemma read_malformed ls h sp toks pre f post t : Forall one_line ls -> formula_file ls h sp toks -> one_line (pre ++ f ++ post) -> word f -> malformed f ->
  (pre = [] \/ exists p b, pre = p ++ [b] /\ is_blank b) -> (post = [] \/ exists b p, post = b :: p /\ is_blank b) ->
  hd_error (pre ++ f ++ post) <> Some "c"%char -> hd_error (pre ++ f ++ post) <> Some "p"%char -> 
  dimacs2compressed_clauses (ended (ls ++ [pre ++ f ++ post]) ++ t) = Err ValueError.
Proof.
  intros O H O2 Hw Hm Hp Hq Hc Hpp. unfold dimacs2compressed_clauses. unfold ended. rewrite map_app, concat_app. cbn [map concat]. rewrite <- !app_assoc, app_nil_l.
  fold (ended ls). rewrite readlines_ended by auto. rewrite !(app_assoc pre), !(app_assoc (pre ++ f)). cbn [app]. rewrite readlines_cons by (rewrite <- app_assoc; auto).
  rewrite read_lines_app, (read_formula _ _ _ _ H) by reflexivity. cbn [bind read_lines]. rewrite <- !app_assoc.
  assert (E : integers (split_ws (pre ++ f ++ post ++ [nl])) = Err ValueError).
  { rewrite (app_assoc f), (app_assoc pre), split_ws_nl. apply bad_word; auto.
    - destruct Hp as [->|(p & b & -> & Hb)]; auto. right. exists p, b. split; auto using blank_usp.
    - destruct Hq as [->|(b & p & -> & Hb)]; auto. right. exists b, p. split; auto using blank_usp. }
  destruct (pre ++ f ++ post) as [|x l] eqn:El; [destruct pre; [destruct f; [destruct Hw; congruence|]|]; discriminate|].
  replace (pre ++ f ++ post ++ [nl]) with (x :: l ++ [nl]) in * by (rewrite app_comm_cons, <- El, <- !app_assoc; reflexivity).
  cbn [read_line]. cbn [hd_error] in Hc, Hpp. destruct (Ascii.eqb_spec x "c"); [congruence|]. destruct (Ascii.eqb_spec x "p"); [congruence|]. rewrite E. reflexivity.
Qed.
(* the last line may lack its newline, unless it is a comment *)
Lemma read_unended s l : l <> [] -> hd_error l <> Some "c"%char -> read_line s (l ++ [nl]) = read_line s l.
Proof.
  intros N H. destruct l as [|x l]; [congruence|]. cbn [app read_line]. cbn [hd_error] in H. destruct (Ascii.eqb_spec x "c"); [congruence|].
  change (x :: l ++ [nl]) with ((x :: l) ++ [nl]). rewrite split_ws_nl. reflexivity.
Qed.
Lemma read_last ls l : Forall one_line ls -> one_line l -> l <> [] -> hd_error l <> Some "c"%char ->
  dimacs2compressed_clauses (ended ls ++ l) = dimacs2compressed_clauses (ended (ls ++ [l])).
Proof.
  intros O O2 N H. unfold dimacs2compressed_clauses. rewrite readlines_ended, readlines_last by auto.
  rewrite <- (app_nil_r (ended (ls ++ [l]))), readlines_ended by (apply Forall_app; auto). cbn [readlines]. rewrite app_nil_r, map_app. cbn [map].
  rewrite !read_lines_app. f_equal. destruct (read_lines _ _) as [s| |]; auto. cbn [bind read_lines]. rewrite read_unended by auto. reflexivity.
Qed.
Lemma read_bare ls h sp toks : Forall one_line ls -> formula_file ls h sp toks -> dimacs2compressed_clauses (ended ls ++ ["c"%char]) = Err IndexError.
Proof.
  intros O H. unfold dimacs2compressed_clauses. rewrite readlines_ended by auto. rewrite read_lines_app, (read_formula _ _ _ _ H) by reflexivity. reflexivity.
Qed.

(* ---- the formula object ---- *)
Lemma with_new_all vs : forall k, NoDup (k ++ vs) -> with_new k vs = k ++ vs.
Proof.
  induction vs as [|v vs IH]; intros k N; cbn [with_new]; [rewrite app_nil_r; auto|].
  destruct (in_dec _ _ _) as [K|K]; [exfalso; apply NoDup_remove_2 in N; apply N; apply in_app_iff; auto|rewrite IH; rewrite <- app_assoc; auto].
Qed.
Definition decimals (n : Z) : list text := map str_Z (range 1 (n + 1)).
Lemma decimals_NoDup n : NoDup (decimals n).
Proof. apply FinFun.Injective_map_NoDup; [intros x y; apply str_Z_inj|apply range_NoDup]. Qed.
Lemma decimals_names n : cn_names (add_variables (decimals n) empty_cnf) = decimals n.
Proof. rewrite add_variables_names. apply (with_new_all (decimals n) []). apply decimals_NoDup. Qed.
Lemma decimals_length n : 0 <= n -> Z.of_nat (List.length (decimals n)) = n.
Proof. intros H. unfold decimals. rewrite map_length, range_length. lia. Qed.
Lemma dimacs2cnf_ok t h n F : dimacs2compressed_clauses t = Ok (h, n, F) ->
  dimacs2cnf t = Ok (h, mkCnf (decimals n) F, coherent (Z.of_nat (List.length (decimals n))) F).
Proof. intros E. unfold dimacs2cnf. rewrite E. cbn [bind]. fold (decimals n). rewrite decimals_names. reflexivity. Qed.
Lemma coherent_spec n F : coherent n F = true <-> forall cl l, In cl F -> In l cl -> 1 <= Z.abs l <= n.
Proof.
  unfold coherent. rewrite forallb_forall. split.
  - intros H cl l Hc Hl. specialize (H cl Hc). rewrite forallb_forall in H. specialize (H l Hl). apply andb_true_iff in H as [A B].
    apply Z.ltb_lt in A. apply Z.leb_le in B. lia.
  - intros H cl Hc. apply forallb_forall. intros l Hl. specialize (H cl l Hc Hl). apply andb_true_iff. split; [apply Z.ltb_lt; lia|apply Z.leb_le; lia].
Qed.
Lemma nth_decimals n i : 1 <= i <= n -> nth (Z.to_nat (i - 1)) (decimals n) [] = str_Z i.
Proof.
  intros H. unfold decimals, range. rewrite map_map. erewrite nth_indep with (d' := str_Z (1 + Z.of_nat 0%nat)); [|rewrite map_length, seq_length; lia].
  rewrite (map_nth (fun x => str_Z (1 + Z.of_nat x)) _ 0%nat). rewrite seq_nth by lia. f_equal. lia.
Qed.
Lemma decimal_clauses n F : (forall cl l, In cl F -> In l cl -> 1 <= Z.abs l <= n) ->
  cnf_clauses (mkCnf (decimals n) F) = map (map (fun l => (0 <? l, str_Z (Z.abs l)))) F.
Proof.
  intros H. unfold cnf_clauses. cbn [cn_names cn_clauses]. apply map_ext_in. intros cl Hc. unfold uncompress_clause. apply map_ext_in. intros l Hl.
  rewrite nth_decimals by eauto. reflexivity.
Qed.
