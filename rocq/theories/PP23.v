(* PP23.v -- C83: reading DIMACS formulas *)
From Coq Require Import String Ascii ZArith List Bool Lia.
From Verif Require Import Spec SpecInput SpecFile PyBase MSet MText MCnf MFam MFam2 MTrans MFile SpecCnf PText PReader PLib PCnf2 PCnf3 PFam1 PFile1 PFile2 PP16.
Import ListNotations.
Open Scope Z_scope.

(* C83: a file of comments, integers and at most one line p <word> n m, anywhere: F are the clauses closed by a 0, rest what
   follows the last 0.  The file is accepted exactly when nothing is left over and m is the number of clauses *)
Lemma p_C83_read : forall lines header spec F rest,
  Forall one_line lines -> formula_file lines header spec (terminated F ++ rest) -> (forall cl, In cl F -> ~ In 0 cl) -> ~ In 0 rest ->
  (forall n m, spec = Some (n, m) -> m = Z.of_nat (List.length F) -> rest = [] ->
     dimacs2compressed_clauses (ended lines) = Ok (header, n, F)) /\
  (spec = None \/ (exists n m, spec = Some (n, m) /\ m <> Z.of_nat (List.length F)) \/ rest <> [] ->
     dimacs2compressed_clauses (ended lines) = Err ValueError).
Proof.
  intros ls h sp F rest O H N R. rewrite (read_good ls h sp F rest O H N R). split.
  - intros n m -> -> ->. rewrite Z.eqb_refl. reflexivity.
  - intros [->|[(n & m & -> & D)|D]].
    + destruct rest; reflexivity.
    + destruct rest; [|reflexivity]. destruct (Z.eqb_spec m (Z.of_nat (List.length F))); [contradiction|reflexivity].
    + destruct rest; [congruence|reflexivity].
Qed.
(* C83: a second line p is refused, whatever it says and whatever follows; so is a line with a word that is no integer *)
Lemma p_C83_refused : forall lines header spec toks, Forall one_line lines -> formula_file lines header spec toks ->
  (forall text, spec <> None -> dimacs2compressed_clauses (ended lines ++ "p"%char :: text) = Err ValueError) /\
  (forall pre w post text, one_line (pre ++ w ++ post) -> word w -> malformed w ->
     (pre = [] \/ exists p b, pre = p ++ [b] /\ is_blank b) -> (post = [] \/ exists b p, post = b :: p /\ is_blank b) ->
     hd_error (pre ++ w ++ post) <> Some "c"%char -> hd_error (pre ++ w ++ post) <> Some "p"%char ->
     dimacs2compressed_clauses (ended (lines ++ [pre ++ w ++ post]) ++ text) = Err ValueError).
Proof.
  intros ls h sp toks O H. split.
  - intros t N. destruct sp as [[n m]|]; [|congruence]. eapply read_twice; eauto. eapply formula_spec_nonneg; eauto.
  - intros. eapply read_malformed; eauto.
Qed.
(* C83: the newline of the last line may be missing; but a last line with the single character c ends in an IndexError *)
Lemma p_C83_last_line : forall lines, Forall one_line lines ->
  (forall l, one_line l -> l <> [] -> hd_error l <> Some "c"%char ->
     dimacs2compressed_clauses (ended lines ++ l) = dimacs2compressed_clauses (ended (lines ++ [l]))) /\
  (forall header spec toks, formula_file lines header spec toks -> dimacs2compressed_clauses (ended lines ++ chars "c") = Err IndexError).
Proof. intros ls O. split; [intros; apply read_last; auto|intros; eapply read_bare; eauto]. Qed.
(* C83: the formula object has the variables 1 .. n and the clauses of the file.  A literal beyond n is not refused when
   the file is read: the object is only marked, and then has no other public use *)
Lemma p_C83_object : forall text header n F, dimacs2compressed_clauses text = Ok (header, n, F) ->
  exists c coherent, dimacs2cnf text = Ok (header, c, coherent) /\ cnf_variables c = map str_Z (range 1 (n + 1)) /\
    (coherent = true <-> forall cl l, In cl F -> In l cl -> 1 <= Z.abs l <= n) /\
    (coherent = true -> made c /\ cnf_clauses c = map (map (fun l => (0 <? l, str_Z (Z.abs l)))) F).
Proof.
  intros t h n F E. exists (mkCnf (decimals n) F), (coherent (Z.of_nat (List.length (decimals n))) F). split; [apply dimacs2cnf_ok; auto|].
  split; [reflexivity|].
  assert (K : coherent (Z.of_nat (List.length (decimals n))) F = true <-> forall cl l, In cl F -> In l cl -> 1 <= Z.abs l <= n).
  { rewrite coherent_spec. destruct (Z_le_gt_dec 0 n) as [P|P]; [rewrite decimals_length by auto; tauto|].
    assert (L : Z.of_nat (List.length (decimals n)) = 0) by (unfold decimals; rewrite map_length, range_length; lia). rewrite L.
    split; intros H cl l Hc Hl; specialize (H cl l Hc Hl); lia. }
  split; [exact K|]. intros H. pose proof (proj1 K H) as H'. clear H. rename H' into H. split; [|apply decimal_clauses; auto].
  apply made_of_numbers; [apply decimals_NoDup|]. intros cl z Hc Hz. specialize (H cl z Hc Hz). rewrite decimals_length by lia. exact H.
Qed.
(* C83: a formula written and read again, with or without the newline that print adds: the variables are renamed to their
   numbers, everything else is the same, and writing it again gives the same file *)
Lemma p_C83_round_trip : forall export_header header extra c tail, made c -> tail = [] \/ tail = [nl] ->
  exists header' c', dimacs2cnf (dimacs export_header header extra c ++ tail) = Ok (header', c', true) /\ made c' /\
    (exists rename, map rename (cnf_variables c) = cnf_variables c' /\
       cnf_clauses c' = map (map (fun l => (fst l, rename (snd l)))) (cnf_clauses c)) /\
    cnf_variables c' = map str_Z (range 1 (Z.of_nat (List.length (cnf_variables c)) + 1)) /\
    (has_model (cnf_clauses c') <-> has_model (cnf_clauses c)) /\
    dimacs export_header header' None c' = dimacs export_header header extra c /\
    (export_header = false -> header' = []).
Proof.
  intros v h e c tail M T. pose proof (made_well c M) as W. destruct (read_dimacs v h e c W) as [A B].
  assert (E : dimacs2compressed_clauses (dimacs v h e c ++ tail) = Ok (read_header v h e, Z.of_nat (List.length (cn_names c)), cn_clauses c))
    by (destruct T as [->| ->]; [rewrite app_nil_r|]; auto).
  apply dimacs2cnf_ok in E. rewrite decimals_length in E by lia.
  assert (C : coherent (Z.of_nat (List.length (cn_names c))) (cn_clauses c) = true) by (apply coherent_spec; apply W). rewrite C in E.
  exists (read_header v h e), (mkCnf (decimals (Z.of_nat (List.length (cn_names c)))) (cn_clauses c)). split; [exact E|]. split.
  - apply made_of_numbers; [apply decimals_NoDup|]. intros cl z Hc Hz. rewrite decimals_length by lia. apply W with cl; auto.
  - split; [exists (number_of c); split; [apply number_names; apply W|apply number_clauses; auto]|]. split; [reflexivity|].
    split; [apply same_models; auto|]. split; [apply rewritten|intros ->; reflexivity].
Qed.
(* C83: the comments come back without trailing blanks; the part of a header after its last newline is not written *)
Lemma p_C83_header : forall lines last extra c tail, made c -> tail = [] \/ tail = [nl] -> Forall one_line lines -> one_line last ->
  Forall one_line extra -> extra <> [] ->
  (exists c', dimacs2cnf (dimacs true (ended lines ++ last) None c ++ tail) = Ok (ended (map rstrip lines), c', true)) /\
  (exists c', dimacs2cnf (dimacs true (ended lines ++ last) (Some (file_of extra)) c ++ tail) = Ok (ended (map rstrip (lines ++ extra)), c', true)).
Proof.
  intros ls last ex c tail M T O1 O2 O3 N. pose proof (made_well c M) as W.
  assert (K : forall e, exists c', dimacs2cnf (dimacs true (ended ls ++ last) e c ++ tail) = Ok (read_header true (ended ls ++ last) e, c', true)).
  { intros e. destruct (read_dimacs true (ended ls ++ last) e c W) as [A B].
    assert (E : dimacs2compressed_clauses (dimacs true (ended ls ++ last) e c ++ tail) = Ok (read_header true (ended ls ++ last) e, Z.of_nat (List.length (cn_names c)), cn_clauses c))
      by (destruct T as [->| ->]; [rewrite app_nil_r|]; auto).
    apply dimacs2cnf_ok in E. rewrite decimals_length in E by lia.
    assert (C : coherent (Z.of_nat (List.length (cn_names c))) (cn_clauses c) = true) by (apply coherent_spec; apply W). rewrite C in E. eauto. }
  assert (H1 : removelast (split_on newline (ended ls ++ last)) = ls).
  { rewrite split_ended by auto. rewrite split_on_lacks by exact O2. apply removelast_last. }
  assert (H2 : split_on newline (file_of ex) = ex).
  { apply PReader.file_lines; auto. }
  split; [destruct (K None) as (c' & E)|destruct (K (Some (file_of ex))) as (c' & E)]; exists c'; rewrite E; unfold read_header, header_lines; rewrite H1.
  - rewrite app_nil_r. reflexivity.
  - rewrite H2. reflexivity.
Qed.
(*EX
(* the clauses 2 -3 0 and 1 2 3 0 over two lines, the line p in the middle *)
Definition two_clauses : list text := map txt ["c  first"; "c"; "2  -3 0 1"; "p cnf 3 2"; ""; "2 3 0"]%string.
Lemma numbers_of zs : numbers zs (join (txt " ") (map str_Z zs)).
Proof.
  induction zs as [|z zs IH]; [constructor; constructor|]. destruct zs as [|y zs]; [apply (numbers_last []); [constructor|apply PReader.str_Z_numeral]|].
  change (join (txt " ") (map str_Z (z :: y :: zs))) with ([] ++ str_Z z ++ " "%char :: join (txt " ") (map str_Z (y :: zs))).
  apply numbers_cons; auto; [constructor|apply PReader.str_Z_numeral|left; reflexivity].
Qed.
Example C83_file : Forall one_line two_clauses /\
  formula_file two_clauses (txt " first" ++ [nl; nl]) (Some (3, 2)) (terminated [[2; -3]; [1; 2; 3]] ++ []).
Proof.
  split; [repeat (constructor; [intros K; repeat (destruct K as [K|K]; [discriminate K|]); destruct K|]); constructor|].
  change (txt " first" ++ [nl; nl]) with (txt " first" ++ nl :: ([] ++ nl :: [])).
  apply file_comment; [apply remark_space|]. apply file_comment; [apply remark_other; discriminate|].
  change (terminated [[2; -3]; [1; 2; 3]] ++ []) with ([2; -3; 0; 1] ++ [] ++ [2; 3; 0] ++ []).
  apply file_numbers.
  { apply (numbers_cons [] 2 (str_Z 2) [-3; 0; 1] " "%char (txt " -3 0 1")); [constructor|apply PReader.str_Z_numeral|left; reflexivity|].
    apply (numbers_cons [" "%char] (-3) (str_Z (-3)) [0; 1] " "%char (txt "0 1")); [constructor; [left; reflexivity|constructor]|apply PReader.str_Z_numeral|left; reflexivity|].
    apply (numbers_of [0; 1]). }
  apply file_spec; [apply (p_line_spec 3 2)|lia|]. apply file_numbers; [constructor; constructor|]. apply file_numbers; [apply (numbers_of [2; 3; 0])|constructor].
Qed.
Example C83_accepted : dimacs2compressed_clauses (ended two_clauses) = Ok (txt " first" ++ [nl; nl], 3, [[2; -3]; [1; 2; 3]]).
Proof. vm_compute. reflexivity. Qed.
(* literal 5 in a formula over three variables: read without complaint *)
Example C83_out_of_range : exists c, dimacs2cnf (txt "p cnf 3 1
5 0") = Ok ([], c, false).
Proof. eexists. vm_compute. reflexivity. Qed.
Example C83_bad_word : word (txt "%") /\ malformed (txt "%").
Proof.
  split; [split; [discriminate|intros c [<-|[]]; cbv; lia]|]. left. intros c [<-|[]] (d & Hd & E).
  do 10 (destruct d as [|d]; [discriminate E|]). lia.
Qed.
Definition abc_cnf : cnf := mkCnf [txt "a"; txt "b"; txt "c"] [[1; -2]; [2; 3]; []].
Example C83_made : made abc_cnf.
Proof.
  apply made_of_numbers; [repeat (constructor; [cbn; intuition discriminate|]); constructor|].
  cbn. intros cl z Hc Hz. repeat (destruct Hc as [<-|Hc]; [cbn in Hz; repeat (destruct Hz as [<-|Hz]; [cbn; lia|]); destruct Hz|]). destruct Hc.
Qed.
Example C83_written : dimacs true (txt "title  
rest") (Some (txt "x")) abc_cnf = txt "c title
c x
p cnf 3 3
1 -2 0
2 3 0
0".
Proof. vm_compute. reflexivity. Qed.
EX*)
