(* Properties23.v -- generated by tools/genprops.py from PP23.v: property theorems, their
   assumptions, and examples showing that the hypotheses are met.  Proofs are in PP23.v. *)
From Coq Require Import String Ascii ZArith List Bool Lia.
From Verif Require Import Spec SpecInput SpecFile PyBase MSet MText MCnf MFam MFam2 MTrans MFile SpecCnf PText PReader PLib PCnf2 PCnf3 PFam1 PFile1 PFile2 PP16.
Import ListNotations.
From Verif Require Import PP23.
Open Scope Z_scope.

(* C83: a file of comments, integers and at most one line p <word> n m, anywhere: F are the clauses closed by a 0, rest what
   follows the last 0.  The file is accepted exactly when nothing is left over and m is the number of clauses *)
Theorem C83_read : forall lines header spec F rest,
  Forall one_line lines -> formula_file lines header spec (terminated F ++ rest) -> (forall cl, In cl F -> ~ In 0 cl) -> ~ In 0 rest ->
  (forall n m, spec = Some (n, m) -> m = Z.of_nat (List.length F) -> rest = [] ->
     dimacs2compressed_clauses (ended lines) = Ok (header, n, F)) /\
  (spec = None \/ (exists n m, spec = Some (n, m) /\ m <> Z.of_nat (List.length F)) \/ rest <> [] ->
     dimacs2compressed_clauses (ended lines) = Err ValueError).
Proof. exact p_C83_read. Qed.
Print Assumptions C83_read.

(* C83: a second line p is refused, whatever it says and whatever follows; so is a line with a word that is no integer *)
Theorem C83_refused : forall lines header spec toks, Forall one_line lines -> formula_file lines header spec toks ->
  (forall text, spec <> None -> dimacs2compressed_clauses (ended lines ++ "p"%char :: text) = Err ValueError) /\
  (forall pre w post text, one_line (pre ++ w ++ post) -> word w -> malformed w ->
     (pre = [] \/ exists p b, pre = p ++ [b] /\ is_blank b) -> (post = [] \/ exists b p, post = b :: p /\ is_blank b) ->
     hd_error (pre ++ w ++ post) <> Some "c"%char -> hd_error (pre ++ w ++ post) <> Some "p"%char ->
     dimacs2compressed_clauses (ended (lines ++ [pre ++ w ++ post]) ++ text) = Err ValueError).
Proof. exact p_C83_refused. Qed.
Print Assumptions C83_refused.

(* C83: the newline of the last line may be missing; but a last line with the single character c ends in an IndexError *)
Theorem C83_last_line : forall lines, Forall one_line lines ->
  (forall l, one_line l -> l <> [] -> hd_error l <> Some "c"%char ->
     dimacs2compressed_clauses (ended lines ++ l) = dimacs2compressed_clauses (ended (lines ++ [l]))) /\
  (forall header spec toks, formula_file lines header spec toks -> dimacs2compressed_clauses (ended lines ++ chars "c") = Err IndexError).
Proof. exact p_C83_last_line. Qed.
Print Assumptions C83_last_line.

(* C83: the formula object has the variables 1 .. n and the clauses of the file.  A literal beyond n is not refused when
   the file is read: the object is only marked, and then has no other public use *)
Theorem C83_object : forall text header n F, dimacs2compressed_clauses text = Ok (header, n, F) ->
  exists c coherent, dimacs2cnf text = Ok (header, c, coherent) /\ cnf_variables c = map str_Z (range 1 (n + 1)) /\
    (coherent = true <-> forall cl l, In cl F -> In l cl -> 1 <= Z.abs l <= n) /\
    (coherent = true -> made c /\ cnf_clauses c = map (map (fun l => (0 <? l, str_Z (Z.abs l)))) F).
Proof. exact p_C83_object. Qed.
Print Assumptions C83_object.

(* C83: a formula written and read again, with or without the newline that print adds: the variables are renamed to their
   numbers, everything else is the same, and writing it again gives the same file *)
Theorem C83_round_trip : forall export_header header extra c tail, made c -> tail = [] \/ tail = [nl] ->
  exists header' c', dimacs2cnf (dimacs export_header header extra c ++ tail) = Ok (header', c', true) /\ made c' /\
    (exists rename, map rename (cnf_variables c) = cnf_variables c' /\
       cnf_clauses c' = map (map (fun l => (fst l, rename (snd l)))) (cnf_clauses c)) /\
    cnf_variables c' = map str_Z (range 1 (Z.of_nat (List.length (cnf_variables c)) + 1)) /\
    (has_model (cnf_clauses c') <-> has_model (cnf_clauses c)) /\
    dimacs export_header header' None c' = dimacs export_header header extra c /\
    (export_header = false -> header' = []).
Proof. exact p_C83_round_trip. Qed.
Print Assumptions C83_round_trip.

(* C83: the comments come back without trailing blanks; the part of a header after its last newline is not written *)
Theorem C83_header : forall lines last extra c tail, made c -> tail = [] \/ tail = [nl] -> Forall one_line lines -> one_line last ->
  Forall one_line extra -> extra <> [] ->
  (exists c', dimacs2cnf (dimacs true (ended lines ++ last) None c ++ tail) = Ok (ended (map rstrip lines), c', true)) /\
  (exists c', dimacs2cnf (dimacs true (ended lines ++ last) (Some (file_of extra)) c ++ tail) = Ok (ended (map rstrip (lines ++ extra)), c', true)).
Proof. exact p_C83_header. Qed.
Print Assumptions C83_header.

(* the clauses 2 -3 0 and 1 2 3 0 over two lines, the line p in the middle *)
Definition two_clauses : list text := map txt ["c  first"; "c"; "2  -3 0 1"; "p cnf 3 2"; ""; "2 3 0"]%string.
Lemma numbers_of zs : numbers zs (join (txt " ") (map str_Z zs)).
Proof.
  induction zs as [|z zs IH]; [constructor; constructor|]. destruct zs as [|y zs]; [apply (numbers_last []); [constructor|apply PReader.str_Z_numeral]|].
  change (join (txt " ") (map str_Z (z :: y :: zs))) with ([] ++ str_Z z ++ " "%char :: join (txt " ") (map str_Z (y :: zs))).
  apply numbers_cons; auto; [constructor|apply PReader.str_Z_numeral|left; reflexivity].
Qed.
Example C83_file : Forall one_line two_clauses /\
  formula_file two_clauses (txt " first" ++ [nl; nl]) (Some (3, 2)) (terminated [[2; -3]; [1; 2; 3]] ++ []).
Proof.
  split; [repeat (constructor; [intros K; repeat (destruct K as [K|K]; [discriminate K|]); destruct K|]); constructor|].
  change (txt " first" ++ [nl; nl]) with (txt " first" ++ nl :: ([] ++ nl :: [])).
  apply file_comment; [apply remark_space|]. apply file_comment; [apply remark_other; discriminate|].
  change (terminated [[2; -3]; [1; 2; 3]] ++ []) with ([2; -3; 0; 1] ++ [] ++ [2; 3; 0] ++ []).
  apply file_numbers.
  { apply (numbers_cons [] 2 (str_Z 2) [-3; 0; 1] " "%char (txt " -3 0 1")); [constructor|apply PReader.str_Z_numeral|left; reflexivity|].
    apply (numbers_cons [" "%char] (-3) (str_Z (-3)) [0; 1] " "%char (txt "0 1")); [constructor; [left; reflexivity|constructor]|apply PReader.str_Z_numeral|left; reflexivity|].
    apply (numbers_of [0; 1]). }
  apply file_spec; [apply (p_line_spec 3 2)|lia|]. apply file_numbers; [constructor; constructor|]. apply file_numbers; [apply (numbers_of [2; 3; 0])|constructor].
Qed.
Example C83_accepted : dimacs2compressed_clauses (ended two_clauses) = Ok (txt " first" ++ [nl; nl], 3, [[2; -3]; [1; 2; 3]]).
Proof. vm_compute. reflexivity. Qed.
(* literal 5 in a formula over three variables: read without complaint *)
Example C83_out_of_range : exists c, dimacs2cnf (txt "p cnf 3 1
5 0") = Ok ([], c, false).
Proof. eexists. vm_compute. reflexivity. Qed.
Example C83_bad_word : word (txt "%") /\ malformed (txt "%").
Proof.
  split; [split; [discriminate|intros c [<-|[]]; cbv; lia]|]. left. intros c [<-|[]] (d & Hd & E).
  do 10 (destruct d as [|d]; [discriminate E|]). lia.
Qed.
Definition abc_cnf : cnf := mkCnf [txt "a"; txt "b"; txt "c"] [[1; -2]; [2; 3]; []].
Example C83_made : made abc_cnf.
Proof.
  apply made_of_numbers; [repeat (constructor; [cbn; intuition discriminate|]); constructor|].
  cbn. intros cl z Hc Hz. repeat (destruct Hc as [<-|Hc]; [cbn in Hz; repeat (destruct Hz as [<-|Hz]; [cbn; lia|]); destruct Hz|]). destruct Hc.
Qed.
Example C83_written : dimacs true (txt "title  
rest") (Some (txt "x")) abc_cnf = txt "c title
c x
p cnf 3 3
1 -2 0
2 3 0
0".
Proof. vm_compute. reflexivity. Qed.
