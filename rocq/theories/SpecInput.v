(* SpecInput.v -- what the two input formats mean, independently of the reader.  Definitions only. *)
From Coq Require Import String Ascii ZArith List Bool.
From Verif Require Import Spec.
Import ListNotations.
Open Scope Z_scope.

Definition chars (s : string) : list ascii := list_ascii_of_string s.
Definition nl : ascii := ascii_of_nat 10.
Definition is_blank (c : ascii) : Prop := c = " "%char \/ c = ascii_of_nat 9.
Definition blanks (t : list ascii) : Prop := Forall is_blank t.

(* decimal numerals: optional sign, digits, leading zeros allowed *)
Definition digit (n : nat) : ascii := ascii_of_nat (48 + n).
Fixpoint decimal (acc : Z) (ds : list nat) : Z :=
  match ds with [] => acc | d :: t => decimal (acc * 10 + Z.of_nat d) t end.
Inductive numeral : Z -> list ascii -> Prop :=
| num_plain ds : ds <> [] -> Forall (fun d => (d < 10)%nat) ds -> numeral (decimal 0 ds) (map digit ds)
| num_plus ds : ds <> [] -> Forall (fun d => (d < 10)%nat) ds ->
    numeral (decimal 0 ds) ("+"%char :: map digit ds)
| num_minus ds : ds <> [] -> Forall (fun d => (d < 10)%nat) ds ->
    numeral (- decimal 0 ds) ("-"%char :: map digit ds).

Fixpoint separated (sep : ascii) (ps : list (list ascii)) : list ascii :=
  match ps with [] => [] | [p] => p | p :: t => p ++ sep :: separated sep t end.

(* ---- single-line format: literals separated by |, clauses by &, blanks and parentheses anywhere
   around the literals ---- *)
Definition filler (c : ascii) : Prop := is_blank c \/ c = "("%char \/ c = ")"%char.
Definition literal_written (l : Z) (t : list ascii) : Prop :=
  exists pre n post, t = pre ++ n ++ post /\ Forall filler pre /\ Forall filler post /\ numeral l n.
Definition clause_written (c : list Z) (t : list ascii) : Prop :=
  c <> [] /\ exists ps, Forall2 literal_written c ps /\ t = separated "|"%char ps.
Definition formula_written (F : list (list Z)) (t : list ascii) : Prop :=
  F <> [] /\ exists ps, Forall2 clause_written F ps /\ t = separated "&"%char ps.

(* a field that cannot be an integer: it has no digit at all, or has a character that occurs in no
   integer literal of Python *)
Definition is_digit_char (c : ascii) : Prop := exists d, (d < 10)%nat /\ c = digit d.
Definition malformed (f : list ascii) : Prop :=
  (forall c, In c f -> ~ is_digit_char c) \/
  (exists c, In c f /\ ~ is_digit_char c /\ ~ In c (chars "+-_()") /\
     ~ In c (map ascii_of_nat [9; 10; 11; 12; 13; 32]%nat)).

(* ---- what must come out: one clause per non-tautological input clause, in input order, carrying its
   position, without repeated literals, in ascending order of variable ---- *)
Inductive reads : Z -> list (list Z) -> list (Z * list Z) -> Prop :=
| reads_nil i : reads i [] []
| reads_taut i c F G : complementary c -> reads (i + 1) F G -> reads i (c :: F) G
| reads_clause i c d F G : ~ complementary c -> (forall l, In l d <-> In l c) -> distinct_vars d ->
    sorted_clause d -> reads (i + 1) F G -> reads i (c :: F) ((i, d) :: G).

(* clauses of at most three different literals, or over pairwise different variables *)
Definition narrow (c : list Z) : Prop :=
  (List.length (nodup Z.eq_dec c) <= 3)%nat \/ distinct_vars c.

(* ---- DIMACS ---- *)
(* integers separated by blanks (spaces only) *)
Inductive spaced : list Z -> list ascii -> Prop :=
| spaced_nil t : Forall (eq " "%char) t -> spaced [] t
| spaced_last pre z n : Forall (eq " "%char) pre -> numeral z n -> spaced [z] (pre ++ n)
| spaced_cons pre z n zs u : Forall (eq " "%char) pre -> numeral z n -> spaced zs u ->
    spaced (z :: zs) (pre ++ n ++ " "%char :: u).
Definition comment_line (l : list ascii) : Prop :=
  exists pre t, l = pre ++ "c"%char :: t /\ blanks pre.
Definition word (w : list ascii) : Prop := w <> [] /\ forall c, In c w -> (32 < nat_of_ascii c)%nat.
Definition gap (t : list ascii) : Prop := t <> [] /\ blanks t.
Definition problem_line (l : list ascii) : Prop :=
  exists pre w s1 w2 s2 w3 s3 w4 post,
    l = pre ++ ("p"%char :: w) ++ s1 ++ w2 ++ s2 ++ w3 ++ s3 ++ w4 ++ post /\
    blanks pre /\ blanks post /\ word ("p"%char :: w) /\ word w2 /\ word w3 /\ word w4 /\
    gap s1 /\ gap s2 /\ gap s3.
(* the lines carry the integers [toks], in order, between comment and problem lines *)
Inductive dimacs_body : list Z -> list (list ascii) -> Prop :=
| body_nil : dimacs_body [] []
| body_comment toks l ls : comment_line l -> dimacs_body toks ls -> dimacs_body toks (l :: ls)
| body_problem toks l ls : problem_line l -> dimacs_body toks ls -> dimacs_body toks (l :: ls)
| body_ints ts toks l ls : ts <> [] -> spaced ts l -> dimacs_body toks ls ->
    dimacs_body (ts ++ toks) (l :: ls).
(* clauses as a stream of integers, each closed by 0 *)
Definition terminated (F : list (list Z)) : list Z := concat (map (fun c => c ++ [0]) F).
(* lines that follow the part of the file that is read: none, or a blank line and anything *)
Definition ignored_rest (ls : list (list ascii)) : Prop :=
  ls = [] \/ exists b t, ls = b :: t /\ blanks b.
Definition one_line (t : list ascii) : Prop := ~ In nl t.
(* a text file made of these lines *)
Definition file_of (ls : list (list ascii)) : list ascii := separated nl ls.
