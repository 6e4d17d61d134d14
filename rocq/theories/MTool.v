(* MTool.v -- the command-line tools of the bundled generator: utils/cnfshuffle.py, utils/dimacstransform.py,
   utils/kthlist2pebbling.py, and the subcommands of the transformations they share (transformations/*.py).
   The tools read standard input and write standard output, both are texts.  Simplifications: argparse is left out; the
   options -i FILE and -o FILE, which fail in Python 3, are left out; the outcomes of random.shuffle and random.choice
   are parameters; standard output takes text although it is opened with the mode wb (as up to Python 3.10). *)
From Coq Require Import String Ascii ZArith List Bool.
From Verif Require Import PyBase MSet MText MCnf MFam MFam2 MTrans MFile.
Import ListNotations.
Open Scope Z_scope.

(* exit(-1) *)
Definition SystemExit : exn := OtherException.

(* the flags -p -v -c, and what random.shuffle makes of a list, random.choice([-1,1]) of the i-th variable *)
Record shuffling := mkShuffling {
  sh_no_flips : bool;
  sh_no_variables : bool;
  sh_no_clauses : bool;
  sh_variables : list text -> list text;
  sh_clauses : list Z -> list Z;
  sh_choice : nat -> Z
}.
(* shuffle.py:42-57,76-78,97-108, cnfshuffle.py:86-89: the arguments of Shuffle *)
Definition shuffle_with (s : shuffling) (c : cnf) : result cnf :=
  let m := Z.of_nat (List.length (cn_clauses c)) in
  Shuffle c (if sh_no_variables s then cn_names c else sh_variables s (cn_names c))
    (if sh_no_clauses s then range 0 m else sh_clauses s (range 0 m))
    (if sh_no_flips s then repeat 1 (List.length (cn_names c)) else map (sh_choice s) (seq 0 (List.length (cn_names c)))).
(* shuffle.py:39 *)
Definition shuffle_header (h : text) : text := txt "Reshuffling of:" ++ [newline; newline] ++ h.

(* substitutions.py:529-706, shuffle.py:90-108: the subcommands with their arguments *)
Inductive transformation :=
| T_none | T_or (N : Z) | T_xor (N : Z) | T_eq (N : Z) | T_neq (N : Z) | T_maj (N : Z) | T_ite | T_one (N : Z) | T_lift (N : Z) | T_flip
| T_xorcomp (b : bipartite) | T_majcomp (b : bipartite) | T_shuffle (s : shuffling).
(* VariableCompression in XorCompressionCmd, MajCompressionCmd: ValueError becomes exit(-1) *)
Definition compressed (r : result cnf) : result cnf := match r with Err ValueError => Err SystemExit | _ => r end.
Definition transform (t : transformation) (c : cnf) : result cnf :=
  match t with
  | T_none => Ok c
  | T_or N => OrSubstitution c N
  | T_xor N => XorSubstitution c N
  | T_eq N => AllEqualSubstitution c N
  | T_neq N => NotAllEqualSubstitution c N
  | T_maj N => MajoritySubstitution c N
  | T_ite => IfThenElseSubstitution c
  | T_one N => ExactlyOneSubstitution c N
  | T_lift N => FormulaLifting c N
  | T_flip => FlipPolarity c
  | T_xorcomp b => compressed (VariableCompression c b (txt "xor"))
  | T_majcomp b => compressed (VariableCompression c b (txt "maj"))
  | T_shuffle s => shuffle_with s c
  end.
(* substitutions.py:129,163,206,244,278,307,337,390,434,494: what comes before the header of the formula *)
Definition transform_header (t : transformation) (h : text) : text :=
  let two := [newline; newline] in
  match t with
  | T_none => h
  | T_or N => txt "OR " ++ str_Z N ++ txt " substituted formula" ++ two ++ h
  | T_xor N => txt "XOR " ++ str_Z N ++ txt " substituted formula" ++ two ++ h
  | T_eq N => txt "EQ " ++ str_Z N ++ txt " substituted formula" ++ two ++ h
  | T_neq N => txt "NEQ " ++ str_Z N ++ txt " substituted formula" ++ two ++ h
  | T_maj N => txt "Majority " ++ str_Z N ++ txt " substituted formula" ++ two ++ h
  | T_ite => txt "If-Then-Else substituted formula" ++ two ++ h
  | T_one N => txt "Formula transformed by ""exactly one"" substitution over " ++ str_Z N ++ txt " values" ++ two ++ h
  | T_lift N => txt "Formula with lifting with selectors over " ++ str_Z N ++ txt " values" ++ two ++ h
  | T_flip => txt "Polarity variables has been flipped" ++ two ++ h
  | T_xorcomp b => txt "Variable xor-compression from " ++ str_Z (Z.of_nat (List.length (b_right b))) ++ txt " to " ++ str_Z (Z.of_nat (List.length (b_left b))) ++ txt " variables" ++ two ++ h
  | T_majcomp b => txt "Variable maj-compression from " ++ str_Z (Z.of_nat (List.length (b_right b))) ++ txt " to " ++ str_Z (Z.of_nat (List.length (b_left b))) ++ txt " variables" ++ two ++ h
  | T_shuffle _ => shuffle_header h
  end.

(* cnfshuffle.py:18-94; the first use of an incoherent formula is an AssertionError *)
Definition cnfshuffle (s : shuffling) (verbose : bool) (input : text) : result text :=
  '(h, c, ok) <- dimacs2cnf input ;;
  if negb ok then Err AssertionError
  else c' <- shuffle_with s c ;; Ok (dimacs verbose (shuffle_header h) None c').
(* dimacstransform.py:83-90; print adds a newline *)
Definition dimacstransform (t : transformation) (verbose : bool) (input : text) : result text :=
  '(h, c, ok) <- dimacs2cnf input ;;
  if negb ok then Err AssertionError
  else c' <- transform t c ;; Ok (dimacs verbose (transform_header t h) None c' ++ [newline]).
(* cnf.py:30, prjdata.py *)
Definition default_header : text :=
  txt "Generated with `cnfgen`" ++ [newline] ++ txt "(C) 2012-2019 Massimo Lauria <lauria.massimo@gmail.com>" ++ [newline] ++
  txt "https://massimolauria.net/cnfgen" ++ [newline; newline].
(* kthlist2pebbling.py:91-103, pebbling.py:55-58 *)
Definition kthlist2pebbling (t : transformation) (verbose : bool) (input : text) : result text :=
  f <- readGraph_kthlist Dag input ;;
  c <- PebblingFormula (to_digraph f) ;;
  c' <- transform t c ;;
  Ok (dimacs verbose (transform_header t (txt "Pebbling formula of: " ++ f_name f ++ [newline; newline] ++ default_header)) None c' ++ [newline]).
