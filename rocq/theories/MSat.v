(* MSat.v -- the interface of the bundled generator to external SAT solvers: utils/solver.py and CNF.is_satisfiable
   (cnf.py:708-781).  The machine is a parameter: which commands start, and what they answer to a DIMACS text.
   Simplifications: the printing of verbose is left out; the machine answers the same question the same way (the only
   state is that of the temporary files, which are left out with their names); a solver does not remove the file it is
   told to write; texts are ASCII, so that .encode("ascii") succeeds; F is a CNF object. *)
From Coq Require Import String Ascii ZArith List Bool.
From Verif Require Import PyBase MText MCnf MFile MGraph.
Import ListNotations.
Open Scope Z_scope.

(* a machine: Popen([name, '--help']) starts; the file written by the command with these words on a DIMACS text (None:
   OSError); the standard output of the command with these words, on a DIMACS text on standard input or in a file *)
Record machine := mkMachine {
  mc_starts : text -> bool;
  mc_file : list text -> text -> option text;
  mc_stdin : list text -> text -> option text;
  mc_input_file : list text -> text -> option text
}.
(* (answer, witness); a witness is a dictionary from the entries of _index2name *)
Definition answer : Type := bool * option (list (option text * bool)).

(* cnf.py:94, 458: _index2name *)
Definition index2name (c : cnf) : list (option text) := None :: map Some (cn_names c).
Definition name_eqb (a b : option text) : bool :=
  match a, b with Some s, Some t => text_eqb s t | None, None => true | _, _ => false end.
(* solver.py:116, 232, 331: {F._index2name[abs(v)]: v > 0 for v in witness} *)
Definition witness_of (c : cnf) (vs : list Z) : result (list (option text * bool)) :=
  items <- mapM (fun v => k <- py_index (index2name c) (Z.abs v) ;; Ok (k, 0 <? v)) vs ;; Ok (dupdate name_eqb [] items).
(* solver.py:126, 235, 334: (result, result and witness or None) *)
Definition final (r : bool) (w : list (option text * bool)) : answer :=
  (r, if r then match w with [] => None | _ => Some w end else None).

(* solver.py:18-126 *)
Definition satsolve_filein_fileout (m : machine) (header : text) (c : cnf) (cmd : text) : result answer :=
  match mc_file m (split_ws cmd) (dimacs true header None c) with
  | None => Err UnboundLocalError
  | Some content =>
      match split_ws content with
      | [] => Err RuntimeError
      | w :: vs =>
          if text_eqb w (txt "SAT")
          then zs <- integers (filter (fun v => negb (text_eqb v (txt "0"))) vs) ;;
               d <- witness_of c zs ;; Ok (final true d)
          else if text_eqb w (txt "UNSAT") then Ok (final false [])
          else Err RuntimeError
      end
  end.

(* the output of the other solvers is a bytes object: its items are numbers and its words are bytes, none of which is
   equal to a str *)
Definition item_is (b : ascii) (s : text) : bool := false.
Definition word_is (w : text) (s : text) : bool := false.
(* bytes.splitlines: lines end with \n, \r or \r\n *)
Fixpoint bytes_lines (cur : text) (t : text) : list text :=
  match t with
  | [] => match cur with [] => [] | _ => [rev cur] end
  | a :: u => if ascii_dec a "010"%char then rev cur :: bytes_lines [] u
              else if ascii_dec a "013"%char
                   then rev cur :: match u with b :: u' => if ascii_dec b "010"%char then bytes_lines [] u' else bytes_lines [] u | [] => [] end
                   else bytes_lines (a :: cur) u
  end.
(* solver.py:207-224, 309-323 *)
Fixpoint scan_lines (ls : list text) (result_so_far : option bool) (witness : list Z) : result (option bool * list Z) :=
  match ls with
  | [] => Ok (result_so_far, witness)
  | [] :: t => scan_lines t result_so_far witness
  | (b :: r) :: t =>
      let line := b :: r in
      r1 <- (if item_is b (txt "s")
             then w <- py_index (split_ws line) 1 ;;
                  Ok (if word_is w (txt "SATISFIABLE") then Some true else if word_is w (txt "UNSATISFIABLE") then Some false else None)
             else Ok result_so_far) ;;
      w1 <- (if item_is b (txt "v")
             then zs <- integers (filter (fun el => negb (word_is el (txt "v")) && negb (word_is el (txt "0"))) (split_ws line)) ;; Ok (witness ++ zs)
             else Ok witness) ;;
      scan_lines t r1 w1
  end.
(* solver.py:204-235, 302-334; OSError leaves the output empty *)
Definition parse_output (c : cnf) (output : option text) : result answer :=
  '(r, vs) <- scan_lines (match output with Some t => bytes_lines [] t | None => [] end) None [] ;;
  match r with
  | None => Err RuntimeError
  | Some r => d <- witness_of c vs ;; Ok (final r d)
  end.
(* solver.py:129-235 *)
Definition satsolve_stdin_stdout (m : machine) (header : text) (c : cnf) (cmd : text) : result answer :=
  parse_output c (mc_stdin m (split_ws cmd) (dimacs true header None c)).
(* solver.py:238-334 *)
Definition satsolve_filein_stdout (m : machine) (header : text) (c : cnf) (cmd : text) : result answer :=
  parse_output c (mc_input_file m (split_ws cmd) (dimacs true header None c)).

(* solver.py:338-356 *)
Definition interfaces : list (text * (machine -> text -> cnf -> text -> result answer)) :=
  [(txt "lingeling", satsolve_stdin_stdout);
   (txt "plingeling", satsolve_stdin_stdout);
   (txt "precosat", satsolve_stdin_stdout);
   (txt "picosat", satsolve_stdin_stdout);
   (txt "march", satsolve_filein_stdout);
   (txt "cryptominisat", satsolve_stdin_stdout);
   (txt "minisat", satsolve_filein_fileout);
   (txt "glucose", satsolve_stdin_stdout);
   (txt "sat4j", satsolve_filein_stdout)].
Definition supported_satsolvers : list text := map fst interfaces.
Definition supported (s : text) : bool := existsb (text_eqb s) supported_satsolvers.
(* solver.py:359-394 *)
Definition have_satsolver (m : machine) (solvers : option (list text)) : bool :=
  existsb (mc_starts m) (match solvers with Some l => l | None => supported_satsolvers end).

(* solver.py:491-506 *)
Fixpoint try_solvers (m : machine) (header : text) (c : cnf) (sameas : option text) (cmds : list text) : result answer :=
  match cmds with
  | [] => Err RuntimeError
  | cmd :: t =>
      solver <- py_index (split_ws cmd) 0 ;;
      f <- of_option KeyError (dget text_eqb (match sameas with Some s => s | None => solver end) interfaces) ;;
      if negb (have_satsolver m (Some [solver])) then try_solvers m header c sameas t else f m header c cmd
  end.
(* solver.py:399-506 *)
Definition is_satisfiable (m : machine) (header : text) (c : cnf) (cmd sameas : option text) : result answer :=
  if match sameas with Some s => negb (supported s) | None => false end then Err ValueError
  else match cmd with
       | None => try_solvers m header c None supported_satsolvers
       | Some t => match split_ws t with
                   | [] => try_solvers m header c None supported_satsolvers
                   | w :: _ => if negb (supported w) && match sameas with None => true | Some _ => false end
                               then Err RuntimeError
                               else try_solvers m header c sameas [t]
                   end
       end.
