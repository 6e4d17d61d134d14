(* MCli.v -- model of the command line of main.py (main.py:133-261), of the choice between one and several
   processes (PatternSolver.py:134-139), of the name of the solution file (main.py:105-116) and of what is
   shown to the user.
   Modelled here are argparse's result and the checks the program asks it for (the two exclusive groups, one of
   them required, main.py:138-146); how it gets there from the words is modelled in MArgs.v.  Not modelled: progress messages, errors of the file
   system when the solution or the graph is written. *)
From Coq Require Import String Ascii ZArith List Bool.
From Verif Require Import PyBase MSet MText MQueue MDb MSolver MMain MProc MShare.
Import ListNotations.
Open Scope Z_scope.

(* the parsed arguments (main.py:138-168); a file argument is the name given and the content *)
Record cli := mkCli {
  c_v : bool; c_vv : bool; c_q : bool; c_qn : bool;
  c_line : option text;                     (* -l *)
  c_line_file : option (text * text);       (* -lf *)
  c_dimacs : option (text * text);          (* -d *)
  c_graph : option text;                    (* -g *)
  c_solution_file : bool;                   (* -s *)
  c_no_stats : bool;                        (* -ns *)
  c_threads : Z;                            (* -t, 1 by default *)
  c_exit : bool;                            (* -e *)
  c_verify : bool;
  c_rdb : bool; c_gdb : bool; c_gnm : bool;
  c_sort_by_size : bool;                    (* -z *)
  c_thief : bool;
  c_factorize : bool;                       (* -fact *)
  c_multiply : option (Z * Z);              (* -mult *)
  c_mode : mode                             (* -m, flo by default *)
}.

(* what surrounds a run: the hash function, the database, the machine and its schedule *)
Record env := mkEnv {
  e_hash : text -> digest;
  e_insert_fails : digest -> bool;
  e_cpus : Z;
  e_worker_fails : nat -> bool;
  e_arrived : nat -> nat -> bool;   (* without -gdb, see MProc *)
  e_sched : nat -> action;          (* with -gdb, see MShare *)
  e_linger : nat
}.

Definition given {A} (x : option A) : bool := match x with Some _ => true | None => false end.
Definition count (l : list bool) : nat := List.length (filter (fun b => b) l).
(* Python's truth of a string argument that may be missing; file objects are always true *)
Definition nonempty (x : option text) : bool := match x with Some (_ :: _) => true | _ => false end.

(* main.py:138-146: at most one of the options on verbosity, exactly one input; otherwise argparse exits *)
Definition groups_ok (c : cli) : bool :=
  (count [c_v c; c_vv c; c_q c; c_qn c] <=? 1)%nat &&
  (count [given (c_line c); given (c_line_file c); given (c_dimacs c)] =? 1)%nat.

(* main.py:224-249: the checks in their order; None: go on.  parser.error exits with status 2 *)
Definition checks (c : cli) : option Z :=
  if c_threads c <? 0 then Some 3
  else if negb (given (c_line c)) && negb (given (c_line_file c)) && negb (given (c_dimacs c)) then Some 3
  else if (nonempty (c_line c) && given (c_line_file c)) || (nonempty (c_line c) && given (c_dimacs c)) ||
          (given (c_dimacs c) && given (c_line_file c)) then Some 3
  else if c_gnm c && negb (c_gdb c) then Some 2
  else match c_multiply c with
       | Some (a, b) => if (a <=? 1) || (b <=? 1) then Some 2 else None
       | None => None
       end.

(* main.py:57-71: the input, by the truth of the arguments (InSL []: nothing, rejected by the reader) *)
Definition chosen_input (c : cli) : input :=
  match c_line c with
  | Some (ch :: t) => InSL (ch :: t)
  | _ => match c_line_file c with
         | Some (_, content) => InSLF content
         | None => match c_dimacs c with Some (_, content) => InDimacs content | None => InSL [] end
         end
  end.
(* main.py:111: input_content.name *)
Definition input_name (c : cli) : text :=
  match c_line_file c with
  | Some (name, _) => name
  | None => match c_dimacs c with Some (name, _) => name | None => [] end
  end.

(* the options as the solver and Main use them *)
Definition opts_of (c : cli) : opts :=
  mkOpts (c_mode c) (c_sort_by_size c) (c_thief c) (c_exit c) (c_rdb c) (c_gdb c) (c_gnm c) (c_no_stats c)
         (nonempty (c_graph c)).
Definition main_opts_of (c : cli) : main_opts :=
  mkMain (c_factorize c) (c_multiply c) (c_solution_file c) (c_verify c).

(* PatternSolver.py:134-139, 525: PAT.solve_set with as many processes as asked for; -gdb decides whether
   they share a table *)
Definition solver (e : env) (fuel lf : nat) (c : cli) : cset -> table -> result outcome :=
  let max := max_threads (e_cpus e) (c_threads c) in
  if c_gdb c
  then solve_set_sh (e_hash e) (e_insert_fails e) max (e_worker_fails e) (e_sched e) (e_linger e) fuel lf (opts_of c)
  else solve_set_mp (e_hash e) (e_insert_fails e) max (e_worker_fails e) (e_arrived e) fuel lf (opts_of c).

(* str.rfind of one character; -1 when it does not occur *)
Fixpoint rfind_from (ch : ascii) (t : text) (i : Z) (found : Z) : Z :=
  match t with
  | [] => found
  | a :: t' => rfind_from ch t' (i + 1) (if Ascii.eqb a ch then i else found)
  end.
Definition rfind (ch : ascii) (t : text) : Z := rfind_from ch t 0 (-1).
(* os.path.splitext(p)[0] (posixpath, genericpath._splitext) *)
Definition splitext_root (p : text) : text :=
  let sep := rfind "/"%char p in
  let dot := rfind "."%char p in
  if sep <? dot then
    if existsb (fun a => negb (Ascii.eqb a "."%char))
               (firstn (Z.to_nat (dot - (sep + 1))) (skipn (Z.to_nat (sep + 1)) p))
    then firstn (Z.to_nat dot) p else p
  else p.
(* configs.py:50-55 *)
Definition mode_text (m : mode) : text :=
  txt (match m with
       | MODE_FLO => "flo" | MODE_FLOP => "flop" | MODE_LOU => "lou" | MODE_LO => "lo" | MODE_NORMAL => "normal"
       end).
(* main.py:105-116 *)
Definition solution_file_name (name : text) (m : mode) : text :=
  splitext_root name ++ txt "_" ++ mode_text m ++ txt ".sol".

(* files written *)
Inductive file := GraphFile (dot : list dotcmd) | SolutionFile (t : text).
(* what the user sees *)
Inductive message :=
| MUniques (n : Z)                            (* print(self.uniques), PatternSolver.py:626-627 *)
| MReport (out : outcome) (lines : list line) (* logger.info(stats), :629-631 *)
| MWritten (name : text)                      (* main.py:117 *)
| MVerified (ok : bool)                       (* main.py:121-124 *)
| MError (e : exn)                            (* logger.critical, main.py:128-130 *)
| MRefused                                    (* Multiply.py:36, 55 *)
| MExcluded (a b : Z).                        (* main.py:93-94 *)

Inductive ending :=
| Exit (status : Z)                           (* before Main, with a message on the usage *)
| Ran (ans : answer) (written : list (text * file)) (shown : list message).   (* exit status 0 *)

(* the level of the logger: WARNING by default (configs.py:62), main.py:251-256; logger.info is seen with -v
   and -vv only *)
Definition info_seen (c : cli) : bool := c_v c || c_vv c.

(* PatternSolver.py:621-624, main.py:105-117 *)
Definition files_of (c : cli) (ans : answer) : list (text * file) :=
  match ans with
  | Report out _ f _ =>
      (match c_graph c with Some (ch :: t) => [(ch :: t, GraphFile (out_dot out))] | _ => [] end) ++
      (match f with Some t => [(solution_file_name (input_name c) (c_mode c), SolutionFile t)] | None => [] end)
  | _ => []
  end.
(* PatternSolver.py:626-631, main.py:117-130 *)
Definition shown_of (c : cli) (ans : answer) : list message :=
  match ans with
  | NoAnswer => []
  | MMain.Failed e => [MError e]
  | Refused => [MRefused]
  | FactorsExcluded => match c_multiply c with Some (a, b) => [MExcluded a b] | None => [] end
  | Report out lines f ver =>
      (if c_qn c then [MUniques (out_uniques out)] else []) ++
      (if info_seen c
       then (if c_q c || c_qn c then [] else [MReport out lines]) ++
            (match f with Some _ => [MWritten (solution_file_name (input_name c) (c_mode c))] | None => [] end) ++
            (match ver with Some b => [MVerified b] | None => [] end)
       else [])
  end.

(* main.py:133-261 *)
Definition command (e : env) (fuel lf : nat) (c : cli) (db : table) : result ending :=
  if negb (groups_ok c) then Ok (Exit 2)
  else match checks c with
       | Some status => Ok (Exit status)
       | None =>
           ans <- main_with (e_hash e) (solver e fuel lf c) (main_opts_of c) (chosen_input c) db ;;
           Ok (Ran ans (files_of c ans) (shown_of c ans))
       end.

Example splitext_ex :
  map splitext_root [txt "inputs/Multi11bit.txt"; txt ".cnf"; txt "a.b/c"; txt "..x.y.z"; txt "a."] =
  [txt "inputs/Multi11bit"; txt ".cnf"; txt "a.b/c"; txt "..x.y"; txt "a"].
Proof. reflexivity. Qed.
