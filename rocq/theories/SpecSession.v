(* SpecSession.v -- vocabulary of the properties about sequences of runs on one database.  Definitions only. *)
From Coq Require Import String Ascii ZArith List Bool.
From Verif Require Import Spec PyBase MSet MText MQueue MDb MSolver MMain MProc MShare MCli MSession SpecInput SpecRun SpecProc SpecShare SpecCli.
Import ListNotations.
Open Scope Z_scope.

(* the rows of the global table of a mode *)
Definition rows_of (d : database) (m : mode) : table := content d (txt "globalsetstable_" ++ mode_name m).

(* the statements the program sends to a global table: a count written is positive *)
Definition statement (op : tab_op) : Prop :=
  match op with TCount u _ _ _ => 0 < u | _ => True end.

(* what users do with the database *)
Inductive event :=
| Runs (e : env) (c : cli) (r : ending)     (* the program is started and ends so *)
| CutOff (c : cli) (ops : list tab_op)      (* the program is started and killed after these statements *)
| Deletes (args : list text)                (* delete_gdb.py *)
| Creates.                                  (* tools/create_global_table.py *)

Inductive happens (d : database) : event -> database -> Prop :=
| h_report e c out lines file ver written shown :   (* a run with a report leaves its table *)
    command_ends e c (rows_of d (c_mode c)) (Ran (Report out lines file ver) written shown) ->
    happens d (Runs e c (Ran (Report out lines file ver) written shown))
      (if c_gdb c then with_table (c_mode c) (out_db out) d else d)
| h_failed e c x written shown ops :                (* one that fails may have changed the table before *)
    command_ends e c (rows_of d (c_mode c)) (Ran (MMain.Failed x) written shown) -> Forall statement ops ->
    happens d (Runs e c (Ran (MMain.Failed x) written shown))
      (if c_gdb c then with_table (c_mode c) (tab_run ops (rows_of d (c_mode c))) d else d)
| h_nothing e c r :                                 (* any other one never gets to the database *)
    command_ends e c (rows_of d (c_mode c)) r ->
    (forall out lines file ver written shown, r <> Ran (Report out lines file ver) written shown) ->
    (forall x written shown, r <> Ran (MMain.Failed x) written shown) ->
    happens d (Runs e c r) d
| h_cut c ops : Forall statement ops ->
    happens d (CutOff c ops) (if c_gdb c then with_table (c_mode c) (tab_run ops (rows_of d (c_mode c))) d else d)
| h_delete args : happens d (Deletes args) (fst (delete_gdb args d))
| h_create : happens d Creates (create_global_table d).

Inductive session (d : database) : list event -> database -> Prop :=
| s_start : session d [] d
| s_next evs d1 ev d2 : session d evs d1 -> happens d1 ev d2 -> session d (evs ++ [ev]) d2.

(* an event that uses the global table of this mode *)
Definition uses (m : mode) (ev : event) : Prop :=
  match ev with
  | Runs _ c _ | CutOff c _ => c_gdb c = true /\ c_mode c = m
  | _ => False
  end.
(* an event that deletes the global table of this mode *)
Definition deletes (m : mode) (ev : event) : Prop :=
  match ev with Deletes (name :: _) => name = txt "globalsetstable_" ++ mode_name m /\ m <> MODE_NORMAL | _ => False end.

(* the two command lines pose the same problem in the same way *)
Definition same_problem (c1 c2 : cli) : Prop :=
  chosen_input c1 = chosen_input c2 /\ c_factorize c1 = c_factorize c2 /\ c_multiply c1 = c_multiply c2 /\
  c_mode c1 = c_mode c2 /\ c_sort_by_size c1 = c_sort_by_size c2 /\ c_thief c1 = c_thief c2.

(* the line of the report without a solution that stands where this line stands with one *)
Definition denied (l : line) : line :=
  match l with
  | LFactors n _ _ | LFactorsWrong n _ _ | LPrime n => LPrime n
  | LProduct a b _ | LProductWrong a b _ | LNoProduct a b => LNoProduct a b
  end.

(* the table of this mode was not used since it was last deleted, or ever *)
Definition unused (m : mode) (evs : list event) : Prop :=
  exists before after, evs = before ++ after /\
    (before = [] \/ exists b ev, before = b ++ [ev] /\ deletes m ev) /\
    forall ev, In ev after -> ~ uses m ev.
