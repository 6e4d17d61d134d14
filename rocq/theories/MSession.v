(* MSession.v -- the database the program works on across runs: the global tables by name (configs.py:39-40,
   PatternSolver.py:115-116, 497-501, DbAdaptor.py:59-100), delete_gdb.py and tools/create_global_table.py.
   PostgreSQL is modelled as a map from table names to contents.  Not modelled: the index names, which all
   global tables share (an index that exists is not created again; indexes do not change results), access
   rights, other users of the database. *)
From Coq Require Import String Ascii ZArith List Bool.
From Verif Require Import PyBase MSet MText MQueue MDb MSolver MMain MProc MShare MCli.
Import ListNotations.
Open Scope Z_scope.

Definition database := list (text * table).

(* str.lower, also the folding PostgreSQL applies to names that are not quoted *)
Definition lower_char (a : ascii) : ascii :=
  let n := nat_of_ascii a in if (65 <=? n)%nat && (n <=? 90)%nat then ascii_of_nat (n + 32) else a.
Definition lower (t : text) : text := map lower_char t.

(* PatternSolver.py:115-116 with configs.py:39 *)
Definition global_table_name (m : mode) : text := txt "globalsetstable_" ++ lower (mode_text m).

(* CREATE TABLE IF NOT EXISTS, the name not quoted (DbAdaptor.py:59-100) *)
Definition gs_create_table (name : text) (d : database) : database :=
  if dmem text_eqb (lower name) d then d else d ++ [(lower name, [])].
(* SELECT, INSERT, UPDATE quote the name; a table that does not exist yields no rows (the error is logged) *)
Definition content (d : database) (name : text) : table :=
  match dget text_eqb name d with Some t => t | None => [] end.
Definition store (name : text) (t : table) (d : database) : database :=
  map (fun kv => if text_eqb name (fst kv) then (fst kv, t) else kv) d.
(* DROP TABLE IF EXISTS, the name quoted (DbAdaptor.py:243-253) *)
Definition gs_drop_table (name : text) (d : database) : database :=
  filter (fun kv => negb (text_eqb name (fst kv))) d.

(* delete_gdb.py:27-32: the arguments of the script; true: the table was dropped, false: the usage is shown *)
Definition deletable : list text :=
  [txt "globalsetstable_lou"; txt "globalsetstable_lo"; txt "globalsetstable_flo"; txt "globalsetstable_flop"].
Definition delete_gdb (args : list text) (d : database) : database * bool :=
  match args with
  | name :: _ => if existsb (text_eqb name) deletable then (gs_drop_table name d, true) else (d, false)
  | [] => (d, false)
  end.

(* tools/create_global_table.py *)
Definition create_global_table (d : database) : database := gs_create_table (txt "GlobalSetsTable_lo") d.

(* main.py works on the table of its mode only.  The table is created after the input was read and normalised;
   a missing table is then empty.  This is the database after the table of this mode received the content t *)
Definition with_table (m : mode) (t : table) (d : database) : database :=
  store (global_table_name m) t (gs_create_table (global_table_name m) d).
