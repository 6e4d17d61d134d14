(* MDb.v -- model of the global sets table of DbAdaptor.py.  A table is a finite map from hash to
   row.  Connections, transactions and other processes are not modelled; failures of the INSERT
   statement other than a uniqueness violation are an explicit parameter. *)
From Coq Require Import String Ascii ZArith List Bool.
From Verif Require Import PyBase MSet MText.
Import ListNotations.
Open Scope Z_scope.

(* DbAdaptor.py:61-75 (mapping and date_created are never read back) *)
Record row := mkRow {
  r_body : text;
  r_cid1 : digest;
  r_cid2 : digest;
  r_num_clauses : Z;
  r_num_vars : Z;
  r_unique : Z;
  r_redundant : Z;
  r_hits : Z;
  r_times : Z
}.
Definition table := list (digest * row).

(* configs.py:64-66 *)
Inductive db_status := SUCCESS | DB_UNIQUE_VIOLATION | DB_UNKNOWN_ERROR.

(* DbAdaptor.py:103-119.  [fails]: the statement or commit raises for another reason; the first
   except clause lists Exception, so this too is reported as DB_UNIQUE_VIOLATION. *)
Definition gs_insert_row (fails : bool) (t : table) (hash : digest) (body : text)
  (c1 c2 : digest) (nclauses nvars : Z) : db_status * table :=
  if fails || dmem text_eqb hash t then (DB_UNIQUE_VIOLATION, t)
  else (SUCCESS, t ++ [(hash, mkRow body c1 c2 nclauses nvars 0 0 0 0)]).

(* DbAdaptor.py:121-130 *)
Definition gs_does_hash_exist (t : table) (h : digest) : bool := dmem text_eqb h t.
(* DbAdaptor.py:134-144 *)
Definition gs_is_hash_solved (t : table) (h : digest) : bool :=
  match dget text_eqb h t with Some r => negb (r_unique r =? 0) | None => false end.
(* UPDATE ... WHERE hash = h *)
Definition update_row (f : row -> row) (t : table) (h : digest) : table :=
  map (fun kr => if text_eqb h (fst kr) then (fst kr, f (snd kr)) else kr) t.
(* DbAdaptor.py:146-158 *)
Definition gs_update_count (t : table) (u rn rh : Z) (h : digest) : table :=
  update_row (fun r => mkRow (r_body r) (r_cid1 r) (r_cid2 r) (r_num_clauses r) (r_num_vars r)
                             u rn rh (r_times r)) t h.
(* DbAdaptor.py:160-172 *)
Definition gs_update_redundant_times (t : table) (n : Z) (h : digest) : table :=
  update_row (fun r => mkRow (r_body r) (r_cid1 r) (r_cid2 r) (r_num_clauses r) (r_num_vars r)
                             (r_unique r) (r_redundant r) (r_hits r) (r_times r + n)) t h.
(* DbAdaptor.py:175-186 *)
Definition gs_load_solved_sets (t : table) (num_clauses : Z) : list (digest * (Z * Z)) :=
  map (fun kr => (fst kr, (r_unique (snd kr), r_redundant (snd kr))))
      (filter (fun kr => (r_num_clauses (snd kr) <=? num_clauses) && (0 <? r_unique (snd kr))) t).
(* DbAdaptor.py:189-200 *)
Definition gs_load_unsolved_sets (t : table) (num_clauses : Z) : list digest :=
  map fst
      (filter (fun kr => (r_num_clauses (snd kr) <=? num_clauses) && (r_unique (snd kr) =? 0)) t).
(* DbAdaptor.py:202-213 *)
Definition gs_get_set_data (t : table) (h : digest) : option row := dget text_eqb h t.
(* DbAdaptor.py:215-225; None models (None, None) *)
Definition gs_get_children (t : table) (h : digest) : option (digest * digest) :=
  match dget text_eqb h t with Some r => Some (r_cid1 r, r_cid2 r) | None => None end.
