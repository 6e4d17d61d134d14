(* MQueue.v -- model of SuperQueue.py and of the runtime-queue table of DbAdaptor.py. *)
From Coq Require Import String Ascii ZArith List Bool.
From Verif Require Import PyBase MSet MText.
Import ListNotations.
Open Scope Z_scope.

(* DbAdaptor.py:257-303: table rows id -> (body, properties), id is the primary key.  A failed
   INSERT leaves the connection in an aborted transaction (no rollback is issued), so every later
   statement on it fails: [rt_broken]. *)
Record rtable := mkRT { rt_rows : list (digest * (text * text)); rt_broken : bool }.

(* DbAdaptor.py:278-291 *)
Definition rtq_insert_set (t : rtable) (id : digest) (body props : text) : rtable :=
  if rt_broken t then t
  else if dmem text_eqb id (rt_rows t) then mkRT (rt_rows t) true
  else mkRT (rt_rows t ++ [(id, (body, props))]) false.

(* DbAdaptor.py:293-303; None when the statement or the row access fails *)
Definition rtq_get_set (t : rtable) (id : digest) : option (digest * text * text) :=
  if rt_broken t then None
  else match dget text_eqb id (rt_rows t) with
       | Some (b, p) => Some (id, b, p)
       | None => None
       end.

(* SuperQueue.py:39-53 with unique_queue=False (the only use in the program,
   PatternSolver.py:283) *)
Record squeue := mkQ {
  q_use_db : bool;
  q_objs : list cset;
  q_ids : list digest;
  q_table : rtable
}.
Definition queue_init (use_runtime_db : bool) : squeue :=
  mkQ use_runtime_db [] [] (mkRT [] false).

(* SuperQueue.py:61-74 *)
Definition queue_insert (q : squeue) (item : cset) : result squeue :=
  if q_use_db q then
    body <- to_text item ;;
    Ok (mkQ true (q_objs q) (q_ids q ++ [sid item])
            (rtq_insert_set (q_table q) (sid item) body (serialize_properties item)))
  else Ok (mkQ false (q_objs q ++ [item]) (q_ids q) (q_table q)).

(* SuperQueue.py:76-95; popleft on an empty deque raises IndexError, unpacking None TypeError *)
Definition queue_pop (q : squeue) : result (cset * squeue) :=
  if q_use_db q then
    match q_ids q with
    | [] => Err IndexError
    | i :: rest =>
        match rtq_get_set (q_table q) i with
        | None => Err TypeError
        | Some (id, body, props) =>
            item <- set_init body props ;;
            Ok (set_id item id, mkQ true (q_objs q) rest (q_table q))
        end
    end
  else
    match q_objs q with
    | [] => Err IndexError
    | item :: rest => Ok (item, mkQ false rest (q_ids q) (q_table q))
    end.

(* SuperQueue.py:97-107 *)
Definition queue_size (q : squeue) : nat :=
  if q_use_db q then List.length (q_ids q) else List.length (q_objs q).
Definition queue_is_empty (q : squeue) : bool := (queue_size q =? 0)%nat.

(* ---- unique_queue=True (constructor option, not used by the program) ----
   Items are Python objects compared by identity (class Set defines no __eq__), here numbered;
   an OrderedSet is a duplicate-free list, append returns the element's index. *)
Inductive uref := UObj (n : nat) | UId (n : nat).   (* an object, or the id of object n *)
Definition uref_eqb (a b : uref) : bool :=
  match a, b with
  | UObj m, UObj n | UId m, UId n => (m =? n)%nat
  | _, _ => false
  end.
Definition os_mem (x : uref) (l : list uref) : bool := existsb (uref_eqb x) l.
Definition os_append (x : uref) (l : list uref) : list uref := if os_mem x l then l else l ++ [x].
Definition os_remove (x : uref) (l : list uref) : list uref :=
  filter (fun y => negb (uref_eqb x y)) l.
Record uqueue := mkUQ { uq_use_db : bool; uq_objs : list uref; uq_ids : list uref;
                        uq_rows : list nat; uq_broken : bool }.
Definition uq_init (db : bool) : uqueue := mkUQ db [] [] [] false.
(* SuperQueue.py:61-74: len(ids) > ids.append(item) holds iff item was already in ids.  A repeated
   row id violates the primary key and aborts the transaction, as in [rtq_insert_set]. *)
Definition uq_insert (q : uqueue) (n : nat) : uqueue :=
  let seen := os_mem (UObj n) (uq_ids q) in
  let ids1 := os_append (UObj n) (uq_ids q) in
  if seen then mkUQ (uq_use_db q) (uq_objs q) ids1 (uq_rows q) (uq_broken q)
  else if uq_use_db q then
    let dup := existsb (Nat.eqb n) (uq_rows q) in
    mkUQ true (uq_objs q) (os_append (UId n) ids1)
         (if uq_broken q || dup then uq_rows q else uq_rows q ++ [n]) (uq_broken q || dup)
  else mkUQ false (os_append (UObj n) (uq_objs q)) ids1 (uq_rows q) (uq_broken q).
(* SuperQueue.py:76-95: answer and state afterwards.  With the DB, objid is whatever comes first in
   idsqueue, and it is removed before the look-up; looking up an object instead of an id makes the
   statement fail on the client side, and unpacking None raises TypeError. *)
Definition uq_pop (q : uqueue) : result nat * uqueue :=
  if uq_use_db q then
    match uq_ids q with
    | [] => (Err IndexError, q)
    | x :: rest =>
        let q' := mkUQ true (uq_objs q) (os_remove x (uq_ids q)) (uq_rows q) (uq_broken q) in
        match x with
        | UObj n => (Err TypeError, q')
        | UId n => if negb (uq_broken q) && existsb (Nat.eqb n) (uq_rows q) then (Ok n, q')
                   else (Err TypeError, q')
        end
    end
  else
    match uq_objs q with
    | [] => (Err IndexError, q)
    | UObj n :: _ =>
        (Ok n, mkUQ false (os_remove (UObj n) (uq_objs q)) (uq_ids q) (uq_rows q) (uq_broken q))
    | UId _ :: _ => (Err TypeError, q)
    end.
(* SuperQueue.py:97-103 *)
Definition uq_size (q : uqueue) : nat :=
  if uq_use_db q then List.length (uq_ids q) else List.length (uq_objs q).
