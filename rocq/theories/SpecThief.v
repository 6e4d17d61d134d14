(* SpecThief.v -- vocabulary of the properties about the origin and the order of the clauses of a set.
   Definitions only. *)
From Coq Require Import ZArith List Bool.
From Verif Require Import Spec PyBase MSet SpecRun.
Import ListNotations.
Open Scope Z_scope.

(* the input variable behind variable v of a set (Set.py:392) *)
Definition input_name (s : cset) (v : Z) : Z :=
  match name_at s v with
  | Some n => match dget Z.eqb n (original_values s) with Some x => x | None => v end
  | None => v
  end.

(* the clauses of the input that the assignment d leaves open, and what it leaves of a clause *)
Definition open_clauses (d : list (Z * bool)) (cs : list clause) : list clause :=
  filter (fun D => negb (existsb (satisfied_by d) (raw D))) cs.
Definition open_literals (d : list (Z * bool)) (c : list Z) : list Z :=
  filter (fun l => negb (assigned_by d l)) c.

(* c comes before d: it is shorter, or of the same length and not later in the input *)
Definition thief_before (c d : clause) : Prop :=
  (List.length (raw c) < List.length (raw d))%nat \/
  List.length (raw c) = List.length (raw d) /\ initial_index c <= initial_index d.
