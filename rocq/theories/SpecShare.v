(* SpecShare.v -- vocabulary of the properties about worker processes on a shared global table.
   Definitions only. *)
From Coq Require Import String Ascii ZArith List Bool.
From Verif Require Import PyBase MSet MText MQueue MDb MSolver MProc MShare.
Import ListNotations.
Open Scope Z_scope.

(* every process moves again and again *)
Definition fair_sched (max : nat) (sched : nat -> action) : Prop :=
  forall t, (forall k, (k < max)%nat -> exists t', (t <= t')%nat /\ sched t' = Work k) /\
            exists t', (t <= t')%nat /\ sched t' = Poll.

(* the program with up to [max] worker processes on a shared table, run without any bound on its loops,
   ends with [out] *)
Definition ends_with_sh (hash : text -> digest) (insert_fails : digest -> bool) (max : nat)
  (worker_fails : nat -> bool) (sched : nat -> action) (linger : nat) (o : opts) (root : cset) (db : table)
  (out : outcome) : Prop :=
  exists N, forall fuel lf, (N <= fuel)%nat -> (N <= lf)%nat ->
    solve_set_sh hash insert_fails max worker_fails sched linger fuel lf o root db = Ok out.

(* the program never ends *)
Definition runs_forever_sh (hash : text -> digest) (insert_fails : digest -> bool) (max : nat)
  (worker_fails : nat -> bool) (sched : nat -> action) (linger : nat) (o : opts) (root : cset) (db : table) : Prop :=
  exists N, forall fuel lf, (N <= fuel)%nat -> (N <= lf)%nat ->
    solve_set_sh hash insert_fails max worker_fails sched linger fuel lf o root db = OutOfFuel.
