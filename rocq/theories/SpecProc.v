(* SpecProc.v -- vocabulary of the properties about several processes.  Definitions only. *)
From Coq Require Import String Ascii ZArith List Bool.
From Verif Require Import PyBase MSet MText MQueue MDb MSolver MProc SpecRun.
Import ListNotations.
Open Scope Z_scope.

(* every answer is there at last, and stays there until it is taken *)
Definition fair (arrived : nat -> nat -> bool) : Prop :=
  forall k, exists T, forall t, (T <= t)%nat -> arrived t k = true.

(* the program with up to [max] worker processes, run without any bound on its loops, ends with [out] *)
Definition ends_with_mp (hash : text -> digest) (insert_fails : digest -> bool) (max : nat)
  (worker_fails : nat -> bool) (arrived : nat -> nat -> bool) (o : opts) (root : cset) (db : table)
  (out : outcome) : Prop :=
  exists N, forall fuel lf, (N <= fuel)%nat -> (N <= lf)%nat ->
    solve_set_mp hash insert_fails max worker_fails arrived fuel lf o root db = Ok out.

(* the program never ends *)
Definition runs_forever_mp (hash : text -> digest) (insert_fails : digest -> bool) (max : nat)
  (worker_fails : nat -> bool) (arrived : nat -> nat -> bool) (o : opts) (root : cset) (db : table) : Prop :=
  exists N, forall fuel lf, (N <= fuel)%nat -> (N <= lf)%nat ->
    solve_set_mp hash insert_fails max worker_fails arrived fuel lf o root db = OutOfFuel.

(* the first moment, after at least one step of the main process, at which [max] sets are waiting:
   p is the state then; the sets waiting are handed out to the workers, in this order *)
Definition hands_out (hash : text -> digest) (insert_fails : digest -> bool) (max : nat) (o : opts)
  (root : cset) (db : table) (p : pstate) (waiting : list cset) : Prop :=
  exists lf r p0 xs, prepare_root hash lf o root = Ok r /\ start hash o r db = Ok p0 /\ xs <> [] /\
    exec hash insert_fails o [] lf (branch_mode o) p0 xs p /\
    queue_size (p_queue p) = max /\ drains (p_queue p) waiting /\
    forall ys zs q, xs = ys ++ zs -> ys <> [] -> zs <> [] ->
      exec hash insert_fails o [] lf (branch_mode o) p0 ys q -> queue_size (p_queue q) <> max.
