(* MShare.v -- model of PatternSolver.process_nodes_queue with worker processes that share the global
   table (options -gdb and -t): PatternSolver.py:274-293, 295-468, DbAdaptor.py:58-75, 103-119.
   A schedule interleaves the iterations of the workers with the rounds of the collecting loop of the main
   process; an iteration is atomic.  Without -gnm this is exact: the only access of an iteration to the
   table is the INSERT at its end (the primary key is deferred, so a duplicate is refused at commit).  With
   -gnm an iteration also reads the table, and the reads and the INSERT of different workers may interleave
   in more ways than here.
   Not modelled: logging, sleeping, transactions cut off by terminate() (they are rolled back). *)
From Coq Require Import String Ascii ZArith List Bool.
From Verif Require Import PyBase MSet MText MQueue MDb MSolver MProc.
Import ListNotations.
Open Scope Z_scope.

(* who moves next: worker k, or the main process with one round of its collecting loop *)
Inductive action := Work (k : nat) | Poll.

(* the shared table, the loop state of each worker (None: its loop is over), the main process *)
Record crew := mkCrew { cr_table : table; cr_procs : list (option pstate); cr_poll : poll }.

(* PatternSolver.py:459: qu.put in worker k *)
Definition deliver (k : nat) (rep : reply) (pl : poll) : poll :=
  mkPoll (map (fun w => if (w_no w =? k)%nat then mkWorker (w_no w) (w_node w) (Some rep) else w) (pl_workers pl))
         (pl_i pl) (pl_state pl).

Section Share.
  Variable hash : text -> digest.
  Variable insert_fails : digest -> bool.
  Variable o : opts.
  Variable seen_sets : list digest.
  Variable max : nat.                          (* self.max_threads *)
  Variable worker_fails : nat -> bool.         (* the worker with this number cannot set up its DB access *)
  Variable sched : nat -> action.
  (* how many moves the workers still make after the main process has decided to terminate them *)
  Variable linger : nat.

  (* worker k: one iteration of its loop (PatternSolver.py:295-389) on the shared table; or, when the loop
     condition fails, its answer (:459); an exception in the loop ends the process without an answer *)
  Definition work (lf : nat) (m : mode) (k : nat) (c : crew) : crew :=
    match nth_error (cr_procs c) k with
    | Some (Some p) =>
        if loop_done o p
        then mkCrew (cr_table c) (set_nth k None (cr_procs c))
                    (deliver k (Answer (p_sat p) (p_children p) (p_solution p)) (cr_poll c))
        else match step hash insert_fails o seen_sets lf m (with_db p (cr_table c)) with
             | Ok p' => mkCrew (p_db p') (set_nth k (Some p') (cr_procs c)) (cr_poll c)
             | _ => mkCrew (cr_table c) (set_nth k None (cr_procs c)) (cr_poll c)
             end
    | _ => c
    end.

  (* PatternSolver.py:445-451: the workers run on until terminate() has reached them *)
  Fixpoint lingering (n : nat) (lf : nat) (m : mode) (t : nat) (c : crew) : crew :=
    match n with
    | O => c
    | S n' => lingering n' lf m (S t) (match sched t with Work k => work lf m k c | Poll => c end)
    end.

  (* PatternSolver.py:416-456 together with the workers *)
  Fixpoint share_loop (fuel lf : nat) (m : mode) (t : nat) (c : crew) : result crew :=
    match pl_workers (cr_poll c) with
    | [] => Ok c
    | _ =>
        match fuel with
        | O => OutOfFuel
        | S f =>
            match sched t with
            | Work k => share_loop f lf m (S t) (work lf m k c)
            | Poll =>
                '(pl, stop) <- poll_step (o_exit o) (fun _ => true) (cr_poll c) ;;
                let c' := mkCrew (cr_table c) (cr_procs c) pl in
                if stop then Ok (lingering linger lf m (S t) c') else share_loop f lf m (S t) c'
            end
        end
    end.

  (* PatternSolver.py:274-293 in worker k: its first state; None when it reports failure *)
  Definition enter (k : nat) (node : cset) (db : table) : option pstate :=
    if worker_fails k then None
    else match start hash o node db with Ok p => Some p | _ => None end.
  Fixpoint enter_all (k : nat) (nodes : list cset) (db : table) : list (option pstate) :=
    match nodes with [] => [] | x :: t => enter k x db :: enter_all (S k) t db end.
  Fixpoint threads (k : nat) (nodes : list cset) (ps : list (option pstate)) : list worker :=
    match nodes, ps with
    | x :: t, p :: ps' => mkWorker k x (match p with None => Some Failed | Some _ => None end) :: threads (S k) t ps'
    | _, _ => []
    end.

  (* PatternSolver.py:394-458 *)
  Definition split_sh (fuel lf : nat) (m : mode) (p : pstate) : result pstate :=
    '(nodes, q) <- pop_n max (p_queue p) ;;
    let ps := enter_all 0 nodes (p_db p) in
    c <- share_loop fuel lf m 0 (mkCrew (p_db p) ps (mkPoll (threads 0 nodes ps) 0 (with_queue p q))) ;;
    Ok (with_db (pl_state (cr_poll c)) (cr_table c)).

  (* PatternSolver.py:295-458: the loop of the main process (compare MProc.run_mp) *)
  Fixpoint run_sh (fuel lf : nat) (m : mode) (generate : bool) (p : pstate) : result pstate :=
    if loop_done o p then Ok p
    else match fuel with
         | O => OutOfFuel
         | S f =>
             p1 <- step hash insert_fails o seen_sets lf m p ;;
             if generate && (0 <? max)%nat && (max =? queue_size (p_queue p1))%nat
             then p2 <- split_sh f lf m p1 ;; run_sh f lf m false p2
             else run_sh f lf m generate p1
         end.
End Share.

(* PatternSolver.py:470-550: solve_set with [max] worker processes on the shared table (compare
   MSolver.solve_set, MProc.solve_set_mp) *)
Definition solve_set_sh (hash : text -> digest) (insert_fails : digest -> bool) (max : nat)
  (worker_fails : nat -> bool) (sched : nat -> action) (linger : nat)
  (fuel lf : nat) (o : opts) (root : cset) (db : table) : result outcome :=
  _ <- to_pretty root ;;
  r <- prepare_root hash lf o root ;;
  let n := Z.of_nat (List.length (clauses r)) in
  let solved := loaded_solved o db n in
  let seen := loaded_seen o db n in
  if is_set_solved o solved (sid r) db then
    match gs_get_set_data db (sid r) with
    | None => Err TypeError
    | Some d => Ok (mkOut false None [] (r_unique d) (r_redundant d) (r_hits d) 1 db [])
    end
  else
    p0 <- start hash o r db ;;
    p <- run_sh hash insert_fails o seen max worker_fails sched linger fuel lf (input_mode o) (0 <? max)%nat p0 ;;
    if o_no_stats o then
      Ok (mkOut (p_sat p) (p_solution p) (p_children p) (p_uniques p) 0 (p_hits p)
                (p_found p) (p_db p) (p_dot p))
    else
      '(stats, rr) <- construct_graph_stats fuel (sid r) (p_children p) ;;
      let '(u, rn, rh) := match dget text_eqb (sid r) stats with
                          | Some x => x | None => zero_stats end in
      Ok (mkOut (p_sat p) (p_solution p) (p_children p) u rn rh (p_found p)
                (if o_gdb o then save_in_global_db stats rr (p_db p) else p_db p) (p_dot p)).

(* an example of a schedule: n workers and the main process in turn; and of options: -gdb *)
Definition round_robin (n : nat) (t : nat) : action :=
  let k := (t mod S n)%nat in if (k <? n)%nat then Work k else Poll.
Definition gdb_opts : opts := mkOpts MODE_FLO false false false false true false false false.
