(* MProc.v -- model of the multi-process part of PatternSolver.process_nodes_queue: splitting the
   pending sets over worker processes and collecting their answers (PatternSolver.py:395-468).
   Not modelled: a global DB shared by the processes (all uses have o_gdb = false), logging, sleeping,
   the operating-system side of terminating processes. *)
From Coq Require Import String Ascii ZArith List Bool.
From Verif Require Import PyBase MSet MText MQueue MDb MSolver.
Import ListNotations.
Open Scope Z_scope.

(* PatternSolver.py:134-139: -t 0 means twice the number of cores, -t 1 no further processes *)
Definition max_threads (cpu_count threads : Z) : nat :=
  if threads =? 0 then Z.to_nat (cpu_count * 2)
  else if 1 <? threads then Z.to_nat threads else 0%nat.

(* what a worker puts into its queue: (None, None, None) when it could not set up its database access or
   work queue (PatternSolver.py:287-293), otherwise verdict, graph and solution (:459) *)
Inductive reply := Failed
  | Answer (sat : bool) (children : list (digest * list digest)) (solution : option (list (Z * bool))).

(* an entry of self.threads: process number, T.node, and what will still arrive in T.qu; None when
   nothing (more) will: the answer was taken out, or the worker died in its loop *)
Record worker := mkWorker { w_no : nat; w_node : cset; w_reply : option reply }.

(* PatternSolver.py:430-433 *)
Definition merge_children (g g' : list (digest * list digest)) : list (digest * list digest) :=
  fold_left (fun acc kv =>
               match dget text_eqb (fst kv) acc with
               | Some (a :: l) => if (List.length (snd kv) <=? List.length (a :: l))%nat then acc
                                  else dset text_eqb (fst kv) (snd kv) acc
               | _ => dset text_eqb (fst kv) (snd kv) acc
               end) g' g.

(* PatternSolver.py:430-440: an answer enters the local variables of the main process *)
Definition absorb (p : pstate) (sat : bool) (children : list (digest * list digest))
  (solution : option (list (Z * bool))) : pstate :=
  let p1 := with_children p (merge_children (p_children p) children) in
  let p2 := with_sat p1 (p_sat p1 || sat) in
  if solution_truthy solution then with_solution p2 solution else p2.

(* local variables of the collecting loop: self.threads, i, and those of process_nodes_queue *)
Record poll := mkPoll { pl_workers : list worker; pl_i : nat; pl_state : pstate }.

Fixpoint set_nth {A} (i : nat) (x : A) (l : list A) : list A :=
  match l, i with
  | [], _ => []
  | _ :: t, O => x :: t
  | a :: t, S j => a :: set_nth j x t
  end.
Fixpoint pop_nth {A} (i : nat) (l : list A) : list A :=
  match l, i with
  | [], _ => []
  | _ :: t, O => t
  | a :: t, S j => a :: pop_nth j t
  end.

(* PatternSolver.py:417-456: one round; [arrived] says whether qu.get(False) finds the answer of the
   worker looked at; the flag is set when the loop is left by "break" *)
Definition poll_step (exit : bool) (arrived : nat -> bool) (st : poll) : result (poll * bool) :=
  let i := (pl_i st mod List.length (pl_workers st))%nat in
  match nth_error (pl_workers st) i with
  | None => Err IndexError
  | Some w =>
      match w_reply w with
      | Some rep =>
          if arrived (w_no w) then
            match rep with
            | Failed =>                                                    (* :427-428 *)
                q <- queue_insert (p_queue (pl_state st)) (w_node w) ;;
                Ok (mkPoll (set_nth i (mkWorker (w_no w) (w_node w) None) (pl_workers st)) i
                           (with_queue (pl_state st) q), false)
            | Answer sat children sol =>                                   (* :429-453 *)
                let p := absorb (pl_state st) sat children sol in
                if solution_truthy sol && exit
                then Ok (mkPoll (pl_workers st) i p, true)
                else Ok (mkPoll (pop_nth i (pl_workers st)) i p, false)
            end
          else Ok (mkPoll (pl_workers st) (S i) (pl_state st), false)      (* :454-456 *)
      | None => Ok (mkPoll (pl_workers st) (S i) (pl_state st), false)
      end
  end.

(* PatternSolver.py:416-456; [arrived t k]: the answer of worker k is there in round t *)
Fixpoint poll_loop (fuel : nat) (exit : bool) (arrived : nat -> nat -> bool) (t : nat) (st : poll)
  : result poll :=
  match pl_workers st with
  | [] => Ok st
  | _ => match fuel with
         | O => OutOfFuel
         | S f => '(st', stop) <- poll_step exit (arrived t) st ;;
                  if stop then Ok st' else poll_loop f exit arrived (S t) st'
         end
  end.

(* PatternSolver.py:400-409: remove the sets to hand out *)
Fixpoint pop_n (k : nat) (q : squeue) : result (list cset * squeue) :=
  match k with
  | O => Ok ([], q)
  | S k => '(x, q1) <- queue_pop q ;; '(xs, q2) <- pop_n k q1 ;; Ok (x :: xs, q2)
  end.

Section Processes.
  Variable hash : text -> digest.
  Variable insert_fails : digest -> bool.
  Variable o : opts.
  Variable seen_sets : list digest.
  Variable max : nat.                          (* self.max_threads *)
  Variable worker_fails : nat -> bool.         (* the worker with this number reports failure *)
  Variable arrived : nat -> nat -> bool.

  (* a worker runs process_nodes_queue on its own copy of everything, without further processes; it
     answers nothing when that raises an exception or does not end *)
  Definition worker_reply (fuel lf : nat) (m : mode) (db : table) (k : nat) (node : cset) : option reply :=
    if worker_fails k then Some Failed
    else match process_nodes_queue hash insert_fails o seen_sets fuel lf m node db with
         | Ok p => Some (Answer (p_sat p) (p_children p) (p_solution p))
         | _ => None
         end.
  Fixpoint start_workers (fuel lf : nat) (m : mode) (db : table) (k : nat) (nodes : list cset) : list worker :=
    match nodes with
    | [] => []
    | x :: t => mkWorker k x (worker_reply fuel lf m db k x) :: start_workers fuel lf m db (S k) t
    end.

  (* PatternSolver.py:394-458 *)
  Definition split_work (fuel lf : nat) (m : mode) (p : pstate) : result pstate :=
    '(nodes, q) <- pop_n max (p_queue p) ;;
    st <- poll_loop fuel (o_exit o) arrived 0
            (mkPoll (start_workers fuel lf m (p_db p) 0 nodes) 0 (with_queue p q)) ;;
    Ok (pl_state st).

  (* PatternSolver.py:295-458: the loop of the main process; len(self.threads) is 0 before the split *)
  Fixpoint run_mp (fuel lf : nat) (m : mode) (generate : bool) (p : pstate) : result pstate :=
    if loop_done o p then Ok p
    else match fuel with
         | O => OutOfFuel
         | S f =>
             p1 <- step hash insert_fails o seen_sets lf m p ;;
             if generate && (0 <? max)%nat && (max =? queue_size (p_queue p1))%nat
             then p2 <- split_work f lf m p1 ;; run_mp f lf m false p2
             else run_mp f lf m generate p1
         end.
End Processes.

(* PatternSolver.py:470-550: solve_set with [max] worker processes (compare MSolver.solve_set) *)
Definition solve_set_mp (hash : text -> digest) (insert_fails : digest -> bool) (max : nat)
  (worker_fails : nat -> bool) (arrived : nat -> nat -> bool)
  (fuel lf : nat) (o : opts) (root : cset) (db : table) : result outcome :=
  _ <- to_pretty root ;;
  r <- prepare_root hash lf o root ;;
  let n := Z.of_nat (List.length (clauses r)) in
  let solved := loaded_solved o db n in
  let seen := loaded_seen o db n in
  if is_set_solved o solved (sid r) db then
    match gs_get_set_data db (sid r) with
    | None => Err TypeError
    | Some d => Ok (mkOut false None [] (r_unique d) (r_redundant d) (r_hits d) 1 db [])
    end
  else
    p0 <- start hash o r db ;;
    p <- run_mp hash insert_fails o seen max worker_fails arrived fuel lf (input_mode o) (0 <? max)%nat p0 ;;
    if o_no_stats o then
      Ok (mkOut (p_sat p) (p_solution p) (p_children p) (p_uniques p) 0 (p_hits p)
                (p_found p) (p_db p) (p_dot p))
    else
      '(stats, rr) <- construct_graph_stats fuel (sid r) (p_children p) ;;
      let '(u, rn, rh) := match dget text_eqb (sid r) stats with
                          | Some x => x | None => zero_stats end in
      Ok (mkOut (p_sat p) (p_solution p) (p_children p) u rn rh (p_found p)
                (if o_gdb o then save_in_global_db stats rr (p_db p) else p_db p) (p_dot p)).

