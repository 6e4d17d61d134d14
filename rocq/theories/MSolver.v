(* MSolver.v -- model of PatternSolver.py: the search loop, the statistics, solve_set.
   Not modelled: logging, timing, memory usage, the recursion limit, labels of the drawn graph. *)
From Coq Require Import String Ascii ZArith List Bool.
From Verif Require Import PyBase MSet MText MQueue MDb.
Import ListNotations.
Open Scope Z_scope.

(* command-line options that influence the search (main.py:148-169) *)
Record opts := mkOpts {
  o_mode : mode;              (* -m *)
  o_sort_by_size : bool;      (* -z *)
  o_thief : bool;             (* -thief *)
  o_exit : bool;              (* -e *)
  o_rdb : bool;               (* -rdb *)
  o_gdb : bool;               (* -gdb *)
  o_no_mem : bool;            (* -gnm *)
  o_no_stats : bool;          (* -ns *)
  o_graph : bool              (* -g *)
}.

(* configs.py:43-45 *)
Inductive status := NODE_UNIQUE | NODE_REDUNDANT | NODE_EVALUATED.

(* calls on the graphviz object (PatternSolver.py:355-374); [DotNode] carries the set that its label is
   made of (MDot.v), the other labels are omitted *)
Inductive dotcmd := DotNode (id : digest) (shown : cset) | DotRed (id : digest) | DotEdge (a b : digest)
                  | DotLeaf (v : bool) | DotLeafEdge (a : digest) (v : bool).

(* local variables of process_nodes_queue and the counters of the solver object it updates *)
Record pstate := mkP {
  p_queue : squeue;
  p_children : list (digest * list digest);   (* nodes_children *)
  p_sat : bool;                               (* is_satisfiable *)
  p_solution : option (list (Z * bool));      (* solution *)
  p_uniques : Z;
  p_hits : Z;                                 (* redundant_hits *)
  p_redundant_ids : list (digest * Z);
  p_leaves : list digest;
  p_found : Z;                                (* nodes_found_in_gdb *)
  p_db : table;
  p_dot : list dotcmd
}.
Definition with_queue (p : pstate) (q : squeue) : pstate :=
  mkP q (p_children p) (p_sat p) (p_solution p) (p_uniques p) (p_hits p) (p_redundant_ids p)
      (p_leaves p) (p_found p) (p_db p) (p_dot p).
Definition with_children (p : pstate) (c : list (digest * list digest)) : pstate :=
  mkP (p_queue p) c (p_sat p) (p_solution p) (p_uniques p) (p_hits p) (p_redundant_ids p)
      (p_leaves p) (p_found p) (p_db p) (p_dot p).
Definition with_sat (p : pstate) (b : bool) : pstate :=
  mkP (p_queue p) (p_children p) b (p_solution p) (p_uniques p) (p_hits p) (p_redundant_ids p)
      (p_leaves p) (p_found p) (p_db p) (p_dot p).
Definition with_solution (p : pstate) (s : option (list (Z * bool))) : pstate :=
  mkP (p_queue p) (p_children p) (p_sat p) s (p_uniques p) (p_hits p) (p_redundant_ids p)
      (p_leaves p) (p_found p) (p_db p) (p_dot p).
Definition add_unique (p : pstate) : pstate :=
  mkP (p_queue p) (p_children p) (p_sat p) (p_solution p) (p_uniques p + 1) (p_hits p)
      (p_redundant_ids p) (p_leaves p) (p_found p) (p_db p) (p_dot p).
Definition add_hit (p : pstate) (id : digest) : pstate :=
  mkP (p_queue p) (p_children p) (p_sat p) (p_solution p) (p_uniques p) (p_hits p + 1)
      (dset text_eqb id 1 (p_redundant_ids p)) (p_leaves p) (p_found p) (p_db p) (p_dot p).
Definition add_leaf (p : pstate) (id : digest) : pstate :=
  mkP (p_queue p) (p_children p) (p_sat p) (p_solution p) (p_uniques p) (p_hits p)
      (p_redundant_ids p) (p_leaves p ++ [id]) (p_found p) (p_db p) (p_dot p).
Definition add_found (p : pstate) : pstate :=
  mkP (p_queue p) (p_children p) (p_sat p) (p_solution p) (p_uniques p) (p_hits p)
      (p_redundant_ids p) (p_leaves p) (p_found p + 1) (p_db p) (p_dot p).
Definition with_db (p : pstate) (t : table) : pstate :=
  mkP (p_queue p) (p_children p) (p_sat p) (p_solution p) (p_uniques p) (p_hits p)
      (p_redundant_ids p) (p_leaves p) (p_found p) t (p_dot p).
Definition add_dot (graph : bool) (p : pstate) (cmds : list dotcmd) : pstate :=
  mkP (p_queue p) (p_children p) (p_sat p) (p_solution p) (p_uniques p) (p_hits p)
      (p_redundant_ids p) (p_leaves p) (p_found p) (p_db p)
      (if graph then p_dot p ++ cmds else p_dot p).

(* nodes_children[k].append(x): KeyError if k is missing *)
Definition append_child (k x : digest) (d : list (digest * list digest))
  : result (list (digest * list digest)) :=
  match dget text_eqb k d with
  | Some l => Ok (dset text_eqb k (l ++ [x]) d)
  | None => Err KeyError
  end.

(* PatternSolver.py:326-327: dict(sorted(solution.items())) (keys are distinct) *)
Definition sort_items (d : list (Z * bool)) : list (Z * bool) :=
  sort_by (fun a b => fst a <? fst b) d.

(* bool(solution) *)
Definition solution_truthy (s : option (list (Z * bool))) : bool :=
  match s with Some (_ :: _) => true | _ => false end.

Section Solver.
  (* SHA-1 digest of an ASCII text *)
  Variable hash : text -> digest.
  (* the INSERT of the row with this hash fails for a reason other than uniqueness *)
  Variable insert_fails : digest -> bool.
  Variable o : opts.
  (* hashes loaded at start-up: PatternSolver.py:147-155 (seen_sets, solved_sets) *)
  Variable seen_sets : list digest.
  Variable solved_sets : list (digest * (Z * Z)).

  Definition TRUE_SET_HASH : digest := hash (txt "T").    (* PatternSolver.py:67 *)
  Definition FALSE_SET_HASH : digest := hash (txt "F").   (* PatternSolver.py:68 *)

  (* PatternSolver.py:188-193 *)
  Definition is_set_in_gdb (h : digest) (t : table) : bool :=
    if o_no_mem o then gs_does_hash_exist t h
    else existsb (text_eqb h) seen_sets.

  (* PatternSolver.py:195-200; solved_sets values are [unique, redundant] lists, hence truthy *)
  Definition is_set_solved (h : digest) (t : table) : bool :=
    if o_no_mem o then gs_is_hash_solved t h
    else dmem text_eqb h solved_sets.

  (* PatternSolver.py:163-181, one child; None = give up, return (None, None) *)
  Definition child_from_gdb (t : table) (child_hash : digest) : option cset :=
    if text_eqb child_hash TRUE_SET_HASH then Some (set_value empty_set (Some true))
    else if text_eqb child_hash FALSE_SET_HASH then Some (set_value empty_set (Some false))
    else match gs_get_set_data t child_hash with
         | None => None
         | Some r => Some (set_hash (set_of_text (r_body r)) (Some child_hash))
         end.
  (* PatternSolver.py:157-183 *)
  Definition get_children_from_gdb (t : table) (h : digest) : option (cset * cset) :=
    match gs_get_children t h with
    | None => None
    | Some (c1, c2) =>
        match child_from_gdb t c1 with
        | None => None
        | Some s1 => match child_from_gdb t c2 with
                     | None => None
                     | Some s2 => Some (s1, s2)
                     end
        end
    end.

  (* PatternSolver.py:315-374: body of "for child in (s1, s2)".
     [m] is input_mode, [pulled] children_pulled_from_gdb, [pid] cnf_set.id. *)
  Definition process_child (lf : nat) (m : mode) (pulled : bool) (pid : digest) (child : cset)
    (p : pstate) : result (cset * status * pstate) :=
    _ <- to_pretty child ;;                                   (* :316 child_str_before *)
    '(child1, st, p1) <-
      match svalue child with
      | Some v =>                                             (* :319-329 *)
          Ok (child, NODE_EVALUATED,
              if v then match p_solution p with
                        | None => with_solution p (Some (sort_items (evaluated_vars child)))
                        | Some _ => p
                        end
              else p)
      | None =>                                               (* :330-342 *)
          c1 <- (if pulled then Ok child
                 else c <- to_lo_condition lf m (o_sort_by_size o) (o_thief o) child ;;
                      '(_, c') <- get_hash hash true c ;; Ok c') ;;
          '(h, c2) <- get_hash hash false c1 ;;
          Ok (set_id c2 h,
              (if dmem text_eqb h (p_children p) then NODE_REDUNDANT else NODE_UNIQUE), p)
      end ;;
    _ <- to_pretty child1 ;;                                  (* :344 *)
    '(_, child2) <- get_hash hash false child1 ;;             (* :345 *)
    match st with
    | NODE_UNIQUE =>                                          (* :347-356 *)
        d <- append_child pid (sid child2) (dset text_eqb (sid child2) [] (p_children p1)) ;;
        Ok (child2, st,
            add_dot (o_graph o) (with_children (add_unique p1) d)
                    [DotNode (sid child2) child2; DotEdge pid (sid child2)])
    | NODE_REDUNDANT =>                                       (* :358-365 *)
        d <- append_child pid (sid child2) (p_children p1) ;;
        Ok (child2, st,
            add_dot (o_graph o) (with_children (add_hit p1 (sid child2)) d)
                    [DotRed (sid child2); DotEdge pid (sid child2)])
    | NODE_EVALUATED =>                                       (* :367-373 *)
        let v := match svalue child2 with Some true => true | _ => false end in
        Ok (child2, st,
            add_dot (o_graph o) (if v then with_sat p1 true else p1)
                    [DotLeaf v; DotLeafEdge pid v])
    end.

  (* PatternSolver.py:202-229 *)
  Definition last_error {A} (l : list A) : option A := hd_error (rev l).
  Definition save_parent_children (cnf : cset) (h1 h2 : digest) (p : pstate)
    : result (db_status * pstate) :=
    '(h, _) <- get_hash hash false cnf ;;
    nvars <- match last_error (clauses cnf) with
             | None => Ok 0
             | Some c => x <- of_option IndexError (last_error (raw c)) ;; Ok (Z.abs x)
             end ;;
    if o_gdb o && negb (is_set_in_gdb h (p_db p)) then
      body <- to_text cnf ;;
      let '(st, t) := gs_insert_row (insert_fails h) (p_db p) h body h1 h2
                        (Z.of_nat (List.length (clauses cnf))) nvars in
      Ok (st, with_db p t)
    else Ok (SUCCESS, p).

  Definition enqueue_if_unique (st : status) (child : cset) (p : pstate) : result pstate :=
    match st with
    | NODE_UNIQUE => q <- queue_insert (p_queue p) child ;; Ok (with_queue p q)
    | _ => Ok p
    end.

  (* PatternSolver.py:296-389: one iteration of the while loop, up to the process creation *)
  Definition step (lf : nat) (m : mode) (p : pstate) : result pstate :=
    '(cnf, q) <- queue_pop (p_queue p) ;;
    let p0 := with_queue p q in
    '(ph, cnf) <- (if o_gdb o then get_hash hash false cnf else Ok ([], cnf)) ;;  (* :305 *)
    let from_gdb := if o_gdb o && is_set_in_gdb ph (p_db p0)
                    then get_children_from_gdb (p_db p0) ph else None in
    '(s1, s2, pulled, p1) <-
       match from_gdb with
       | Some (a, b) => Ok (a, b, true, add_found p0)
       | None =>
           e <- evaluate cnf ;;
           match e with
           | Some (a, b) => Ok (a, b, false, p0)
           | None => Err AttributeError              (* None.to_string() *)
           end
       end ;;
    '(c1, st1, p2) <- process_child lf m pulled (sid cnf) s1 p1 ;;
    '(c2, st2, p3) <- process_child lf m pulled (sid cnf) s2 p2 ;;
    '(h1, _) <- get_hash hash false c1 ;;
    '(h2, _) <- get_hash hash false c2 ;;
    '(gs, p4) <- save_parent_children cnf h1 h2 p3 ;;
    p5 <- match gs with
          | SUCCESS => pa <- enqueue_if_unique st1 c1 p4 ;; enqueue_if_unique st2 c2 pa
          | _ => Ok p4
          end ;;
    Ok (match svalue c1, svalue c2 with
        | Some _, Some _ => add_leaf p5 (sid cnf)
        | _, _ => p5
        end).

  (* PatternSolver.py:295: loop condition *)
  Definition loop_done (p : pstate) : bool :=
    queue_is_empty (p_queue p) || (solution_truthy (p_solution p) && o_exit o).

  (* the while loop of a process that creates no other processes *)
  Fixpoint run (fuel lf : nat) (m : mode) (p : pstate) : result pstate :=
    if loop_done p then Ok p
    else match fuel with
         | O => OutOfFuel
         | S f => p' <- step lf m p ;; run f lf m p'
         end.

  (* PatternSolver.py:274-285: start of process_nodes_queue *)
  Definition start (cnf : cset) (db : table) : result pstate :=
    '(_, cnf') <- get_hash hash false cnf ;;
    q <- queue_insert (queue_init (o_rdb o)) cnf' ;;
    Ok (mkP q [(sid cnf', [])] false None 1 0 [] [] 0 db
            (if o_graph o then [DotNode (sid cnf') cnf'] else [])).

  Definition process_nodes_queue (fuel lf : nat) (m : mode) (cnf : cset) (db : table)
    : result pstate :=
    p <- start cnf db ;; run fuel lf m p.
End Solver.

(* ---- PatternSolver.py:231-257: statistics ---- *)
(* node_descendants (a dict used as a set) and node_redundants (defaultdict(int)) *)
Record dfs := mkDfs { d_desc : list digest; d_red : list (digest * Z) }.
Definition bump (k : digest) (d : list (digest * Z)) : list (digest * Z) :=
  dset text_eqb k (match dget text_eqb k d with Some n => n + 1 | None => 1 end) d.
Fixpoint node_stats (fuel : nat) (g : list (digest * list digest)) (n : digest) (st : dfs)
  : result dfs :=
  match fuel with
  | O => OutOfFuel
  | S f =>
      if existsb (text_eqb n) (d_desc st) then Ok (mkDfs (d_desc st) (bump n (d_red st)))
      else
        match dget text_eqb n g with
        | None => Err KeyError
        | Some children =>
            (fix go (cs : list digest) (st : dfs) : result dfs :=
               match cs with
               | [] => Ok st
               | c :: t => st' <- node_stats f g c st ;; go t st'
               end) children (mkDfs (d_desc st ++ [n]) (d_red st))
        end
  end.

(* (UNIQUE_COUNT, REDUNDANT_COUNT, REDUNDANT_HITS) *)
Definition stats_of (st : dfs) : Z * Z * Z :=
  (Z.of_nat (List.length (d_desc st)), Z.of_nat (List.length (d_red st)),
   fold_right Z.add 0 (map snd (d_red st))).
Definition zero_stats : Z * Z * Z := (0, 0, 0).
(* PatternSolver.py:243-257 *)
Fixpoint graph_stats (fuel : nat) (g : list (digest * list digest)) (root : digest)
  (keys : list digest) (acc : list (digest * (Z * Z * Z))) (rr : list (digest * Z))
  : result (list (digest * (Z * Z * Z)) * list (digest * Z)) :=
  match keys with
  | [] => Ok (acc, rr)
  | k :: t =>
      st <- node_stats fuel g k (mkDfs [] []) ;;
      graph_stats fuel g root t (dset text_eqb k (stats_of st) acc)
                  (if text_eqb k root then d_red st else rr)
  end.
Definition construct_graph_stats (fuel : nat) (root : digest) (g : list (digest * list digest)) :=
  graph_stats fuel g root (dkeys g) [] [].

(* PatternSolver.py:259-269 *)
Definition save_in_global_db (stats : list (digest * (Z * Z * Z))) (rr : list (digest * Z))
  (t : table) : table :=
  let t1 := fold_left (fun t kv => let '(u, rn, rh) := snd kv in
                                   gs_update_count t u rn rh (fst kv)) stats t in
  fold_left (fun t kv => gs_update_redundant_times t (snd kv) (fst kv)) rr t1.

(* ---- PatternSolver.py:470-632: solve_set (single process) ---- *)
Record outcome := mkOut {
  out_sat : bool;                              (* is_satisfiable *)
  out_solution : option (list (Z * bool));
  out_children : list (digest * list digest);  (* nodes_children *)
  out_uniques : Z;
  out_redundants : Z;
  out_hits : Z;
  out_found : Z;
  out_db : table;
  out_dot : list dotcmd
}.

(* PatternSolver.py:494-495 *)
Definition input_mode (o : opts) : mode :=
  match o_mode o with MODE_LO => MODE_LOU | m => m end.

(* PatternSolver.py:485-490: the normalised root *)
Definition prepare_root (hash : text -> digest) (lf : nat) (o : opts) (root : cset)
  : result cset :=
  let vars := get_variables root in
  let r0 := set_original root (combine vars vars) in
  r1 <- to_lo_condition lf (o_mode o) (o_sort_by_size o) (o_thief o) r0 ;;
  '(h, r2) <- get_hash hash true r1 ;;
  Ok (set_id r2 h).

(* PatternSolver.py:147-155: hashes loaded before solving, only with -gdb and without -gnm *)
Definition loaded_solved (o : opts) (t : table) (num_clauses : Z) : list (digest * (Z * Z)) :=
  if o_gdb o && negb (o_no_mem o) then gs_load_solved_sets t num_clauses else [].
Definition loaded_seen (o : opts) (t : table) (num_clauses : Z) : list digest :=
  if o_gdb o && negb (o_no_mem o)
  then gs_load_unsolved_sets t num_clauses ++ map fst (gs_load_solved_sets t num_clauses)
  else [].

Definition solve_set (hash : text -> digest) (insert_fails : digest -> bool)
  (fuel lf : nat) (o : opts) (root : cset) (db : table) : result outcome :=
  _ <- to_pretty root ;;                                       (* :482 setbefore *)
  r <- prepare_root hash lf o root ;;
  let n := Z.of_nat (List.length (clauses r)) in
  let solved := loaded_solved o db n in
  let seen := loaded_seen o db n in
  if is_set_solved o solved (sid r) db then
    match gs_get_set_data db (sid r) with                      (* :562-566 *)
    | None => Err TypeError
    | Some d => Ok (mkOut false None [] (r_unique d) (r_redundant d) (r_hits d) 1 db [])
    end
  else
    p <- process_nodes_queue hash insert_fails o seen fuel lf (input_mode o) r db ;;
    if o_no_stats o then
      Ok (mkOut (p_sat p) (p_solution p) (p_children p) (p_uniques p) 0 (p_hits p)
                (p_found p) (p_db p) (p_dot p))
    else
      '(stats, rr) <- construct_graph_stats fuel (sid r) (p_children p) ;;
      let '(u, rn, rh) := match dget text_eqb (sid r) stats with
                          | Some x => x | None => zero_stats end in
      Ok (mkOut (p_sat p) (p_solution p) (p_children p) u rn rh (p_found p)
                (if o_gdb o then save_in_global_db stats rr (p_db p) else p_db p) (p_dot p)).

(* PatternSolver.py:635-650 *)
Definition format_solution (d : list (Z * bool)) : text :=
  let tv := map str_Z (true_keys d) in
  let fv := map str_Z (false_keys d) in
  (match tv with [] => [] | _ => txt "T:" ++ join comma tv ++ [newline] end)
  ++ (match fv with [] => [] | _ => txt "F:" ++ join comma fv end).

(* PatternSolver.py:653-671 *)
Definition verify_solution (cnf : cset) (d : list (Z * bool)) : bool :=
  forallb (fun c =>
             existsb (fun v => ((0 <? v) && zmem v (true_keys d))
                               || ((v <? 0) && zmem (Z.abs v) (false_keys d))) (raw c))
          (clauses cnf).

(* ---- quick executions ---- *)
Definition default_opts : opts :=
  mkOpts MODE_FLO false false false false false false false false.
Definition no_fail (_ : digest) := false.
Definition sample : cset := set_of_text (txt "6|3|-5&8|1|3&-7|2|5&8|4|1&9|8|3").
Eval vm_compute in
  (match solve_set (fun t => t) no_fail 200 200 default_opts sample [] with
   | Ok r => Some (out_sat r, out_solution r, List.length (out_children r), out_uniques r,
                   out_redundants r, out_hits r,
                   match out_solution r with Some d => verify_solution sample d | None => false end)
   | _ => None end).
Definition sample_unsat : cset := set_of_text (txt "1|2&1|-2&-1|2&-1|-2").
Eval vm_compute in
  (match solve_set (fun t => t) no_fail 200 200 default_opts sample_unsat [] with
   | Ok r => Some (out_sat r, out_solution r, List.length (out_children r), out_uniques r)
   | _ => None end).
