(* MStack.v -- solve_set with the recursion limit of Python: the statistics are computed by a recursive
   method (PatternSolver.py:231-241), for which solve_set doubles the limit (:541). *)
From Coq Require Import String Ascii ZArith List Bool.
From Verif Require Import PyBase MSet MText MQueue MDb MSolver.
Import ListNotations.
Open Scope Z_scope.

(* PatternSolver.py:243-257 when at most [limit] nested calls of get_node_subgraph_stats fit on the stack
   (with the limit set at :541, twice the default of 1000, less the few frames below).  The first argument
   of MSolver.node_stats counts exactly these calls, so running out of it is the RecursionError. *)
Definition limited_stats (limit : nat) (root : digest) (g : list (digest * list digest)) :=
  match construct_graph_stats limit root g with OutOfFuel => Err RecursionError | r => r end.

(* PatternSolver.py:470-566 (compare MSolver.solve_set) *)
Definition solve_set_limited (limit : nat) (hash : text -> digest) (insert_fails : digest -> bool)
  (fuel lf : nat) (o : opts) (root : cset) (db : table) : result outcome :=
  _ <- to_pretty root ;;
  r <- prepare_root hash lf o root ;;
  let n := Z.of_nat (List.length (clauses r)) in
  let solved := loaded_solved o db n in
  let seen := loaded_seen o db n in
  if is_set_solved o solved (sid r) db then
    match gs_get_set_data db (sid r) with
    | None => Err TypeError
    | Some d => Ok (mkOut false None [] (r_unique d) (r_redundant d) (r_hits d) 1 db [])
    end
  else
    p <- process_nodes_queue hash insert_fails o seen fuel lf (input_mode o) r db ;;
    if o_no_stats o then
      Ok (mkOut (p_sat p) (p_solution p) (p_children p) (p_uniques p) 0 (p_hits p)
                (p_found p) (p_db p) (p_dot p))
    else
      '(stats, rr) <- limited_stats limit (sid r) (p_children p) ;;
      let '(u, rn, rh) := match dget text_eqb (sid r) stats with
                          | Some x => x | None => zero_stats end in
      Ok (mkOut (p_sat p) (p_solution p) (p_children p) u rn rh (p_found p)
                (if o_gdb o then save_in_global_db stats rr (p_db p) else p_db p) (p_dot p)).
