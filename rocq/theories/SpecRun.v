(* SpecRun.v -- vocabulary of the property statements that refers to objects of the model (sets,
   queues, runs).  Definitions only, no proofs. *)
From Coq Require Import String Ascii ZArith List Bool Sorted Permutation.
From Verif Require Import Spec PyBase MSet MText MQueue MDb MSolver MMain SpecInput.
Import ListNotations.
Open Scope Z_scope.

(* the name that stands behind variable v of the set (None when outside the recorded list) *)
Definition name_at (s : cset) (v : Z) : option Z :=
  match final_names_map s with
  | [] => Some v
  | f => if (1 <=? v) then nth_error f (Z.to_nat (v - 1)) else None
  end.

(* variable names lie within the recorded list, as they do for every set the program builds *)
Definition names_ok (s : cset) : Prop :=
  final_names_map s = [] \/
  (forall v, In v (fvars (raws s)) -> 1 <= v <= Z.of_nat (List.length (final_names_map s))).

Definition nonempty_clauses (F : list (list Z)) : Prop := forall c, In c F -> c <> [].

(* a set to which to_lo_condition may be applied *)
Definition pre_lo (s : cset) : Prop :=
  clauses s <> [] /\ nonempty_clauses (raws s) /\ names_ok s.

(* an undecided clause as the program keeps it: distinct variables in ascending order *)
Definition good_clause (c : clause) : Prop :=
  distinct_vars (raw c) /\ sorted_clause (raw c) /\ cvalue c = None.

(* a set that can be branched: every variable has a recorded original *)
Definition eval_ready (s : cset) : Prop :=
  Forall good_clause (clauses s) /\ nonempty_clauses (raws s) /\ clauses s <> [] /\
  forall v, In v (fvars (raws s)) -> exists o, original_of s v = Ok o.

(* the branching variable *)
Definition pivot_of (s : cset) : Z := leading (hd [] (raws s)).

(* the text of a formula: literals joined by |, clauses by & *)
Definition formula_text (F : list (list Z)) : text := join (txt "&") (map clause_text F).

(* Clause objects built from literal lists, numbered from i *)
Fixpoint numbered (i : Z) (cls : list (list Z)) : list clause :=
  match cls with [] => [] | c :: t => with_index (clause_init c) i :: numbered (i + 1) t end.

(* undecided clauses numbered from i *)
Fixpoint plain (i : Z) (cls : list (list Z)) : list clause :=
  match cls with [] => [] | c :: t => mkClause c None false i :: plain (i + 1) t end.

(* the dictionary read back: true variables first *)
Definition reordered (d : list (Z * bool)) : list (Z * bool) :=
  filter snd d ++ filter (fun kv => negb (snd kv)) d.

(* what the serialised form can represent *)
Definition saved_props (s : cset) : Prop :=
  NoDup (dkeys (evaluated_vars s)) /\ (forall v, In v (dkeys (evaluated_vars s)) -> 0 <= v) /\
  NoDup (dkeys (original_values s)).

(* what comes back from the runtime table for a node *)
Definition reloaded (s : cset) : cset :=
  mkSet (plain 1 (raws s)) None (sid s) None (final_names_map s) (reordered (evaluated_vars s))
        (original_values s) 1.

(* sets that can be stored in the runtime table and read back *)
Definition storable (s : cset) : Prop :=
  svalue s = None /\ clauses s <> [] /\ nonempty_clauses (raws s) /\
  (forall c, In c (raws s) -> distinct_vars c /\ sorted_clause c) /\ saved_props s.

(* what a removal returns for an inserted item *)
Definition view (rdb : bool) (s : cset) : cset := if rdb then reloaded s else s.

(* operations on the queue *)
Inductive qop := QInsert (s : cset) | QPop.

(* observations: what each removal returned, None when it raised IndexError *)
Fixpoint q_run (ops : list qop) (q : squeue) : result (list (option cset) * squeue) :=
  match ops with
  | [] => Ok ([], q)
  | QInsert s :: t => q' <- queue_insert q s ;; q_run t q'
  | QPop :: t =>
      match queue_pop q with
      | Ok (x, q') => '(o, q'') <- q_run t q' ;; Ok (Some x :: o, q'')
      | Err IndexError => '(o, q'') <- q_run t q ;; Ok (None :: o, q'')
      | Err e => Err e
      | OutOfFuel => OutOfFuel
      end
  end.

(* the insertions among the operations *)
Definition inserted (ops : list qop) : list cset :=
  flat_map (fun o => match o with QInsert s => [s] | QPop => [] end) ops.

(* the same for an ideal first-in first-out list *)
Fixpoint fifo (ops : list qop) (l : list cset) : list (option cset) * list cset :=
  match ops with
  | [] => ([], l)
  | QInsert s :: t => fifo t (l ++ [s])
  | QPop :: t => match l with
                 | [] => let '(o, r) := fifo t [] in (None :: o, r)
                 | x :: l' => let '(o, r) := fifo t l' in (Some x :: o, r)
                 end
  end.

Definition somes {A} (l : list (option A)) : list A :=
  flat_map (fun o => match o with Some x => [x] | None => [] end) l.

(* operations on a unique queue, whose items are objects numbered by nat *)
Inductive uop := UInsert (n : nat) | UPop.

Fixpoint u_run (ops : list uop) (q : uqueue) : list (result nat) * uqueue :=
  match ops with
  | [] => ([], q)
  | UInsert n :: t => u_run t (uq_insert q n)
  | UPop :: t => let '(r, q') := uq_pop q in let '(o, q'') := u_run t q' in (r :: o, q'')
  end.

Definition u_inserted (ops : list uop) : list nat :=
  flat_map (fun o => match o with UInsert n => [n] | UPop => [] end) ops.

Definition oks {A} (l : list (result A)) : list A :=
  flat_map (fun o => match o with Ok x => [x] | _ => [] end) l.

(* distinct elements not in seen, in order of first occurrence *)
Fixpoint fresh (seen l : list nat) : list nat :=
  match l with
  | [] => []
  | x :: t => if existsb (Nat.eqb x) seen then fresh seen t else x :: fresh (seen ++ [x]) t
  end.

(* an input formula as the program expects it: at least one clause, no empty clause, no clause with a
   repeated variable; possibly some variables already assigned (factoring and multiplication
   preprocessors), which then do not occur in the clauses *)
Record root_ok (s : cset) : Prop := mkRootOk {
  ro_ne : clauses s <> [];
  ro_nonempty : nonempty_clauses (raws s);
  ro_distinct : forall c, In c (raws s) -> distinct_vars c;
  ro_undec : forall c, In c (clauses s) -> cvalue c = None;
  ro_value : svalue s = None;
  ro_names : final_names_map s = [];
  ro_ev : NoDup (dkeys (evaluated_vars s));
  ro_evpos : forall v, In v (dkeys (evaluated_vars s)) -> 0 <= v;
  ro_disj : forall v, In v (dkeys (evaluated_vars s)) -> ~ In v (fvars (raws s))
}.

(* number of assigned variables of a set: its branching depth, up to the constant of the root *)
Definition depth (s : cset) : nat := List.length (evaluated_vars s).

(* the program, run without any bound on its loops, ends with outcome [out] *)
Definition ends_with (hash : text -> digest) (insert_fails : digest -> bool) (o : opts) (root : cset)
  (db : table) (out : outcome) : Prop :=
  exists N, forall fuel lf, (N <= fuel)%nat -> (N <= lf)%nat ->
    solve_set hash insert_fails fuel lf o root db = Ok out.

(* no global DB, or a fresh one without insert failures; -gnm only with -gdb *)
Definition fresh_db (o : opts) (insert_fails : digest -> bool) (db : table) : Prop :=
  (o_gdb o = true -> db = [] /\ forall h, insert_fails h = false) /\
  (o_no_mem o = true -> o_gdb o = true).

(* the mode in which branches are normalised: with -m lo only the root is put in mode lo, every other set
   in mode lou; with any other mode it is the mode asked for *)
Definition branch_mode (o : opts) : mode :=
  match o_mode o with
  | MODE_LO => MODE_LOU | MODE_LOU => MODE_LOU
  | MODE_FLO => MODE_FLO | MODE_FLOP => MODE_FLOP | MODE_NORMAL => MODE_NORMAL
  end.

(* the sets met by the search for [root], finished as the program finishes them *)
Inductive searched (hash : text -> digest) (o : opts) (root : cset) : cset -> Prop :=
| searched_root lf r : prepare_root hash lf o root = Ok r -> searched hash o root r
| searched_child lf x l r c c1 c2 h : searched hash o root x ->
    evaluate (view (o_rdb o) x) = Ok (Some (l, r)) -> c = l \/ c = r -> svalue c = None ->
    to_lo_condition lf (branch_mode o) (o_sort_by_size o) (o_thief o) c = Ok c1 ->
    get_hash hash true c1 = Ok (h, c2) ->
    searched hash o root (set_id c2 h).

(* no two different texts met in this search have the same hash *)
Definition collision_free (hash : text -> digest) (o : opts) (root : cset) : Prop :=
  forall x y tx ty, searched hash o root x -> searched hash o root y ->
    to_text x = Ok tx -> to_text y = Ok ty -> hash tx = hash ty -> tx = ty.

(* the loop has run from p to p', removing the sets xs from the queue, in this order *)
Inductive exec (hash : text -> digest) (insert_fails : digest -> bool) (o : opts) (seen : list digest)
  (lf : nat) (m : mode) : pstate -> list cset -> pstate -> Prop :=
| exec_nil p : exec hash insert_fails o seen lf m p [] p
| exec_cons p x q p1 xs p' : loop_done o p = false -> queue_pop (p_queue p) = Ok (x, q) ->
    step hash insert_fails o seen lf m p = Ok p1 -> exec hash insert_fails o seen lf m p1 xs p' ->
    exec hash insert_fails o seen lf m p (x :: xs) p'.

(* removing from queue q until it is empty yields xs *)
Inductive drains : squeue -> list cset -> Prop :=
| drains_nil q : queue_is_empty q = true -> drains q []
| drains_cons q x q' xs : queue_pop q = Ok (x, q') -> drains q' xs -> drains q (x :: xs).

(* the recorded graph: node id -> ids of its undecided children *)
Definition graph := list (digest * list digest).

(* successors of a node in the recorded graph *)
Definition succs (g : graph) (n : digest) : list digest :=
  match dget text_eqb n g with Some l => l | None => [] end.

(* every recorded child is itself a recorded node *)
Definition closed_graph (g : graph) : Prop :=
  NoDup (dkeys g) /\ forall n, In n (dkeys g) -> incl (succs g n) (dkeys g).

Definition text_dec : forall a b : digest, {a = b} + {a <> b} := list_eq_dec Ascii.ascii_dec.

(* a set holding just the formula F *)
Definition formula_set (F : list (list Z)) : cset :=
  mkSet (map (fun c => mkClause c None false 0) F) None [] None [] [] [] 1.

(* G is the normal form of F (modes and sort-by-size as given, no thief ordering) *)
Definition normal_form (m : mode) (z : bool) (F G : list (list Z)) : Prop :=
  exists lf s, to_lo_condition lf m z false (formula_set F) = Ok s /\ raws s = G.

(* G is the normalised undecided cofactor of F for value b of its leading variable *)
Definition child_formula (m : mode) (z : bool) (b : bool) (F G : list (list Z)) : Prop :=
  let R := restrict (leading (hd [] F)) b F in
  R <> [] /\ ~ In [] R /\ normal_form m z R G.

Definition decided_formula (b : bool) (F : list (list Z)) : Prop :=
  let R := restrict (leading (hd [] F)) b F in R = [] \/ In [] R.

(* formulas met when branching from F *)
Inductive met (m : mode) (z : bool) (F : list (list Z)) : list (list Z) -> Prop :=
| met_start : met m z F F
| met_child b G H : met m z F G -> child_formula m z b G H -> met m z F H.

(* ids of the children recorded for value b of the leading variable of G: none when the cofactor is
   decided, otherwise the hash of the text of its normal form *)
Definition child_ids (hash : text -> digest) (m : mode) (z b : bool) (G : list (list Z)) (ids : list digest) : Prop :=
  (decided_formula b G /\ ids = []) \/
  (exists H, child_formula m z b G H /\ ids = [hash (formula_text H)]).

(* the drawing commands, by kind *)
Definition dot_nodes (l : list dotcmd) : list digest :=
  flat_map (fun c => match c with DotNode i _ => [i] | _ => [] end) l.
Definition dot_sets (l : list dotcmd) : list cset :=
  flat_map (fun c => match c with DotNode _ s => [s] | _ => [] end) l.
Definition dot_edges (l : list dotcmd) : list (digest * digest) :=
  flat_map (fun c => match c with DotEdge a b => [(a, b)] | _ => [] end) l.
Definition dot_leaf_edges (l : list dotcmd) : list (digest * bool) :=
  flat_map (fun c => match c with DotLeafEdge a v => [(a, v)] | _ => [] end) l.
Definition dot_reds (l : list dotcmd) : list digest :=
  flat_map (fun c => match c with DotRed i => [i] | _ => [] end) l.

(* [n] arrivals at x beyond the first, when every node reachable from root is visited once and each of
   its edges followed *)
Definition extra_arrivals (g : graph) (root x : digest) (n : Z) : Prop :=
  exists R, NoDup R /\ (forall y, In y R <-> reaches (succs g) root y) /\
    n = Z.of_nat (count_occ text_dec (root :: flat_map (succs g) R) x) - Z.of_nat (count_occ text_dec R x).

(* the hash stored for a branch: constants have their own, other sets that of their normal form *)
Definition branch_hash (hash : text -> digest) (o : opts) (c : cset) (h : digest) : Prop :=
  (svalue c = Some true /\ h = hash (txt "T")) \/ (svalue c = Some false /\ h = hash (txt "F")) \/
  (svalue c = None /\ exists lf c', to_lo_condition lf (branch_mode o) (o_sort_by_size o) (o_thief o) c = Ok c' /\
     h = hash (formula_text (raws c'))).
(* the same in terms of formulas: value b of the leading variable of G *)
Definition child_hash (hash : text -> digest) (m : mode) (z b : bool) (G : list (list Z)) (h : digest) : Prop :=
  let R := restrict (leading (hd [] G)) b G in
  (R = [] /\ h = hash (txt "T")) \/ (In [] R /\ h = hash (txt "F")) \/
  (exists H, child_formula m z b G H /\ h = hash (formula_text H)).

(* histories of the global table *)
Inductive tab_op :=
| TInsert (fails : bool) (h : digest) (body : text) (c1 c2 : digest) (num_clauses num_vars : Z)
| TCount (unique redundant hits : Z) (h : digest)
| TTimes (n : Z) (h : digest).
Definition tab_step (t : table) (op : tab_op) : table :=
  match op with
  | TInsert fails h body c1 c2 nc nv => snd (gs_insert_row fails t h body c1 c2 nc nv)
  | TCount u rn rh h => gs_update_count t u rn rh h
  | TTimes n h => gs_update_redundant_times t n h
  end.
Definition tab_run (ops : list tab_op) (t : table) : table := fold_left tab_step ops t.
(* the part of a row that inserts write *)
Definition row_content (r : row) : text * digest * digest * Z * Z :=
  (r_body r, r_cid1 r, r_cid2 r, r_num_clauses r, r_num_vars r).
Definition row_counts (r : row) : Z * Z * Z := (r_unique r, r_redundant r, r_hits r).
(* the counts most recently written for h, [c] if none *)
Definition last_counts (ops : list tab_op) (h : digest) (c : Z * Z * Z) : Z * Z * Z :=
  fold_left (fun c op => match op with
                         | TCount u rn rh k => if text_dec k h then (u, rn, rh) else c
                         | _ => c
                         end) ops c.
(* the sum of the increments written for h *)
Definition total_times (ops : list tab_op) (h : digest) : Z :=
  fold_right Z.add 0 (map (fun op => match op with
                                     | TTimes n k => if text_dec k h then n else 0
                                     | _ => 0
                                     end) ops).

(* a reader for solution files: T: and F: lines of comma-separated variables, other lines ignored *)
Definition read_vars (b : bool) (t : text) : option (list (Z * bool)) :=
  option_map (map (fun v => (v, b))) (mapO py_int (split_on ","%char t)).
Definition read_line (l : text) : option (list (Z * bool)) :=
  match l with
  | t :: c :: r => if Ascii.eqb c ":"%char then
                     if Ascii.eqb t "T"%char then read_vars true r
                     else if Ascii.eqb t "F"%char then read_vars false r else None
                   else None
  | _ => Some []
  end.
Definition read_solution (t : text) : option (list (Z * bool)) :=
  option_map (@List.concat _) (mapO read_line (split_on newline t)).

(* what a removal from the database-backed queue must return for the inserted set *)
Definition same_item (got want : cset) : Prop :=
  sid got = sid want /\ raws got = raws want /\ svalue got = svalue want /\
  Permutation (evaluated_vars got) (evaluated_vars want) /\
  original_values got = original_values want /\ final_names_map got = final_names_map want /\
  map initial_index (clauses got) = map Z.of_nat (seq 1 (List.length (clauses want))).
Definition same_answer (got want : option cset) : Prop :=
  match got, want with
  | Some a, Some b => same_item a b
  | None, None => True
  | _, _ => False
  end.

(* the whole program, run without any bound on its loops, answers [r] on this input *)
Definition program_answers (hash : text -> digest) (insert_fails : digest -> bool) (o : opts) (a : main_opts)
  (i : input) (db : table) (r : answer) : Prop :=
  exists N, forall fuel lf, (N <= fuel)%nat -> (N <= lf)%nat ->
    main_run hash insert_fails fuel lf o a i db = Ok r.

(* the input file holds the formula F, in one of the two formats, with clauses of at most three different
   literals (or pairwise different variables) *)
Inductive represents : input -> list (list Z) -> Prop :=
| rep_line F t rest : formula_written F t -> Forall narrow F -> (rest = [] \/ exists u, rest = nl :: u) ->
    represents (InSLF (t ++ rest)) F
| rep_dimacs h ls rest F last : Forall one_line (h :: ls ++ rest) -> ignored_rest rest ->
    (forall c, In c F -> c <> [] /\ ~ In 0 c /\ (List.length c <= 3)%nat) -> ~ In 0 last -> narrow last ->
    dimacs_body (terminated F ++ last) ls ->
    represents (InDimacs (file_of (h :: ls ++ rest))) (F ++ match last with [] => [] | _ => [last] end).

(* two option sets under which the same sets are met: same mode, orderings and queue *)
Definition same_search (o1 o2 : opts) : Prop :=
  o_mode o1 = o_mode o2 /\ o_sort_by_size o1 = o_sort_by_size o2 /\
  o_thief o1 = o_thief o2 /\ o_rdb o1 = o_rdb o2.

(* the hashes standing for True and False are different and not the hash of a set met in this search *)
Definition constants_distinct (hash : text -> digest) (o : opts) (root : cset) : Prop :=
  hash (txt "T") <> hash (txt "F") /\
  forall x t, searched hash o root x -> to_text x = Ok t ->
    hash t <> hash (txt "T") /\ hash t <> hash (txt "F").
