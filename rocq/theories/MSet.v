(* MSet.v -- model of Clause.py and Set.py (class Clause, class Set).
   Objects become records, mutating methods return the new object.  No aliasing is lost: every
   place where the code shares a list between two objects copies it first (Clause.__init__ calls
   list(), evaluate builds a second Clause for the left branch, Set.py:372-376). *)
From Coq Require Import String Ascii ZArith List Bool.
From Verif Require Import PyBase.
Import ListNotations.
Open Scope Z_scope.

Definition digest := text.

(* configs.py:50-55 *)
Inductive mode := MODE_FLO | MODE_FLOP | MODE_LOU | MODE_LO | MODE_NORMAL.
Definition mode_eqb (a b : mode) : bool :=
  match a, b with
  | MODE_FLO, MODE_FLO | MODE_FLOP, MODE_FLOP | MODE_LOU, MODE_LOU
  | MODE_LO, MODE_LO | MODE_NORMAL, MODE_NORMAL => true
  | _, _ => false
  end.
(* configs.py:26 *)
Definition MIN_LITERAL : Z := 1.

(* Clause.py:24-28: fields of a Clause *)
Record clause := mkClause {
  raw : list Z;
  cvalue : option bool;
  substituted : bool;
  initial_index : Z
}.

(* Clause.py:68-70: sorted(self.raw, key=abs) *)
Definition abs_lt (x y : Z) : bool := Z.abs x <? Z.abs y.
Definition sort_abs (l : list Z) : list Z := sort_by abs_lt l.
Definition clause_sort (c : clause) : clause :=
  mkClause (sort_abs (raw c)) (cvalue c) (substituted c) (initial_index c).

(* Clause.py:24-46 for a list (or the enumeration of a frozenset) *)
Definition clause_init (inp : list Z) : clause :=
  let r := sort_abs inp in
  let '(r1, v1) :=
    match r with
    | x :: y :: _ => if Z.abs x =? Z.abs y then ([], Some true) else (r, None)
    | _ => (r, None)
    end in
  let '(r2, v2) :=
    match r1 with
    | [_; y; z] => if Z.abs y =? Z.abs z then ([], Some true) else (r1, v1)
    | _ => (r1, v1)
    end in
  mkClause r2 v2 false 0.

Definition with_index (c : clause) (i : Z) : clause :=
  mkClause (raw c) (cvalue c) (substituted c) i.

(* Clause.py:48-65: __lt__ on the raw lists *)
Fixpoint raw_lt (a b : list Z) : bool :=
  match a, b with
  | x :: a', y :: b' =>
      if x =? y then raw_lt a' b'
      else if Z.abs x =? Z.abs y then y <? x
      else Z.abs x <=? Z.abs y
  | _, _ => (List.length a <? List.length b)%nat
  end.
Definition clause_lt (a b : clause) : bool := raw_lt (raw a) (raw b).

(* Set.py:31-40: fields of a Set.  The default id 0 is represented by the empty digest; it is
   never used as a node id (PatternSolver.py:490 and :337 set it first). *)
Record cset := mkSet {
  clauses : list clause;
  svalue : option bool;
  sid : digest;
  computed_hash : option digest;
  final_names_map : list Z;
  evaluated_vars : list (Z * bool);
  original_values : list (Z * Z);
  highest_occurring_var : Z
}.
Definition empty_set : cset := mkSet [] None [] None [] [] [] 1.

Definition set_clauses (s : cset) (cs : list clause) : cset :=
  mkSet cs (svalue s) (sid s) (computed_hash s) (final_names_map s) (evaluated_vars s)
        (original_values s) (highest_occurring_var s).
(* Set.py:130-131 *)
Definition set_value (s : cset) (v : option bool) : cset :=
  mkSet (clauses s) v (sid s) (computed_hash s) (final_names_map s) (evaluated_vars s)
        (original_values s) (highest_occurring_var s).
Definition set_id (s : cset) (i : digest) : cset :=
  mkSet (clauses s) (svalue s) i (computed_hash s) (final_names_map s) (evaluated_vars s)
        (original_values s) (highest_occurring_var s).
Definition set_hash (s : cset) (h : option digest) : cset :=
  mkSet (clauses s) (svalue s) (sid s) h (final_names_map s) (evaluated_vars s)
        (original_values s) (highest_occurring_var s).
Definition set_names (s : cset) (m : list Z) : cset :=
  mkSet (clauses s) (svalue s) (sid s) (computed_hash s) m (evaluated_vars s)
        (original_values s) (highest_occurring_var s).
Definition set_evaluated (s : cset) (d : list (Z * bool)) : cset :=
  mkSet (clauses s) (svalue s) (sid s) (computed_hash s) (final_names_map s) d
        (original_values s) (highest_occurring_var s).
Definition set_original (s : cset) (d : list (Z * Z)) : cset :=
  mkSet (clauses s) (svalue s) (sid s) (computed_hash s) (final_names_map s) (evaluated_vars s)
        d (highest_occurring_var s).
Definition set_highest (s : cset) (v : Z) : cset :=
  mkSet (clauses s) (svalue s) (sid s) (computed_hash s) (final_names_map s) (evaluated_vars s)
        (original_values s) v.

(* the formula held by a set: its clauses as lists of literals *)
Definition raws (s : cset) : list (list Z) := map raw (clauses s).

(* Set.py:133-146 *)
Definition add_clause (s : cset) (cl : clause) : cset :=
  match svalue s with
  | Some false => s
  | _ =>
      match cvalue cl with
      | Some false => set_value s (Some false)
      | Some true => match clauses s with [] => set_value s (Some true) | _ => s end
      | None => set_value (set_clauses s (clauses s ++ [cl])) None
      end
  end.

(* Set.py:148-150 *)
Definition sort_within_clauses (s : cset) : cset := set_clauses s (map clause_sort (clauses s)).

(* guard shared by the sorting methods: len(self.clauses) > 0 and len(self.clauses[0].raw) > 0 *)
Definition first_nonempty (s : cset) : bool :=
  match clauses s with
  | c :: _ => match raw c with [] => false | _ => true end
  | [] => false
  end.

(* Set.py:152-160 *)
Definition sort_clauses (s : cset) : cset :=
  if first_nonempty s then set_clauses s (sort_by clause_lt (clauses s)) else s.

(* Set.py:254-260 *)
Definition len_lt (a b : clause) : bool := (List.length (raw a) <? List.length (raw b))%nat.
Definition sort_clauses_by_length (s : cset) : cset :=
  if first_nonempty s then set_clauses s (sort_by len_lt (clauses s)) else s.

(* Set.py:263-264: key (len(cl.raw), cl.initial_index) *)
Definition len_idx_lt (a b : clause) : bool :=
  (List.length (raw a) <? List.length (raw b))%nat
  || ((List.length (raw a) =? List.length (raw b))%nat
      && (initial_index a <? initial_index b)).
Definition sort_clauses_by_len_and_initial_index (s : cset) : cset :=
  set_clauses s (sort_by len_idx_lt (clauses s)).

(* Set.py:243-251 (not called by the program, the call at Set.py:275 is commented out) *)
Definition shift_unit (c : clause) : Z := match raw c with [_] => -1 | _ => 1 end.
Definition place_unit_clauses_first (s : cset) : cset :=
  if first_nonempty s
  then set_clauses s (sort_by (fun a b => shift_unit a <? shift_unit b) (clauses s)) else s.

(* Set.py:162-177: the renaming traversal.  names_map is the dict old variable -> new variable,
   id the next free name. *)
Fixpoint rename_raw (l : list Z) (names_map : list (Z * Z)) (id : Z)
  : list Z * list (Z * Z) * Z :=
  match l with
  | [] => ([], names_map, id)
  | x :: t =>
      let sign := if x <? 0 then -1 else 1 in
      let '(new, nm1, id1) :=
        match dget Z.eqb (Z.abs x) names_map with
        | Some new => (new, names_map, id)
        | None => (id, dset Z.eqb (Z.abs x) id names_map, id + 1)
        end in
      let '(t', nm2, id2) := rename_raw t nm1 id1 in
      (new * sign :: t', nm2, id2)
  end.
Definition set_raw (c : clause) (r : list Z) : clause :=
  mkClause r (cvalue c) (substituted c) (initial_index c).
Fixpoint rename_clauses (cs : list clause) (names_map : list (Z * Z)) (id : Z)
  : list clause * list (Z * Z) * Z :=
  match cs with
  | [] => ([], names_map, id)
  | c :: t =>
      let '(r, nm1, id1) := rename_raw (raw c) names_map id in
      let '(t', nm2, id2) := rename_clauses t nm1 id1 in
      (set_raw c r :: t', nm2, id2)
  end.

(* Set.py:178-181: counts of the renamed literals in traversal order (the code does it in the
   same loop), and max(d, key=d.get): the first key with the largest count; ValueError if empty *)
Definition count_literals (lits : list Z) : list (Z * Z) :=
  fold_left (fun d l => dset Z.eqb l (match dget Z.eqb l d with Some n => n + 1 | None => 1 end) d)
            lits [].
Fixpoint max_by_value (best : Z * Z) (d : list (Z * Z)) : Z :=
  match d with
  | [] => fst best
  | kv :: t => max_by_value (if snd best <? snd kv then kv else best) t
  end.
Definition highest_var (lits : list Z) : result Z :=
  match count_literals lits with
  | [] => Err ValueError
  | kv :: t => Ok (max_by_value kv t)
  end.

(* Set.py:162-192 *)
Definition rename_vars (s : cset) : result cset :=
  let '(cs, names_map, _) := rename_clauses (clauses s) [] 1 in
  hov <- highest_var (concat (map raw cs)) ;;
  let var_positions := dkeys names_map in
  fnm <- match final_names_map s with
         | [] => Ok var_positions
         | f => mapM (fun v => py_index f (v - 1)) var_positions
         end ;;
  Ok (sort_within_clauses (set_names (set_highest (set_clauses s cs) hov) fnm)).

(* Set.py:220-229: condition 3; seen is the dict seen_vars *)
Fixpoint cond3 (min_var : Z) (seen : list Z) (vars : list Z) : bool :=
  match vars with
  | [] => true
  | v :: t =>
      if (v <? min_var) && negb (zmem v seen) then false
      else if negb (zmem v seen) then cond3 v (v :: seen) t
      else cond3 min_var seen t
  end.
(* Set.py:232-238: condition 2; cl.raw[0] raises IndexError on an empty clause *)
Fixpoint cond2 (min_var : Z) (cs : list clause) : result bool :=
  match cs with
  | [] => Ok true
  | c :: t =>
      match raw c with
      | [] => Err IndexError
      | x :: _ => if Z.abs x <? min_var then Ok false else cond2 (Z.abs x) t
      end
  end.
(* Set.py:205-240 *)
Definition is_in_lo_state (m : mode) (s : cset) : result bool :=
  match m with
  | MODE_NORMAL => Ok true
  | _ =>
      match clauses s with
      | c :: _ =>
          match raw c with
          | x :: _ =>
              let min_var := Z.abs x in
              if MIN_LITERAL <? min_var then Ok false
              else if negb (cond3 min_var [min_var] (map Z.abs (concat (raws s)))) then Ok false
              else match m with
                   | MODE_LOU => Ok true
                   | _ => cond2 min_var (clauses s)
                   end
          | [] => Ok true
          end
      | [] => Ok true
      end
  end.

(* Set.py:281-290: the while loop, with fuel *)
Definition sorts_clauses (m : mode) : bool :=
  match m with MODE_LOU | MODE_NORMAL => false | _ => true end.
Fixpoint lo_loop (fuel : nat) (m : mode) (s : cset) : result cset :=
  match fuel with
  | O => OutOfFuel
  | S f =>
      b <- is_in_lo_state m s ;;
      if b then Ok s
      else if sorts_clauses m then
        let s1 := sort_clauses s in
        b1 <- is_in_lo_state m s1 ;;
        if b1 then Ok s1
        else s2 <- rename_vars s1 ;; lo_loop f m s2
      else s2 <- rename_vars s ;; lo_loop f m s2
  end.

(* Set.py:267-290 *)
Definition to_lo_condition (fuel : nat) (m : mode) (sort_by_size thief_method : bool) (s : cset)
  : result cset :=
  let s1 := if thief_method then sort_clauses_by_len_and_initial_index s else s in
  let s2 := if mode_eqb m MODE_FLOP || sort_by_size then sort_clauses_by_length s1 else s1 in
  s3 <- rename_vars s2 ;;
  lo_loop fuel m s3.

(* Set.py:294-323.  One clause: None = popped (some literal true under the map), otherwise the
   clause with its falsified literals removed.  vars & set(abs(..)) is membership in the map.
   [remove_first] is raw.pop(raw.index(v)). *)
Fixpoint subst_lits (vars_map : list (Z * bool)) (todo cur : list Z) : option (list Z) :=
  match todo with
  | [] => Some cur
  | v :: t =>
      match dget Z.eqb (Z.abs v) vars_map with
      | Some b =>
          if (b && (0 <? v)) || (negb b && (v <? 0)) then None
          else subst_lits vars_map t (remove_first v cur)
      | None => subst_lits vars_map t cur
      end
  end.
Definition subst_clause (vars_map : list (Z * bool)) (c : clause) : option clause :=
  if existsb (fun v => dmem Z.eqb (Z.abs v) vars_map) (raw c) then
    match subst_lits vars_map (raw c) (raw c) with
    | None => None
    | Some [] => Some (mkClause [] (Some false) (substituted c) (initial_index c))
    | Some r => Some (set_raw c r)
    end
  else Some c.
Fixpoint subst_clauses (vars_map : list (Z * bool)) (cs : list clause) : list clause :=
  match cs with
  | [] => []
  | c :: t => match subst_clause vars_map c with
              | None => subst_clauses vars_map t
              | Some c' => c' :: subst_clauses vars_map t
              end
  end.
Definition substitute_vars (s : cset) (vars_map : list (Z * bool)) : cset :=
  set_clauses s (subst_clauses vars_map (clauses s)).

(* Set.py:431-436: list(set of variables); the enumeration order of a Python set is unspecified,
   the model uses order of first occurrence (only look-ups by key depend on it) *)
Definition get_variables (s : cset) : list Z := dedup (map Z.abs (concat (raws s))).

(* Set.py:341-376: distribution of the clauses over the two branches:
   (left_clauses, right_clauses, left set to False, right set to False) *)
Fixpoint branch (pivot : Z) (cs : list clause) : list clause * list clause * bool * bool :=
  match cs with
  | [] => ([], [], false, false)
  | c :: t =>
      let '(lc, rc, lf, rf) := branch pivot t in
      let cl := with_index (clause_init (raw c)) (initial_index c) in
      if zmem pivot (raw cl) then
        match remove_first pivot (raw cl) with
        | [] => (lc, rc, lf, true)
        | r => (lc, mkClause r (cvalue cl) true (initial_index cl) :: rc, lf, rf)
        end
      else if zmem (- pivot) (raw cl) then
        match remove_first (- pivot) (raw cl) with
        | [] => (lc, rc, true, rf)
        | r => (mkClause r (cvalue cl) true (initial_index cl) :: lc, rc, lf, rf)
        end
      else
        (with_index (clause_init (raw cl)) (initial_index c) :: lc, cl :: rc, lf, rf)
  end.

(* Set.py:379-386 *)
Definition branch_value (cs : list clause) (falsified : bool) : option bool :=
  if falsified then Some false else match cs with [] => Some true | _ => None end.

(* Set.py:392: {v: self.original_values[self.final_names_map[v-1]] for v in vars} *)
Definition original_of (s : cset) (v : Z) : result Z :=
  n <- py_index (final_names_map s) (v - 1) ;;
  of_option KeyError (dget Z.eqb n (original_values s)).
Definition child_originals (s : cset) (vars : list Z) : result (list (Z * Z)) :=
  mapM (fun v => o <- original_of s v ;; Ok (v, o)) vars.

(* Set.py:326-397; None models the (None, None) answer *)
Definition evaluate (s : cset) : result (option (cset * cset)) :=
  match clauses s with
  | [] => Ok None
  | c :: _ =>
      match raw c with
      | [] => Ok None
      | x :: _ =>
          let pivot := Z.abs x in
          let '(lc, rc, lf, rf) := branch pivot (clauses s) in
          let l0 := set_value (set_clauses empty_set lc) (branch_value lc lf) in
          let r0 := set_value (set_clauses empty_set rc) (branch_value rc rf) in
          lo <- child_originals s (get_variables l0) ;;
          ro <- child_originals s (get_variables r0) ;;
          p <- original_of s (Z.abs pivot) ;;
          let l1 := set_evaluated (set_original l0 lo) (dset Z.eqb p true (evaluated_vars s)) in
          let r1 := set_evaluated (set_original r0 ro) (dset Z.eqb p false (evaluated_vars s)) in
          Ok (Some (l1, r1))
      end
  end.

(* Set.py:400-427, pretty=False: the text that identifies a node *)
Definition nonempty_raw (c : clause) : bool := match raw c with [] => false | _ => true end.
Definition clause_text (r : list Z) : text := join (txt "|") (map str_Z r).
Definition to_text (s : cset) : result text :=
  match svalue s with
  | Some true => Ok (txt "T")
  | Some false => Ok (txt "F")
  | None =>
      match clauses s with
      | [] => Err ValueError
      | cs => Ok (join (txt "&") (map (fun c => clause_text (raw c)) (filter nonempty_raw cs)))
      end
  end.
(* Set.py:400-427, pretty=True (labels of the drawn graph) *)
Definition to_pretty (s : cset) : result text :=
  match svalue s with
  | Some true => Ok (txt "T")
  | Some false => Ok (txt "F")
  | None =>
      match clauses s with
      | [] => Err ValueError
      | cs => Ok (join (txt " & ")
                (map (fun c => txt "(" ++ join (txt " | ") (map str_Z (raw c)) ++ txt ")["
                               ++ str_Z (initial_index c) ++ txt "]")
                     (filter nonempty_raw cs)))
      end
  end.

(* Set.py:439-446; [hash] stands for hashlib.sha1(bytes(.., "ascii")).digest() *)
Definition get_hash (hash : text -> digest) (force : bool) (s : cset) : result (digest * cset) :=
  match computed_hash s, force with
  | Some h, false => Ok (h, s)
  | _, _ => t <- to_text s ;; let h := hash t in Ok (h, set_hash s (Some h))
  end.
