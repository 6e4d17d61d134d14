(* MTrans.v -- random formulas (families/randomformulas.py) and the transformations of formulas (transformations/*.py) of
   the bundled generator. Simplifications: headers and descriptions are left out; the outcomes of the random module and
   the order of iteration of a set are parameters. *)
From Coq Require Import String Ascii ZArith List Bool.
From Verif Require Import PyBase MSet MText MCnf MFam.
Import ListNotations.
Open Scope Z_scope.

(* ---- randomformulas.py ---- *)
(* the outcomes of the random calls: random.sample(indices, k) and the random.choice of the literals in round t;
   the order in which a set is iterated; random.sample(clauses, m) *)
Record randomness := mkRandom {
  rnd_sample : nat -> list Z -> nat -> list Z;
  rnd_choice : nat -> nat -> bool;
  rnd_order : list (list (plit text)) -> list (list (plit text));
  rnd_clauses : list (list (plit text)) -> nat -> list (list (plit text))
}.
(* 'x_{0}'.format(i) *)
Definition rnd_name (i : Z) : text := txt "x_" ++ str_Z i.
(* a partial assignment: dict from names to bools *)
Definition partial := text -> option bool.
(* randomformulas.py:16-31 *)
Definition clause_satisfied (cls : list (plit text)) (assignments : list partial) : bool :=
  forallb (fun asg => existsb (fun l => match asg (snd l) with Some b => Bool.eqb (fst l) b | None => false end) cls) assignments.
Definition literal_dec (x y : plit text) : {x = y} + {x <> y}.
Proof. decide equality; [apply (list_eq_dec ascii_dec)|apply Bool.bool_dec]. Defined.
Definition same_clause (a b : list (plit text)) : bool := if list_eq_dec literal_dec a b then true else false.
(* clauses.add(cls) *)
Definition set_add (cls : list (plit text)) (s : list (list (plit text))) : list (list (plit text)) :=
  if existsb (same_clause cls) s then s else s ++ [cls].
(* randomformulas.py:39-40 *)
Definition random_clause (R : randomness) (t : nat) (indices : list Z) (k : nat) : list (plit text) :=
  let chosen := sort_by Z.ltb (rnd_sample R t indices k) in
  combine (map (rnd_choice R t) (seq 0 (List.length chosen))) (map rnd_name chosen).
(* randomformulas.py:36-43: rounds is 10*m - t *)
Fixpoint sample_loop (R : randomness) (k : nat) (indices : list Z) (m : nat) (planted : list partial) (rounds t : nat) (s : list (list (plit text))) : list (list (plit text)) :=
  match rounds with
  | O => s
  | S rounds' =>
      if (List.length s <? m)%nat
      then let cls := random_clause R t indices k in
           sample_loop R k indices m planted rounds' (S t) (if clause_satisfied cls planted then set_add cls s else s)
      else s
  end.
(* randomformulas.py:49-56 *)
Definition all_clauses (k : nat) (indices : list Z) (planted : list partial) : list (list (plit text)) :=
  filter (fun cls => clause_satisfied cls planted)
    (flat_map (fun domain => map (fun polarity => combine polarity (map rnd_name domain)) (products (repeat [true; false] k))) (combinations indices k)).
(* randomformulas.py:59-60; random.sample raises ValueError when the population is too small *)
Definition sample_clauses_dense (R : randomness) (k : nat) (indices : list Z) (m : nat) (planted : list partial) : result (list (list (plit text))) :=
  let all := all_clauses k indices planted in
  if (List.length all <? m)%nat then Err ValueError else Ok (rnd_clauses R all m).
(* randomformulas.py:33-47 *)
Definition sample_clauses (R : randomness) (k : nat) (indices : list Z) (m : nat) (planted : list partial) : result (list (list (plit text))) :=
  let s := sample_loop R k indices m planted (10 * m) 0 [] in
  if (List.length s <? m)%nat then sample_clauses_dense R k indices m planted else Ok (rnd_order R s).
(* randomformulas.py:62-122; the seed is part of the outcomes *)
Definition RandomKCNF (R : randomness) (k n m : Z) (planted : list partial) : result cnf :=
  if (n <? 0) || (m <? 0) || (k <? 0) then Err ValueError
  else if n <? k then Err ValueError
  else let indices := range 1 (n + 1) in
       let c := add_variables (map rnd_name indices) empty_cnf in
       match sample_clauses R (Z.to_nat k) indices (Z.to_nat m) planted with
       | Ok cls => match add_all add_clause_strict cls c with Ok c' => Ok c' | Err ValueError => Err ValueError | e => e end
       | _ => Err ValueError
       end.

(* ---- substitutions.py ---- *)
Section Substitution.
  Variable preamble : text -> list (list (plit text)).          (* transform_variable_preamble *)
  Variable literal_to : bool -> text -> list (list (plit text)). (* transform_a_literal *)
  (* substitutions.py:51-60: new_variables, or every variable of the transformed literals *)
  Definition new_names (new_variables : option (list text)) (old : list text) : list text :=
    match new_variables with
    | Some vs => vs
    | None => flat_map (fun v => map snd (concat (preamble v ++ literal_to true v ++ literal_to false v))) old
    end.
  (* substitutions.py:23-90; the final coherence check is left out: see C79 *)
  Definition base_substitution (new_variables : option (list text)) (c : cnf) : result cnf :=
    let names := cn_names (add_variables (new_names new_variables (cn_names c)) empty_cnf) in
    adds <- mapM (fun v => mapM (compress_clause names) (preamble v)) (cn_names c) ;;
    pos <- mapM (fun v => mapM (compress_clause names) (literal_to true v)) (cn_names c) ;;
    neg <- mapM (fun v => mapM (compress_clause names) (literal_to false v)) (cn_names c) ;;
    let substitution l := nth (Z.to_nat (Z.abs l - 1)) (if 0 <? l then pos else neg) [] in
    Ok (mkCnf names (flat_map (fun cl => map (@concat Z) (products (map substitution cl))) (cn_clauses c) ++ concat adds)).
End Substitution.
(* substitutions.py:92-100 *)
Definition no_preamble (_ : text) : list (list (plit text)) := [].
(* "{{{}}}^{}".format(v, i) after a prefix *)
Definition block_name (prefix : text) (v : text) (i : Z) : text := prefix ++ txt "{" ++ v ++ txt "}^" ++ str_Z i.
Definition block (prefix : text) (rank : Z) (v : text) : list text := map (block_name prefix v) (range 0 rank).
(* substitutions.py:115-144 *)
Definition ite_literal (p : bool) (v : text) : list (list (plit text)) :=
  let X := block_name [] v 0 in let Y := block_name [] v 1 in let Z := block_name [] v 2 in
  [[(false, X); (p, Y)]; [(true, X); (p, Z)]].
Definition IfThenElseSubstitution (c : cnf) : result cnf := base_substitution no_preamble ite_literal None c.
(* substitutions.py:147-187 *)
Definition maj_literal (rank : Z) (p : bool) (v : text) : list (list (plit text)) :=
  let vs := block [] rank v in
  let threshold := (rank + 1) / 2 in
  if p then greater_or_equal_constraint vs threshold else less_than_constraint vs threshold.
Definition MajoritySubstitution (c : cnf) (rank : Z) : result cnf := base_substitution no_preamble (maj_literal rank) None c.
(* substitutions.py:190-225 *)
Definition or_literal (rank : Z) (p : bool) (v : text) : list (list (plit text)) :=
  let names := block [] rank v in
  if p then [map (pair true) names] else map (fun n => [(false, n)]) names.
Definition OrSubstitution (c : cnf) (rank : Z) : result cnf := base_substitution no_preamble (or_literal rank) None c.
(* substitutions.py:228-262 *)
Definition eq_literal (rank : Z) (p : bool) (v : text) : list (list (plit text)) :=
  let names := block [] rank v in
  if p then map (fun ab => [(false, fst ab); (true, snd ab)]) (permutations2 names)
  else [map (pair false) names; map (pair true) names].
Definition AllEqualSubstitution (c : cnf) (rank : Z) : result cnf := base_substitution no_preamble (eq_literal rank) None c.
(* substitutions.py:264-289 *)
Definition neq_literal (rank : Z) (p : bool) (v : text) : list (list (plit text)) := eq_literal rank (negb p) v.
Definition NotAllEqualSubstitution (c : cnf) (rank : Z) : result cnf := base_substitution no_preamble (neq_literal rank) None c.
(* substitutions.py:291-320; True is 1 *)
Definition xor_literal (rank : Z) (p : bool) (v : text) : list (list (plit text)) :=
  parity_constraint (block [] rank v) (if p then 1 else 0).
Definition XorSubstitution (c : cnf) (rank : Z) : result cnf := base_substitution no_preamble (xor_literal rank) None c.
(* substitutions.py:322-371 *)
Definition lift_preamble (rank : Z) (v : text) : list (list (plit text)) :=
  let ys := block (txt "Y_") rank v in
  map (pair true) ys :: map (fun s => [(false, fst s); (false, snd s)]) (pairs ys).
Definition lift_literal (rank : Z) (p : bool) (v : text) : list (list (plit text)) :=
  map (fun i => [(false, block_name (txt "Y_") v i); (p, block_name (txt "X_") v i)]) (range 0 rank).
Definition FormulaLifting (c : cnf) (rank : Z) : result cnf := base_substitution (lift_preamble rank) (lift_literal rank) None c.
(* substitutions.py:374-417 *)
Definition one_literal (rank : Z) (p : bool) (v : text) : list (list (plit text)) :=
  let names := block (txt "X_") rank v in
  if p then map (pair true) names :: map (fun s => [(false, fst s); (false, snd s)]) (pairs names)
  else map (fun n => (false, n) :: map (pair true) (filter (fun o => negb (text_eqb o n)) names)) names.
Definition ExactlyOneSubstitution (c : cnf) (rank : Z) : result cnf := base_substitution no_preamble (one_literal rank) None c.
(* substitutions.py:421-448 *)
Definition flip_literal (p : bool) (v : text) : list (list (plit text)) := [[(negb p, v)]].
Definition FlipPolarity (c : cnf) : result cnf := base_substitution no_preamble flip_literal None c.
(* substitutions.py:450-526; _name_vertex_dict holds the vertex of each variable of cnf, whatever older entries it has;
   b is a bipartite graph (bipartite_sets) *)
Definition compress_name (i : Z) : text := name1 (txt "Y_{") i.
Definition compression_vertex (c : cnf) (b : bipartite) (v : text) : Z :=
  match position v (cn_names c) 0 with Some i => nth (Z.to_nat i) (b_right b) 0 | None => 0 end.
Definition compression_literal (majority : bool) (c : cnf) (b : bipartite) (p : bool) (v : text) : list (list (plit text)) :=
  let local := map compress_name (right_neighbors b (compression_vertex c b v)) in
  if majority
  then let threshold := (Z.of_nat (List.length local) + 1) / 2 in
       if p then greater_or_equal_constraint local threshold else less_than_constraint local threshold
  else parity_constraint local (if p then 1 else 0).
Definition VariableCompression (c : cnf) (b : bipartite) (function : text) : result cnf :=
  if negb (text_eqb function (txt "xor") || text_eqb function (txt "maj")) then Err ValueError
  else if negb (Nat.eqb (List.length (b_right b)) (List.length (cn_names c))) then Err ValueError
  else base_substitution no_preamble (compression_literal (negb (text_eqb function (txt "xor"))) c b) (Some (map compress_name (b_left b))) c.

(* ---- shuffle.py ---- *)
(* l[i] = x *)
Definition py_set {A} (l : list A) (i : Z) (x : A) : result (list A) :=
  let n := Z.of_nat (List.length l) in
  if (- n <=? i) && (i <? n)
  then let j := Z.to_nat (if i <? 0 then i + n else i) in Ok (firstn j l ++ x :: skipn (S j) l)
  else Err IndexError.
(* shuffle.py:81-83: clause number old of the list goes to place new *)
Fixpoint place_clauses (clauses : list (list Z)) (substitution : Z -> Z) (old : nat) (perm : list Z) (out : list (option (list Z))) : result (list (option (list Z))) :=
  match perm with
  | [] => Ok out
  | new :: rest =>
      cl <- of_option IndexError (nth_error clauses old) ;;
      out' <- py_set out new (Some (map substitution cl)) ;;
      place_clauses clauses substitution (S old) rest out'
  end.
(* AssertionError is one of the other exceptions of PyBase.v *)
Definition AssertionError : exn := OtherException.
(* shuffle.py:86, cnf.py:297-301: an absent clause is a TypeError, a number out of range an AssertionError *)
Fixpoint coherent_clauses (n : Z) (placed : list (option (list Z))) : result (list (list Z)) :=
  match placed with
  | [] => Ok []
  | None :: _ => Err TypeError
  | Some cl :: rest =>
      if forallb (fun l => (0 <? Z.abs l) && (Z.abs l <=? n)) cl
      then cls <- coherent_clauses n rest ;; Ok (cl :: cls) else Err AssertionError
  end.
(* shuffle.py:15-87; the permutations are given or drawn at random: parameters *)
Definition Shuffle (c : cnf) (variable_permutation : list text) (clause_permutation polarity_flip : list Z) : result cnf :=
  let N := List.length (cn_names c) in
  if negb (Nat.eqb (List.length variable_permutation) N) then Err AssertionError
  else if negb (Nat.eqb (List.length polarity_flip) N) then Err AssertionError
  else
    let names := cn_names (add_variables variable_permutation empty_cnf) in
    idx <- mapM (fun v => of_option KeyError (position v names 1)) (cn_names c) ;;
    let table := map (fun fi => fst fi * snd fi) (combine polarity_flip idx) in
    let substitution l := Z.sgn l * nth (Z.to_nat (Z.abs l - 1)) table 0 in
    placed <- place_clauses (cn_clauses c) substitution 0 clause_permutation (repeat None (List.length (cn_clauses c))) ;;
    cls <- coherent_clauses (Z.of_nat (List.length names)) placed ;;
    Ok (mkCnf names cls).
