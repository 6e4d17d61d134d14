(* MMain.v -- model of Factorizer.py, Multiply.py, the arithmetic part of the report printed by
   PatternSolver.solve_set, and of Main (main.py:55-130). *)
From Coq Require Import String Ascii ZArith List Bool.
From Verif Require Import Spec PyBase MSet MText MQueue MDb MSolver.
Import ListNotations.
Open Scope Z_scope.

(* attributes the preprocessors attach to the set: cnf.factorized_number, fact_num_bits, fact1_len,
   fact2_len, multiply_result_bits *)
Record fact_info := mkFact { f_number : Z; f_num_bits : list Z; f1_len : Z; f2_len : Z }.

(* Factorizer.py:32, Multiply.py:35: compatibility check; yields clauses[0].raw.  (class Set has
   neither __len__ nor __bool__, so the object itself is truthy.) *)
Definition sabry_head (s : cset) : option (Z * Z * Z) :=
  match clauses s with
  | c :: _ => match raw c with [x; y; z] => Some (x, y, z) | _ => None end
  | [] => None
  end.

(* Factorizer.py:39-49: one pass over the clauses; i counts the unit clauses *)
Fixpoint unit_scan (cs : list clause) (i : Z) (vars_map : list (Z * bool)) (number : Z)
  : list (Z * bool) * Z :=
  match cs with
  | [] => (vars_map, number)
  | c :: t =>
      match raw c with
      | [v] => unit_scan t (i + 1) (dset Z.eqb (Z.abs v) (0 <? v) vars_map)
                         (number + (if 0 <? v then 1 else 0) * 2 ^ i)
      | _ => unit_scan t i vars_map number
      end
  end.

(* Factorizer.py:30-68; None models "return False" (the set is left alone) *)
Definition factorize (s : cset) : option (fact_info * cset) :=
  match sabry_head s with
  | None => None
  | Some (x, y, z) =>
      let '(vm, number) := unit_scan (clauses s) 0 [] 0 in
      let info := mkFact number (dkeys vm) (y - 1) (Z.abs z - y) in
      let vm' := if Z.odd number
                 then dset Z.eqb (f1_len info + 1) true (dset Z.eqb 1 true vm) else vm in
      Some (info, substitute_vars (set_evaluated s vm') vm')
  end.

(* bin(n)[2:] reversed, for n >= 0 (the command line only lets factors > 1 through, main.py:248-249) *)
Fixpoint pos_bits (p : positive) : list bool :=
  match p with
  | xH => [true]
  | xO q => false :: pos_bits q
  | xI q => true :: pos_bits q
  end.
Definition bin_rev (n : Z) : list bool := match n with Zpos p => pos_bits p | _ => [false] end.
(* bin(n)[2:].rjust(len, '0')[::-1] *)
Definition pad_bits (n len : Z) : list bool :=
  bin_rev n ++ repeat false (Z.to_nat len - List.length (bin_rev n)).

Definition is_unit (c : clause) : bool := match raw c with [_] => true | _ => false end.

(* Multiply.py:33-80; None models "return False".  Yields multiply_result_bits, fact1_len, fact2_len and
   the set. *)
Definition multiply (s : cset) (a b : Z) : option (list Z * Z * Z * cset) :=
  match sabry_head s with
  | None => None
  | Some (x, y, z) =>
      let len1 := y - 1 in
      let len2 := Z.abs z - y in
      let '(fact1, fact2) := if a <? b then (b, a) else (a, b) in
      let bits1 := pad_bits fact1 len1 in
      let bits2 := pad_bits fact2 len2 in
      if (len1 <? Z.of_nat (List.length bits1)) || (len2 <? Z.of_nat (List.length bits2)) then None
      else
        let bits := bits1 ++ bits2 in
        let vm := combine (map Z.of_nat (seq 1 (List.length bits))) bits in
        let result_bits := concat (map (fun c => map Z.abs (raw c)) (filter is_unit (clauses s))) in
        let s1 := set_clauses s (filter (fun c => negb (is_unit c)) (clauses s)) in
        Some (result_bits, len1, len2, substitute_vars (set_evaluated s1 vm) vm)
  end.

(* l[a:b] with Python's treatment of negative and too large bounds *)
Definition slice_bound (n i : Z) : Z := if i <? 0 then Z.max 0 (i + n) else Z.min i n.
Definition py_slice {A} (l : list A) (a b : Z) : list A :=
  let n := Z.of_nat (List.length l) in
  let i := slice_bound n a in let j := slice_bound n b in
  firstn (Z.to_nat (j - i)) (skipn (Z.to_nat i) l).

(* int(''.join(str(i) for i in bits)[::-1], 2): the first bit is the least significant; int('', 2)
   raises ValueError *)
Definition int_bits (bs : list bool) : result Z :=
  match bs with [] => Err ValueError | _ => Ok (bits_value bs) end.

(* PatternSolver.py:586-594 *)
Definition decode_factors (i : fact_info) (sol : list (Z * bool)) : result (Z * Z) :=
  let nbits := Z.of_nat (List.length (f_num_bits i)) in
  let factors_bits := py_slice (map snd sol) 0 nbits in
  a <- int_bits (py_slice factors_bits 0 (f1_len i)) ;;
  b <- int_bits (py_slice factors_bits (f1_len i) (f1_len i + f2_len i)) ;;
  Ok (a, b).

(* PatternSolver.py:606-607 *)
Definition decode_product (result_bits : list Z) (sol : list (Z * bool)) : result Z :=
  bs <- mapM (fun v => of_option KeyError (dget Z.eqb v sol)) result_bits ;;
  int_bits bs.

(* lines added to the printed report *)
Inductive line :=
| LFactors (n f1 f2 : Z)      (* Factorization solution is n = f1 x f2 *)
| LFactorsWrong (n f1 f2 : Z) (* Something is wrong ... *)
| LPrime (n : Z)              (* The input number n is prime. No factors found! *)
| LProduct (a b r : Z)        (* Multiplication solution is a x b = r *)
| LProductWrong (a b r : Z)
| LNoProduct (a b : Z).       (* can't be multiplied on the input CNF *)

(* PatternSolver.py:585-602 *)
Definition fact_lines (info : option fact_info) (sol : option (list (Z * bool))) : result (list line) :=
  match info with
  | None => Ok []
  | Some i =>
      match sol with
      | Some (kv :: d) =>
          '(a, b) <- decode_factors i (kv :: d) ;;
          Ok [if f_number i =? a * b then LFactors (f_number i) a b else LFactorsWrong (f_number i) a b]
      | _ => Ok [LPrime (f_number i)]
      end
  end.
(* PatternSolver.py:605-617 *)
Definition mult_lines (info : option (list Z * Z * Z)) (sol : option (list (Z * bool))) : result (list line) :=
  match info with
  | None => Ok []
  | Some (rb, x, y) =>
      match sol with
      | Some (kv :: d) =>
          r <- decode_product rb (kv :: d) ;;
          Ok [if r =? x * y then LProduct x y r else LProductWrong x y r]
      | _ => Ok [LNoProduct x y]
      end
  end.

(* command-line options handled by Main itself *)
Record main_opts := mkMain {
  a_factorize : bool;             (* -fact *)
  a_multiply : option (Z * Z);    (* -mult *)
  a_solution_file : bool;         (* -s *)
  a_verify : bool                 (* -verify *)
}.

Inductive answer :=
| NoAnswer                        (* Main returns without calling the solver *)
| Failed (e : exn)                (* exception caught and logged, main.py:128-130 *)
| Refused                         (* -mult on an unsuitable set, main.py:86-88 *)
| FactorsExcluded                 (* main.py:91-95: a clause became False by the given factors *)
| Report (out : outcome) (lines : list line) (file : option text) (verified : option bool).

(* exceptions are caught by Main and logged *)
Definition catch (r : result answer) : result answer :=
  match r with Ok x => Ok x | Err e => Ok (Failed e) | OutOfFuel => OutOfFuel end.

Section Main.
  Variable hash : text -> digest.
  Variable solve : cset -> table -> result outcome.   (* PAT.solve_set *)
  Variable a : main_opts.

  (* main.py:98-125: from the preprocessed set on *)
  Definition run_with (cnf : cset) (fi : option fact_info) (mi : option (list Z * Z * Z)) (db : table)
    : result answer :=
    if (match clauses cnf with [] => true | _ => false end)
       && (match svalue cnf with None => true | _ => false end)
    then Ok NoAnswer
    else
      '(_, cnf') <- get_hash hash false cnf ;;
      out <- solve cnf' db ;;
      l1 <- fact_lines fi (out_solution out) ;;
      l2 <- mult_lines mi (out_solution out) ;;
      Ok (Report out (l1 ++ l2)
            (match out_solution out with
             | Some (kv :: d) => if a_solution_file a then Some (format_solution (kv :: d)) else None
             | _ => None
             end)
            (match out_solution out with
             | Some (kv :: d) => if a_verify a then Some (verify_solution cnf (kv :: d)) else None
             | _ => None
             end)).

  (* main.py:78-95: preprocessing *)
  Definition preprocess_with (cnf : cset) (db : table) : result answer :=
    let '(fi, cnf1) := if a_factorize a
                       then match factorize cnf with
                            | Some (i, c) => (Some i, c)
                            | None => (None, cnf)
                            end
                       else (None, cnf) in
    match a_multiply a with
    | None => run_with cnf1 fi None db
    | Some (x, y) =>
        match multiply cnf1 x y with
        | None => Ok Refused
        | Some (rb, l1, l2, cnf2) =>
            if existsb (fun c => match cvalue c with Some false => true | _ => false end) (clauses cnf2)
            then Ok FactorsExcluded
            else run_with cnf2
                   (option_map (fun i => mkFact (f_number i) (f_num_bits i) l1 l2) fi)  (* Multiply.py:44-45 *)
                   (Some (rb, x, y)) db
        end
    end.

  (* main.py:55-130.  Main selects the reader by the truthiness of the arguments: an empty -l text
     leaves the input type unset, which InputReader rejects. *)
  Definition main_with (i : input) (db : table) : result answer :=
    catch (cnf <- get_cnf_set i ;; preprocess_with cnf db).
End Main.

(* the program with a single process *)
Definition run_solver (hash : text -> digest) (insert_fails : digest -> bool) (fuel lf : nat) (o : opts) (a : main_opts)
  : cset -> option fact_info -> option (list Z * Z * Z) -> table -> result answer :=
  run_with hash (solve_set hash insert_fails fuel lf o) a.
Definition preprocess (hash : text -> digest) (insert_fails : digest -> bool) (fuel lf : nat) (o : opts) (a : main_opts)
  : cset -> table -> result answer :=
  preprocess_with hash (solve_set hash insert_fails fuel lf o) a.
Definition main_run (hash : text -> digest) (insert_fails : digest -> bool) (fuel lf : nat) (o : opts) (a : main_opts)
  : input -> table -> result answer :=
  main_with hash (solve_set hash insert_fails fuel lf o) a.
