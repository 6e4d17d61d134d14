(* MSabry.v -- the command line of tools/sabry_cnf_gen.hs (674-713) and the script tools/multiple_set_gen.sh.
   Simplifications: arguments are ASCII; the words of the script contain no blanks and no wildcards, so that an unquoted $@
   and $i are not split further; the directory the script writes to exists. *)
From Coq Require Import String Ascii ZArith List Bool.
From Verif Require Import PyBase MText MGen.
Import ListNotations.
Open Scope Z_scope.

(* ---- sabry_cnf_gen.hs ---- *)
(* read (args !! 0) :: Integer, line 681: decimal digits, with a minus sign or without; what else Haskell reads (blanks,
   parentheses, other notations) is the parameter *)
Definition digits_only (w : text) : bool :=
  match w with [] => false | _ => forallb (fun c => match digit_val c with Some _ => true | None => false end) w end.
Definition hs_read (other : text -> option Z) (w : text) : option Z :=
  if digits_only w || match w with c :: t => Ascii.eqb c "-"%char && digits_only t | [] => false end then py_int w else other w.
(* sabry_cnf_gen.hs:684-687: an unknown name is an error when the adder is needed *)
Definition adder_named (name : text) : list bit -> list bit -> sym (list bit) :=
  if text_eqb name (txt "n-bit") then n_adder sym_circuit
  else if text_eqb name (txt "fast") then fast_adder sym_circuit
  else fun _ _ => failM sym_circuit PatternFailed.
(* sabry_cnf_gen.hs:688-693 *)
Definition multiplier_named (name adder : text) (xs ys : list bit) : sym (list bit) :=
  if text_eqb name (txt "carry-save") then carry_save_multiplier sym_circuit (adder_named adder) xs ys
  else if text_eqb name (txt "wallace") then wallace_multiplier sym_circuit (adder_named adder) xs ys
  else if text_eqb name (txt "recursive")
  then recursive_multiplier sym_circuit (max (length xs) (length ys)) bound (adder_named adder) xs ys
  else failM sym_circuit PatternFailed.
Definition ln (t : text) : text := t ++ [newline].
(* sabry_cnf_gen.hs:674-712: what is written to the standard output, and whether the program ends without an error.  Haskell
   evaluates what it prints: the number is examined when the fourth line is printed, the circuit when the fifth is.  kept:
   whether the characters of a string reach the output whose evaluation fails after them (it depends on the buffering). *)
Definition sabry (other : text -> option Z) (kept : bool) (args : list text) : text * bool :=
  match args with
  | [number; adder; multiplier] =>
      let start :=
        ln (txt "c Problem generated from " ++ multiplier ++ txt "[" ++ adder ++ txt "] multiplication circuit") ++
        ln (txt "c by Paul Purdom and Amr Sabry") ++ ln (txt "c") in
      let torn := start ++ (if kept then txt "c Circuit for product = " else []) in
      match hs_read other number with
      | None => (torn, false)
      | Some n =>
          if n <=? 1 then (torn, false)
          else
            let shown := start ++ ln (txt "c Circuit for product = " ++ str_Z n ++ txt " " ++ show_bits (rev (int2bits n))) ++
                         txt "c Variables for output [msb,...,lsb]: " in
            match sym_multiplier (multiplier_named multiplier adder) (int2bits n) 1 with
            | Fails _ => (shown, false)
            | Done (xs, ys, cs) next ds =>
                let cnf := clauses_of ds in
                (shown ++ ln (show_bits (rev cs)) ++
                 ln (txt "c Variables for first input [msb,...,lsb]: " ++ show_bits (rev xs)) ++
                 ln (txt "c Variables for second input [msb,...,lsb]: " ++ show_bits (rev ys)) ++
                 ln (txt "c") ++ ln (txt "c") ++
                 ln (txt "p cnf " ++ str_Z (next - 1) ++ txt " " ++ str_Z (Z.of_nat (length cnf))) ++
                 ln (join [newline] (map show_clause cnf)), true)
            end
      end
  | _ => ([], false)
  end.

(* ---- multiple_set_gen.sh ---- *)
(* the arithmetic of the shell: 64 bits *)
Definition wrap (z : Z) : Z := (z + 2 ^ 63) mod 2 ^ 64 - 2 ^ 63.
(* the value of $1 in an arithmetic expression: a decimal number as printed; anything else (octal, names of variables,
   expressions) is the parameter, none when it is an error *)
Definition shell_number (other : text -> option Z) (w : text) : option Z :=
  match py_int w with
  | Some z => if text_eqb (str_Z z) w && (- 2 ^ 63 <=? z) && (z <? 2 ^ 63) then Some z else other w
  | None => other w
  end.
(* multiple_set_gen.sh:31: the numbers of the loop; none when it has not ended after this many rounds *)
Fixpoint loop_numbers (rounds : nat) (i last : Z) : option (list Z) :=
  if i <=? last
  then match rounds with O => None | S r => option_map (cons i) (loop_numbers r (wrap (i + 1)) last) end
  else Some [].
Definition benchmark (i : text) : text := txt "../inputs/test_cases/Benchmarks/Factoring" ++ i ++ txt ".txt".
(* multiple_set_gen.sh:24-25, 33-34: the file written for a word *)
Definition generate_file (hs : text -> option Z) (kept : bool) (i : text) : text * text :=
  (benchmark i, fst (sabry hs kept [i; txt "n-bit"; txt "wallace"])).
(* multiple_set_gen.sh:13-35: the files written, in this order; none when the loop has not ended *)
Definition multiple_set_gen (hs shell : text -> option Z) (kept : bool) (rounds : nat) (args : list text)
  : option (list (text * text)) :=
  match args with
  | w1 :: w2 :: more =>
      if text_eqb w1 [] || text_eqb w2 [] then Some []                     (* lines 13-18 *)
      else match more with
      | _ :: _ => Some (map (generate_file hs kept) (filter (fun w => negb (text_eqb w [])) args))   (* lines 21-28 *)
      | [] =>
          match shell_number shell w1, shell_number shell w2 with
          | Some a, Some b => option_map (map (fun i => generate_file hs kept (str_Z i))) (loop_numbers rounds a b)
          | _, _ => Some []
          end
      end
  | _ => Some []
  end.
