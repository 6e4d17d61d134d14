(* MReport.v -- the printed report as a text: PatternSolver.py:568-631 and configs.py:79-85.  What the report says (verdict,
   solution, counts, factors) is the outcome of MSolver and the lines of MMain; here it is written out.  Left out: the
   messages on the progress of the search that -v prints before the report. *)
From Coq Require Import String Ascii ZArith List Bool.
From Verif Require Import PyBase MSet MText MQueue MDb MSolver MMain MProc MShare MCli.
Import ListNotations.
Open Scope Z_scope.

(* what the report shows besides the result: the time used in thousandths of a second, as %.3f rounds it (a negative time
   above -0.0005 would be shown as -0.000, here it is 0.000); the hash of the set before it was renamed (main.py:101); the memory in
   use, in bytes *)
Record circumstances := mkCircumstances { r_time : Z; r_id : digest; r_memory : Z }.

(* bytes.hex (main.py:101) *)
Definition hex_digit (n : N) : ascii := if (n <? 10)%N then ascii_of_N (48 + n) else ascii_of_N (87 + n).
Definition hex (t : text) : text := flat_map (fun a => [hex_digit (code a / 16); hex_digit (code a mod 16)]) t.
(* '%.3f' of a number of thousandths (PatternSolver.py:572) *)
Definition padded3 (n : Z) : text := (if n <? 100 then txt "0" else []) ++ (if n <? 10 then txt "0" else []) ++ str_Z n.
Definition thousandths (m : Z) : text :=
  (if m <? 0 then txt "-" else []) ++ str_Z (Z.abs m / 1000) ++ txt "." ++ padded3 (Z.abs m mod 1000).
(* format(n, ',') of n >= 0 (PatternSolver.py:578): the digits from the right, a comma after every third one unless it is the last *)
Fixpoint commas (d : text) : text :=
  match d with
  | x :: y :: z :: rest => match rest with [] => d | _ => x :: y :: z :: ","%char :: commas rest end
  | _ => d
  end.
Definition with_commas (n : Z) : text := rev (commas (rev (str_Z n))).
(* '%.1f' of p/q, 0 <= p, 0 < q: the nearest tenth, of two the even one.  p/q is a double (a number of bytes below 2^53 divided by a
   power of 1024), so that the decimal is rounded from the exact value *)
Definition tenths (p q : Z) : Z :=
  let m := 10 * p / q in
  let r := 10 * p mod q in
  if (2 * r <? q) || ((2 * r =? q) && Z.even m) then m else m + 1.
Definition one_decimal (p q : Z) : text := str_Z (tenths p q / 10) ++ txt "." ++ str_Z (tenths p q mod 10).
(* configs.py:80-85 for a number of bytes below 2^53; q is the unit reached *)
Fixpoint sizeof (units : list text) (p q : Z) : text :=
  match units with
  | [] => one_decimal p q ++ txt "Yi" ++ txt "B"
  | u :: us => if p <? 1024 * q then one_decimal p q ++ u ++ txt "B" else sizeof us p (q * 1024)
  end.
Definition sizeof_fmt (n : Z) : text := sizeof (map txt [""; "Ki"; "Mi"; "Gi"; "Ti"; "Pi"; "Ei"; "Zi"]%string) n 1.

(* str of the solution, a dictionary or None (PatternSolver.py:576) *)
Definition str_bool (b : bool) : text := if b then txt "True" else txt "False".
Definition str_solution (s : option (list (Z * bool))) : text :=
  match s with
  | None => txt "None"
  | Some d => txt "{" ++ join (txt ", ") (map (fun kv => str_Z (fst kv) ++ txt ": " ++ str_bool (snd kv)) d) ++ txt "}"
  end.
(* args.mode.upper() (PatternSolver.py:574) *)
Definition mode_upper (m : mode) : text :=
  txt (match m with
       | MODE_FLO => "FLO" | MODE_FLOP => "FLOP" | MODE_LOU => "LOU" | MODE_LO => "LO" | MODE_NORMAL => "NORMAL"
       end).
(* PatternSolver.py:597-600, 603, 612-617 *)
Definition line_text (l : line) : text :=
  match l with
  | LFactors n a b => txt "Factorization solution is " ++ str_Z n ++ txt " = " ++ str_Z a ++ txt " x " ++ str_Z b
  | LFactorsWrong n a b => txt "Something is wrong. Probably a bug! Input = " ++ str_Z n ++ txt ", factors found are " ++ str_Z a ++ txt " and " ++ str_Z b
  | LPrime n => txt "The input number " ++ str_Z n ++ txt " is prime. No factors found!"
  | LProduct a b r => txt "Multiplication solution is " ++ str_Z a ++ txt " x " ++ str_Z b ++ txt " = " ++ str_Z r
  | LProductWrong a b r => txt "Something is wrong. Probably a bug! Inputs " ++ str_Z a ++ txt " and " ++ str_Z b ++ txt " don't multiply to " ++ str_Z r ++ txt "!"
  | LNoProduct a b => txt "The input numbers " ++ str_Z a ++ txt " and " ++ str_Z b ++ txt " can't be multiplied on the input CNF."
  end.

(* the two characters that stand for the end of a line *)
Definition backslash : ascii := "092"%char.
Definition mark : text := [backslash; "n"%char].
(* PatternSolver.py:568-619; len(self.nodes_children) is the number of keys *)
Definition stats (r : circumstances) (c : cli) (out : outcome) (lines : list line) : text :=
  let str_satisfiable := if out_sat out then txt "SATISFIABLE!" else txt "Not satisfiable." in
  txt "Input set processed in " ++ thousandths (r_time r) ++ txt " seconds" ++
  mark ++ txt "Problem ID: " ++ hex (r_id r) ++
  mark ++ txt "Solution mode: " ++ mode_upper (c_mode c) ++
  mark ++ txt "The input set is " ++ str_satisfiable ++
  (if out_sat out then mark ++ txt "The solution is " ++ str_solution (out_solution out) else []) ++
  mark ++ txt "Number of unique nodes: " ++ with_commas (Z.of_nat (List.length (out_children out))) ++
  (if c_no_stats c then []
   else mark ++ txt "Number of redundant subtrees: " ++ str_Z (out_redundants out) ++
        mark ++ txt "Number of redundant hits: " ++ str_Z (out_hits out) ++
        mark ++ txt "Number of nodes found in gdb: " ++ str_Z (out_found out)) ++
  flat_map (fun l => mark ++ line_text l) lines ++
  mark ++ txt "Current memory usage: " ++ sizeof_fmt (r_memory r).
(* stats.replace("\\n", "\n") (PatternSolver.py:631) *)
Fixpoint unmark (t : text) : text :=
  match t with
  | x :: ((y :: rest) as t') => if Ascii.eqb x backslash && Ascii.eqb y "n"%char then newline :: unmark rest else x :: unmark t'
  | _ => t
  end.
Definition report (r : circumstances) (c : cli) (out : outcome) (lines : list line) : text := unmark (stats r c out lines).

Example with_commas_ex : map with_commas [0; 999; 1000; 123456; 1234567] = map txt ["0"; "999"; "1,000"; "123,456"; "1,234,567"]%string.
Proof. reflexivity. Qed.
Example sizeof_ex : map sizeof_fmt [0; 1023; 1024; 1536; 1587; 1048575; 123456789; 5368709120] =
  map txt ["0.0B"; "1023.0B"; "1.0KiB"; "1.5KiB"; "1.5KiB"; "1024.0KiB"; "117.7MiB"; "5.0GiB"]%string.
Proof. reflexivity. Qed.
Example thousandths_ex : map thousandths [0; 7; 1234; 61050; -20] = map txt ["0.000"; "0.007"; "1.234"; "61.050"; "-0.020"]%string.
Proof. reflexivity. Qed.
