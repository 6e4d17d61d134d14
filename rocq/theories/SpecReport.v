(* SpecReport.v -- vocabulary of the properties about the printed report (C96).  Definitions only. *)
From Coq Require Import String Ascii ZArith List Bool.
From Verif Require Import Spec PyBase MSet MText MSolver MMain MCli.
Import ListNotations.
Open Scope Z_scope.

(* l is one of the lines of t *)
Definition shows_line (t l : text) : Prop :=
  ~ In newline l /\ exists a b, t = a ++ l ++ b /\ (a = [] \/ exists a', a = a' ++ [newline]) /\ (b = [] \/ exists b', b = newline :: b').
(* t is the decimal number n with a comma between groups of three digits *)
Definition grouped (n : Z) (t : text) : Prop :=
  exists g gs, t = join (txt ",") (g :: gs) /\ (1 <= List.length g <= 3)%nat /\ Forall (fun x => List.length x = 3%nat) gs /\ concat (g :: gs) = str_Z n.
(* t is the number m / 1000 with three decimals *)
Definition three_decimals (m : Z) (t : text) : Prop :=
  exists whole frac f, t = (if m <? 0 then txt "-" else []) ++ str_Z whole ++ txt "." ++ frac /\ 0 <= whole /\
    List.length frac = 3%nat /\ py_int frac = Some f /\ 0 <= f < 1000 /\ Z.abs m = 1000 * whole + f.
(* t is the size n, in the largest unit that does not exceed it, with one decimal that is off by at most half a tenth;
   of two that are equally near it is the even one *)
Definition unit_names : list text := map txt ["B"; "KiB"; "MiB"; "GiB"; "TiB"; "PiB"; "EiB"; "ZiB"; "YiB"]%string.
Definition size (n : Z) (t : text) : Prop :=
  exists k u whole tenth, nth_error unit_names k = Some u /\ t = str_Z whole ++ txt "." ++ str_Z tenth ++ u /\
    0 <= whole /\ 0 <= tenth < 10 /\
    (k = 0%nat \/ 1024 ^ Z.of_nat k <= n) /\ (k = 8%nat \/ n < 1024 ^ (Z.of_nat k + 1)) /\
    2 * Z.abs ((10 * whole + tenth) * 1024 ^ Z.of_nat k - 10 * n) <= 1024 ^ Z.of_nat k /\
    (2 * Z.abs ((10 * whole + tenth) * 1024 ^ Z.of_nat k - 10 * n) = 1024 ^ Z.of_nat k -> Z.even tenth = true).
(* the bytes as hexadecimal digits *)
Definition hex_char (n : nat) : ascii := nth n (list_ascii_of_string "0123456789abcdef") "0"%char.
Definition in_hex (bytes t : text) : Prop :=
  t = flat_map (fun a => [hex_char (nat_of_ascii a / 16); hex_char (nat_of_ascii a mod 16)]) bytes.
(* the value of a variable in a solution that is shown *)
Definition shown_value (kv : Z * bool) : text := str_Z (fst kv) ++ (if snd kv then txt ": True" else txt ": False").
Definition shown_solution (sol : list (Z * bool)) : text := txt "{" ++ join (txt ", ") (map shown_value sol) ++ txt "}".
Definition mode_shown (m : mode) : text :=
  txt (match m with
       | MODE_FLO => "FLO" | MODE_FLOP => "FLOP" | MODE_LO => "LO" | MODE_LOU => "LOU" | MODE_NORMAL => "NORMAL"
       end).
