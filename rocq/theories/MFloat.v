(* MFloat.v -- tools/factorize.py.  Floats are IEEE doubles; every float of this program that is not 0 is at least 1, and
   such a double is a multiple of 2^-52: it is modelled by the number of these units.  Rounding is to the nearest double,
   ties to the even one.  Left out: the step counts and the duration printed after the first line (their computation
   raises nothing when the first line was printed). *)
From Coq Require Import String Ascii ZArith List Bool.
From Verif Require Import PyBase MText MCnf.
Import ListNotations.
Open Scope Z_scope.

Definition OverflowError : exn := OtherException.
Definition one : Z := 2 ^ 52.
(* the number of units of the double nearest to p/q, where 0 < q and p/q is 0 or at least 1; larger than the largest
   double is treated where it can happen *)
Definition nearest (p q : Z) : Z :=
  if p =? 0 then 0
  else let a := p * one in
       let spacing := 2 ^ (Z.log2 (a / q) - 52) in
       let b := q * spacing in
       let m := a / b in
       let r := a mod b in
       (if (2 * r <? b) || ((2 * r =? b) && Z.even m) then m else m + 1) * spacing.
(* PyLong_AsDouble *)
Definition float_of_int (x : Z) : result Z := if 2 ^ 1024 - 2 ^ 970 <=? x then Err OverflowError else Ok (nearest x 1).
(* sqrt of a double: the root of u units has sqrt(u * 2^52) units *)
Definition float_sqrt (u : Z) : Z :=
  if u =? 0 then 0
  else let a := u * one in
       let root := Z.sqrt a in
       let spacing := 2 ^ (Z.log2 root - 52) in
       let m := root / spacing in
       let half := (2 * m + 1) * spacing in
       (if (4 * a <? half * half) || ((4 * a =? half * half) && Z.even m) then m else m + 1) * spacing.
Definition float_add1 (u : Z) : Z := nearest (u + one) one.
Definition int_of_float (u : Z) : Z := u / one.
(* math.sqrt of an integer *)
Definition math_sqrt (x : Z) : result Z :=
  u <- (if x <? 0 then Err ValueError else float_of_int x) ;; Ok (float_sqrt u).
(* range(3, stop, 2) *)
Definition odd_range (stop : Z) : list Z := map (fun k => 3 + 2 * k) (range 0 ((stop - 2) / 2)).
(* factorize.py:5-12: a divisor, or the text that says that the number is prime *)
Definition factorize (x : Z) : result (Z + text) :=
  sq <- math_sqrt x ;;
  Ok (match find (fun i => x mod i =? 0) (odd_range (int_of_float (float_add1 sq))) with
      | Some i => inl i
      | None => inr (txt "The number " ++ str_Z x ++ txt " is Prime!")
      end).
(* factorize.py:16-23: x/fact1 is the double nearest to the quotient; a number divided by a text is a TypeError *)
Definition factorize_program (argv : list text) : result text :=
  match argv with
  | _ :: word :: _ =>
      x <- of_option ValueError (py_int word) ;;
      fact1 <- factorize x ;;
      match fact1 with
      | inr _ => Err TypeError
      | inl i => let fact2 := int_of_float (nearest x i) in
                 Ok (str_Z x ++ txt " = " ++ str_Z i ++ txt " x " ++ str_Z fact2 ++ txt " .. verified = " ++
                     (if x =? i * fact2 then txt "True" else txt "False"))
      end
  | _ => Err IndexError
  end.
