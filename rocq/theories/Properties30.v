(* Properties30.v -- generated by tools/genprops.py from PP30.v: property theorems, their
   assumptions, and examples showing that the hypotheses are met.  Proofs are in PP30.v. *)
From Coq Require Import String Ascii ZArith List Bool Lia Znumtheory Zpow_facts.
From Verif Require Import SpecFloat PyBase MText MCnf MFloat PFam4 PFloat.
Import ListNotations.
From Verif Require Import PP30.
Open Scope Z_scope.

(* C91: for every number below 2^53 the program prints the least odd prime divisor and the exact cofactor, and verifies
   them, when there is an odd divisor from 3 up to the root; it fails with TypeError when there is none *)
Theorem C91_small : forall prog word more x, py_int word = Some x -> 0 <= x < 2 ^ 53 ->
  let run := factorize_program (prog :: word :: more) in
  ((exists d, in_reach x d) -> exists f g, least_odd_prime_divisor x f /\ x = f * g /\ run = Ok (product_line x f g true)) /\
  (~ (exists d, in_reach x d) -> run = Err TypeError).
Proof. exact p_C91_small. Qed.
Print Assumptions C91_small.

(* C91: so odd composite numbers below 2^53 are factored; primes, and even numbers whose odd divisors are all above the
   root, end in TypeError instead of the message that says that they are prime *)
Theorem C91_odd : forall prog word more x, py_int word = Some x -> 0 <= x < 2 ^ 53 ->
  let run := factorize_program (prog :: word :: more) in
  (Z.odd x = true -> composite x -> exists f g, least_odd_prime_divisor x f /\ x = f * g /\ 1 < g /\ run = Ok (product_line x f g true)) /\
  (prime x \/ x = 2 * (x / 2) /\ prime (x / 2) \/ x = 2 ^ Z.log2 x \/ x = 0 -> run = Err TypeError).
Proof. exact p_C91_odd. Qed.
Print Assumptions C91_odd.

(* C91: for any argument: what is printed is a least odd prime divisor, "verified" says whether the second number is the
   cofactor, and it is when the cofactor is at most 2^53; it need not be beyond *)
Theorem C91_any : forall prog word more,
  let run := factorize_program (prog :: word :: more) in
  match py_int word with
  | None => run = Err ValueError
  | Some x =>
      (x < 0 -> run = Err ValueError) /\
      (2 ^ 1024 - 2 ^ 970 <= x -> run = Err OverflowError) /\
      (0 <= x < 2 ^ 1024 - 2 ^ 970 -> run = Err TypeError \/
         exists f g v, run = Ok (product_line x f g v) /\ least_odd_prime_divisor x f /\ (v = true <-> x = f * g) /\ (x / f <= 2 ^ 53 -> v = true))
  end /\
  (word = str_Z (3 * (2 ^ 53 + 1)) -> run = Ok (product_line (3 * (2 ^ 53 + 1)) 3 (2 ^ 53) false)).
Proof. exact p_C91_any. Qed.
Print Assumptions C91_any.

(* C91, the hypotheses are met: 91 is factored, 97 and 10 are not; the program run on 91 *)
Example ex_C91_runs : py_int (txt " 91") = Some 91 /\ Z.odd 91 = true /\ composite 91 /\ in_reach 91 7 /\
  factorize_program [txt "factorize.py"; txt " 91"] = Ok (txt "91 = 7 x 13 .. verified = True") /\
  factorize_program [txt "factorize.py"; txt "97"] = Err TypeError /\ factorize_program [txt "factorize.py"; txt "10"] = Err TypeError.
Proof.
  split; [reflexivity|]. split; [reflexivity|]. split; [exists 7, 13; lia|]. split; [split; [reflexivity|]; split; [lia|]; split; [lia|]; exists 13; reflexivity|].
  vm_compute. auto.
Qed.
