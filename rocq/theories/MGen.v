(* MGen.v -- the benchmark generator tools/sabry_cnf_gen.hs (Haskell), which writes the factoring formulas
   that the -fact and -mult options of the solver expect.  Circuits are written once, over an abstract
   monad of gates (the class Circuit of the source), and run in two ways: simulation on constants (Std) and
   generation of a formula (Sym). *)
From Coq Require Import String Ascii ZArith List Bool.
From Verif Require Import PyBase.
Import ListNotations.
Open Scope Z_scope.

(* sabry_cnf_gen.hs:54: data Bit *)
Inductive bit := Bool (b : bool) | BitVar (v : Z) | NotBitVar (v : Z).

(* sabry_cnf_gen.hs:62-64 *)
Definition low := Bool false.
Definition high := Bool true.

(* sabry_cnf_gen.hs:66-69 *)
Definition notBit (b : bit) : bit :=
  match b with Bool x => Bool (negb x) | BitVar v => NotBitVar v | NotBitVar v => BitVar v end.

(* sabry_cnf_gen.hs:71-74, 80-81: least significant bit first.  The recursion is on the binary
   representation of the number instead of on divMod. *)
Fixpoint pos2bits (p : positive) : list bit :=
  match p with xH => [high] | xO q => low :: pos2bits q | xI q => high :: pos2bits q end.
Definition int2bits (n : Z) : list bit := match n with Zpos p => pos2bits p | _ => [] end.

(* sabry_cnf_gen.hs:76-78, 83-84: None is the pattern-match failure on a variable *)
Fixpoint bits2int (bs : list bit) : option Z :=
  match bs with
  | [] => Some 0
  | Bool b :: t => match bits2int t with Some z => Some ((if b then 1 else 0) + 2 * z) | None => None end
  | _ => None
  end.

(* sabry_cnf_gen.hs:90-94 and 96-100: zip and zip3, the shorter lists padded with low *)
Definition bit_at (l : list bit) (i : nat) : bit := nth i l low.
Definition zipPad (xs ys : list bit) : list (bit * bit) :=
  map (fun i => (bit_at xs i, bit_at ys i)) (seq 0 (max (length xs) (length ys))).
Definition zip3Pad (xs ys zs : list bit) : list (bit * bit * bit) :=
  map (fun i => (bit_at xs i, bit_at ys i, bit_at zs i))
      (seq 0 (max (length xs) (max (length ys) (length zs)))).

(* sabry_cnf_gen.hs:104-109 *)
Fixpoint listby2 {A} (l : list A) : list (A * A) * list A :=
  match l with
  | [] => ([], [])
  | [a] => ([], [a])
  | a1 :: a2 :: t => let '(g, r) := listby2 t in ((a1, a2) :: g, r)
  end.

(* sabry_cnf_gen.hs:111-117 *)
Fixpoint listby3 {A} (l : list A) : list (A * A * A) * list A :=
  match l with
  | [] => ([], [])
  | [a] => ([], [a])
  | [a1; a2] => ([], [a1; a2])
  | a1 :: a2 :: a3 :: t => let '(g, r) := listby3 t in ((a1, a2, a3) :: g, r)
  end.

(* how a run of the generator can fail: a failed assertion on a constant (lines 161, 245), a missing
   pattern (Std gates on variables, head of an empty list), a loop *)
Inductive failure := AssertionFailed | PatternFailed | Loops.

(* sabry_cnf_gen.hs:36-41: class Circuit, with the operations of its superclass Monad.  addDesc is not an
   operation here: outside the gates it only adds comments (halfAdder_desc, fullAdder_desc), which main
   does not print (lines 710-711). *)
Record circuit (M : Type -> Type) := Circuit {
  ret : forall {A}, A -> M A;
  bindM : forall {A B}, M A -> (A -> M B) -> M B;
  failM : forall {A}, failure -> M A;
  not1 : bit -> M bit;
  assert1 : bit -> bool -> M unit;
  and2 : bit -> bit -> M bit;
  or2 : bit -> bit -> M bit;
  xor2 : bit -> bit -> M bit;
  mux3 : bit -> bit -> bit -> M bit }.
Arguments ret {M} _ {A}.
Arguments bindM {M} _ {A B}.
Arguments failM {M} _ {A}.
Arguments not1 {M}. Arguments assert1 {M}. Arguments and2 {M}. Arguments or2 {M}. Arguments xor2 {M}.
Arguments mux3 {M}.

Section Circuits.
Context {M : Type -> Type} (K : circuit M).
Notation "x <~ m ;; f" := (bindM K m (fun x => f)) (at level 61, m at next level, right associativity).
Notation "' p <~ m ;; f" := (bindM K m (fun x => match x with p => f end))
  (at level 61, p pattern, m at next level, right associativity).

(* mapM and foldM of Control.Monad *)
Fixpoint mapM {A B} (f : A -> M B) (l : list A) : M (list B) :=
  match l with
  | [] => ret K []
  | a :: t => b <~ f a ;; bs <~ mapM f t ;; ret K (b :: bs)
  end.
Fixpoint foldM {A B} (f : B -> A -> M B) (b : B) (l : list A) : M B :=
  match l with [] => ret K b | a :: t => b' <~ f b a ;; foldM f b' t end.

(* sabry_cnf_gen.hs:368-370: zipWithM_ stops at the end of the list of bits; the values are padded with
   False *)
Fixpoint assert_n (bs : list bit) (vs : list bool) : M unit :=
  match bs with
  | [] => ret K tt
  | b :: t => _ <~ assert1 K b (hd false vs) ;; assert_n t (tl vs)
  end.

(* sabry_cnf_gen.hs:377-382 *)
Definition halfAdd (a b : bit) : M (bit * bit) :=
  carry <~ and2 K a b ;; sum <~ xor2 K a b ;; ret K (carry, sum).

(* sabry_cnf_gen.hs:388-395 *)
Definition fullAdd (carryIn a b : bit) : M (bit * bit) :=
  '(carry1, sum1) <~ halfAdd a b ;;
  '(carry2, sum) <~ halfAdd carryIn sum1 ;;
  carryOut <~ xor2 K carry1 carry2 ;;
  ret K (carryOut, sum).

(* sabry_cnf_gen.hs:397-401 *)
Definition fullAddBlock (s : bit * list bit) (ab : bit * bit) : M (bit * list bit) :=
  '(carryOut, sum) <~ fullAdd (fst s) (fst ab) (snd ab) ;; ret K (carryOut, snd s ++ [sum]).

(* sabry_cnf_gen.hs:410-413 *)
Definition n_adder_carry (xs ys : list bit) (carryIn : bit) : M (list bit * bit) :=
  '(carryOut, sums) <~ foldM fullAddBlock (carryIn, []) (zipPad xs ys) ;; ret K (sums, carryOut).

(* sabry_cnf_gen.hs:415-418 *)
Definition n_adder (xs ys : list bit) : M (list bit) :=
  '(sum, carryOut) <~ n_adder_carry xs ys low ;; ret K (sum ++ [carryOut]).

(* sabry_cnf_gen.hs:428-441.  A round leaves at most two rows for each three, so the number of rows bounds
   the number of rounds (the first argument; PGen2.w_adder_spec). *)
Definition w3_unit (g : list bit * list bit * list bit) : M (list bit * list bit) :=
  let '(xs, ys, zs) := g in
  l <~ mapM (fun t => let '(x, y, z) := t in fullAdd x y z) (zip3Pad xs ys zs) ;; ret K (split l).
Fixpoint w_adder_rounds (rounds : nat) (adder : list bit -> list bit -> M (list bit)) (xss : list (list bit))
  : M (list bit) :=
  match xss with
  | [] => ret K []
  | [xs] => ret K xs
  | [xs; ys] => adder xs ys
  | _ =>
      match rounds with
      | O => failM K Loops
      | S rounds' =>
          let '(groups, rest) := listby3 xss in
          new_groups <~ mapM w3_unit groups ;;
          let '(cs, ss) := split new_groups in
          w_adder_rounds rounds' adder (map (cons low) cs ++ ss ++ rest)
      end
  end.
Definition w_adder (adder : list bit -> list bit -> M (list bit)) (xss : list (list bit)) : M (list bit) :=
  w_adder_rounds (length xss) adder xss.

(* sabry_cnf_gen.hs:468-471: zip3 stops at the shorter list *)
Fixpoint multiplex_n (c : bit) (xs ys : list bit) : M (list bit) :=
  match xs, ys with
  | x :: xt, y :: yt => b <~ mux3 K c x y ;; bs <~ multiplex_n c xt yt ;; ret K (b :: bs)
  | _, _ => ret K []
  end.

(* sabry_cnf_gen.hs:487-493: sum, sum with carry, generate, propagate *)
Definition carry_unit : Type := list bit * list bit * bit * bit.
Definition fast_adder_unit (ab : bit * bit) : M carry_unit :=
  let '(a, b) := ab in
  s <~ xor2 K a b ;; t <~ not1 K s ;; g <~ and2 K a b ;; p <~ or2 K a b ;; ret K ([s], [t], g, p).

(* sabry_cnf_gen.hs:509-520 *)
Definition stage (lh : carry_unit * carry_unit) : M carry_unit :=
  let '((s_low, t_low, g_low, p_low), (s_high, t_high, g_high, p_high)) := lh in
  new_s_high <~ multiplex_n g_low s_high t_high ;;
  new_t_high <~ multiplex_n p_low s_high t_high ;;
  p <~ (a <~ or2 K g_high p_high ;; b <~ or2 K g_high p_low ;; and2 K a b) ;;
  g <~ (a <~ or2 K g_high p_high ;; b <~ or2 K g_high g_low ;; and2 K a b) ;;
  ret K (s_low ++ new_s_high, t_low ++ new_t_high, g, p).

(* sabry_cnf_gen.hs:501-507: on the empty list it loops for ever; otherwise each stage leaves fewer units *)
Fixpoint apply_stages (stages : nat) (us : list carry_unit) : M carry_unit :=
  match us with
  | [u] => ret K u
  | _ =>
      match stages with
      | O => failM K Loops
      | S stages' =>
          let '(groups, rest) := listby2 us in
          wss <~ mapM stage groups ;; apply_stages stages' (wss ++ rest)
      end
  end.

(* sabry_cnf_gen.hs:495-499 *)
Definition fast_adder (xs ys : list bit) : M (list bit) :=
  us <~ mapM fast_adder_unit (zipPad xs ys) ;;
  '(s, _, g, _) <~ apply_stages (length us) us ;;
  ret K (s ++ [g]).

(* sabry_cnf_gen.hs:541-552 *)
Definition padded (size : nat) (l : list bit) : list bit := map (bit_at l) (seq 0 size).
Definition subt (xs ys : list bit) : M (list bit) :=
  let size := max (length xs) (length ys) in
  zs <~ mapM (not1 K) (padded size ys) ;;
  carryIn <~ not1 K low ;;
  '(sum, carryOut) <~ n_adder_carry (padded size xs) zs carryIn ;;
  _ <~ assert1 K carryOut true ;;
  ret K sum.

(* sabry_cnf_gen.hs:659-664 *)
Fixpoint shift_rows (n : nat) (rows : list (list bit)) : list (list bit) :=
  match rows with [] => [] | r :: t => (repeat low n ++ r) :: shift_rows (S n) t end.
Definition wallace_multiplier (adder : list bit -> list bit -> M (list bit)) (xs ys : list bit)
  : M (list bit) :=
  rows <~ mapM (fun b => mapM (fun a => and2 K a b) xs) ys ;;
  w_adder adder (shift_rows 0 rows).

(* sabry_cnf_gen.hs:639-641: one cell of the array *)
Definition block (x y : bit) (carryIn sumIn : bit) : M (bit * bit) :=
  xy <~ and2 K x y ;; fullAdd carryIn sumIn xy.
(* a row of cells with the carries and sums coming from above; zipWithM and zip stop at the shortest list *)
Fixpoint csm_row (xs : list bit) (y : bit) (ins : list (bit * bit)) : M (list (bit * bit)) :=
  match xs, ins with
  | x :: xt, (c, s) :: it => r <~ block x y c s ;; rs <~ csm_row xt y it ;; ret K (r :: rs)
  | _, _ => ret K []
  end.
(* sabry_cnf_gen.hs:643-653 *)
Fixpoint middle_loop (xs : list bit) (cs : list bit) (previous : list (bit * bit)) (ys : list bit)
  : M (list bit * list (bit * bit)) :=
  match ys with
  | [] => ret K (cs, previous)
  | y :: yt =>
      let '(carries, sums) := split previous in
      match sums with
      | [] => failM K PatternFailed
      | s0 :: st =>
          current <~ csm_row xs y (combine carries (st ++ [low])) ;;
          middle_loop xs (cs ++ [s0]) current yt
      end
  end.
(* sabry_cnf_gen.hs:627-637 *)
Definition carry_save_multiplier (adder : list bit -> list bit -> M (list bit)) (xs ys : list bit)
  : M (list bit) :=
  match ys with
  | [] => failM K PatternFailed
  | y :: yt =>
      first_results <~ csm_row xs y (map (fun _ => (low, low)) xs) ;;
      '(cs, last_results) <~ middle_loop xs [] first_results yt ;;
      let '(last_carries, last_sums) := split last_results in
      match last_sums with
      | [] => failM K PatternFailed
      | s0 :: st =>
          rest_cs <~ adder last_carries (st ++ [low]) ;;
          ret K (cs ++ [s0] ++ rest_cs)
      end
  end.

(* sabry_cnf_gen.hs:359-362 *)
Definition shift (n : nat) (bs : list bit) : list bit := repeat low n ++ bs.

(* sabry_cnf_gen.hs:593-621.  The first argument bounds the depth of the recursion. *)
Fixpoint recursive_multiplier (depth : nat) (bound : nat) (adder : list bit -> list bit -> M (list bit))
    (xs ys : list bit) : M (list bit) :=
  let n := max (length xs) (length ys) in
  let half_n := Nat.div2 (n + 1) in
  if (n <=? bound)%nat then wallace_multiplier adder xs ys
  else match depth with
  | O => failM K Loops
  | S depth' =>
      let exs := padded n xs in
      let eys := padded n ys in
      let bs := firstn half_n exs in let as_ := skipn half_n exs in
      let ds := firstn half_n eys in let cs := skipn half_n eys in
      if (length ys <=? half_n)%nat then
        p3 <~ recursive_multiplier depth' bound adder bs ds ;;
        p2 <~ recursive_multiplier depth' bound adder as_ ds ;;
        adder (shift half_n p2) p3
      else
        p1 <~ recursive_multiplier depth' bound adder as_ cs ;;
        p3 <~ recursive_multiplier depth' bound adder bs ds ;;
        asbs <~ adder as_ bs ;;
        csds <~ adder cs ds ;;
        p2p1p3 <~ recursive_multiplier depth' bound adder asbs csds ;;
        p2p3 <~ subt p2p1p3 p1 ;;
        p2 <~ subt p2p3 p3 ;;
        s1 <~ adder (shift (half_n * 2) p1) (shift half_n p2) ;;
        adder s1 p3
  end.

(* the second and third command-line arguments, sabry_cnf_gen.hs:684-693; bound = 20 (lines 670-672).
   The depth given is larger than any reached (PGen3.recursive_ok). *)
Inductive adder_arg := NBit | Fast.
Inductive multiplier_arg := CarrySave | Wallace | Recursive.
Definition bound : nat := 20.
Definition adder_of (a : adder_arg) : list bit -> list bit -> M (list bit) :=
  match a with NBit => n_adder | Fast => fast_adder end.
Definition multiplier_of (a : adder_arg) (m : multiplier_arg) (xs ys : list bit) : M (list bit) :=
  match m with
  | CarrySave => carry_save_multiplier (adder_of a) xs ys
  | Wallace => wallace_multiplier (adder_of a) xs ys
  | Recursive => recursive_multiplier (max (length xs) (length ys)) bound (adder_of a) xs ys
  end.
End Circuits.

(* ---- Standard interpretation, sabry_cnf_gen.hs:130-166 ---- *)
Inductive std (A : Type) := Std (a : A) | StdFails (f : failure).
Arguments Std {A}. Arguments StdFails {A}.
Definition std_bind {A B} (m : std A) (f : A -> std B) : std B :=
  match m with Std a => f a | StdFails e => StdFails e end.
Definition std_lift2 (f : bool -> bool -> bool) (a b : bit) : std bit :=
  match a, b with Bool x, Bool y => Std (Bool (f x y)) | _, _ => StdFails PatternFailed end.
Definition std_circuit : circuit std := {|
  ret := fun A a => Std a;
  bindM := fun A B => @std_bind A B;
  failM := fun A e => StdFails e;
  not1 := fun a => match a with Bool x => Std (Bool (negb x)) | _ => StdFails PatternFailed end;
  assert1 := fun a y => match a with
                        | Bool x => if Bool.eqb x y then Std tt else StdFails AssertionFailed
                        | _ => StdFails PatternFailed
                        end;
  and2 := std_lift2 andb;
  or2 := std_lift2 orb;
  xor2 := std_lift2 xorb;
  mux3 := fun s a b => match s with
                       | Bool false => Std a
                       | Bool true => Std b
                       | _ => StdFails PatternFailed
                       end |}.

(* sabry_cnf_gen.hs:420-422, 443-444, 522-524, 554-556, 564-566: the tests of the source; None: no number *)
Definition simulated (m : std (list bit)) : option Z :=
  match m with Std bs => bits2int bs | StdFails _ => None end.
Definition test_adder (a : adder_arg) (x y : Z) : option Z :=
  simulated (adder_of std_circuit a (int2bits x) (int2bits y)).
Definition test_w_adder (xs : list Z) : option Z :=
  simulated (w_adder std_circuit (n_adder std_circuit) (map int2bits xs)).
Definition test_sub (x y : Z) : option Z := simulated (subt std_circuit (int2bits x) (int2bits y)).
Definition test_multiplier (a : adder_arg) (m : multiplier_arg) (x y : Z) : option Z :=
  simulated (multiplier_of std_circuit a m (int2bits x) (int2bits y)).

(* ---- Symbolic interpretation, sabry_cnf_gen.hs:168-264 ----
   The supply of fresh names [v..] is its first element.  The descriptions are kept as gates and turned
   into clauses afterwards (gate_clauses), instead of gate by gate; comments are left out. *)
Inductive gate :=
| GAnd (v a b : bit) | GOr (v a b : bit) | GXor (v a b : bit) | GMux (v s a b : bit) | GAssert (v : bit) (x : bool).

Inductive outcome (A : Type) := Done (a : A) (next : Z) (ds : list gate) | Fails (f : failure).
Arguments Done {A}. Arguments Fails {A}.
Definition sym (A : Type) := Z -> outcome A.

(* sabry_cnf_gen.hs:197-204 *)
Definition sym_ret {A} (a : A) : sym A := fun v => Done a v [].
Definition sym_bind {A B} (m : sym A) (f : A -> sym B) : sym B :=
  fun v0 => match m v0 with
            | Fails e => Fails e
            | Done a v1 ds1 => match f a v1 with
                               | Fails e => Fails e
                               | Done b v2 ds2 => Done b v2 (ds1 ++ ds2)
                               end
            end.
(* sabry_cnf_gen.hs:263-264 *)
Definition newBitVar : sym bit := fun v => Done (BitVar v) (v + 1) [].
(* a gate with a fresh output, sabry_cnf_gen.hs:221-224 and alike *)
Definition new_gate (g : bit -> gate) : sym bit := fun v => Done (BitVar v) (v + 1) [g (BitVar v)].

(* sabry_cnf_gen.hs:217-224 *)
Definition sym_and2 (a b : bit) : sym bit :=
  match a, b with
  | Bool false, _ => sym_ret (Bool false)
  | _, Bool false => sym_ret (Bool false)
  | Bool true, _ => sym_ret b
  | _, Bool true => sym_ret a
  | _, _ => new_gate (fun v => GAnd v a b)
  end.
(* sabry_cnf_gen.hs:226-233 *)
Definition sym_or2 (a b : bit) : sym bit :=
  match a, b with
  | Bool true, _ => sym_ret (Bool true)
  | _, Bool true => sym_ret (Bool true)
  | Bool false, _ => sym_ret b
  | _, Bool false => sym_ret a
  | _, _ => new_gate (fun v => GOr v a b)
  end.
(* sabry_cnf_gen.hs:235-242 *)
Definition sym_xor2 (a b : bit) : sym bit :=
  match a, b with
  | Bool true, _ => sym_ret (notBit b)
  | _, Bool true => sym_ret (notBit a)
  | Bool false, _ => sym_ret b
  | _, Bool false => sym_ret a
  | _, _ => new_gate (fun v => GXor v a b)
  end.
(* sabry_cnf_gen.hs:244-246 *)
Definition sym_assert1 (a : bit) (x : bool) : sym unit :=
  match a with
  | Bool y => if Bool.eqb y x then sym_ret tt else fun _ => Fails AssertionFailed
  | _ => fun v => Done tt v [GAssert a x]
  end.
(* sabry_cnf_gen.hs:248-261 *)
Definition sym_mux3 (s a b : bit) : sym bit :=
  match s, a, b with
  | Bool false, _, _ => sym_ret a
  | Bool true, _, _ => sym_ret b
  | _, Bool false, Bool false => sym_ret (Bool false)
  | _, Bool false, Bool true => sym_ret s
  | _, Bool true, Bool false => sym_ret (notBit s)
  | _, Bool true, Bool true => sym_ret (Bool true)
  | _, Bool false, _ => sym_and2 s b
  | _, Bool true, _ => sym_or2 b (notBit s)
  | _, _, Bool false => sym_and2 (notBit s) a
  | _, _, Bool true => sym_or2 a s
  | _, _, _ => new_gate (fun v => GMux v s a b)
  end.
Definition sym_circuit : circuit sym := {|
  ret := fun A a => sym_ret a;
  bindM := fun A B => @sym_bind A B;
  failM := fun A e => fun _ => Fails e;
  not1 := fun a => sym_ret (notBit a);
  assert1 := sym_assert1;
  and2 := sym_and2;
  or2 := sym_or2;
  xor2 := sym_xor2;
  mux3 := sym_mux3 |}.

(* sabry_cnf_gen.hs:283-332: the clauses of a gate *)
Definition gate_clauses (g : gate) : list (list bit) :=
  match g with
  | GAssert v true => [[v]]
  | GAssert v false => [[notBit v]]
  | GAnd v a b => [[a; b; notBit v]; [a; notBit b; notBit v]; [notBit a; b; notBit v]; [notBit a; notBit b; v]]
  | GOr v a b => [[a; b; notBit v]; [a; notBit b; v]; [notBit a; b; v]; [notBit a; notBit b; v]]
  | GXor v a b => [[a; b; notBit v]; [a; notBit b; v]; [notBit a; b; v]; [notBit a; notBit b; notBit v]]
  | GMux v s a b => [[s; a; notBit v]; [s; notBit a; v]; [notBit s; b; notBit v]; [notBit s; notBit b; v]]
  end.
Definition clauses_of (ds : list gate) : list (list bit) := flat_map gate_clauses ds.

(* sabry_cnf_gen.hs:570-587 *)
Definition keepBitVar (b : bit) : bool := match b with Bool _ => false | _ => true end.
Definition bit_value (b : bit) : bool := match b with Bool x => x | _ => false end.
Definition sym_multiplier (m : list bit -> list bit -> sym (list bit)) (output_bits : list bit)
  : sym (list bit * list bit * list bit) :=
  let output_vals := map bit_value output_bits in
  let output_size := length output_bits in
  let input1_size := (output_size - 1)%nat in
  let input2_size := Nat.div2 (output_size + 1) in
  sym_bind (mapM sym_circuit (fun _ => newBitVar) (seq 1 input1_size)) (fun xs =>
  sym_bind (mapM sym_circuit (fun _ => newBitVar) (seq 1 input2_size)) (fun ys =>
  sym_bind (m xs ys) (fun cs' =>
  let cs := filter keepBitVar cs' in
  sym_bind (assert_n sym_circuit cs output_vals) (fun _ =>
  sym_ret (xs, ys, cs))))).

(* sabry_cnf_gen.hs:174-175, 266-272 and 695: firstVar = 1; the last variable is the one before the next fresh one *)
Record generated := Generated {
  g_first : list bit; g_second : list bit; g_output : list bit; g_last : Z; g_cnf : list (list bit) }.
Definition generate (a : adder_arg) (m : multiplier_arg) (n : Z) : option generated :=
  match sym_multiplier (multiplier_of sym_circuit a m) (int2bits n) 1 with
  | Done (xs, ys, cs) next ds => Some (Generated xs ys cs (next - 1) (clauses_of ds))
  | Fails _ => None
  end.

(* sabry_cnf_gen.hs:56-60 *)
Definition show_bit (b : bit) : text :=
  match b with
  | Bool true => txt "True" | Bool false => txt "False"
  | BitVar v => str_Z v | NotBitVar v => txt "-" ++ str_Z v
  end.
(* show of a list *)
Definition show_bits (bs : list bit) : text := txt "[" ++ join (txt ",") (map show_bit bs) ++ txt "]".
(* sabry_cnf_gen.hs:347-349 *)
Definition show_clause (c : list bit) : text := join (txt " ") (map show_bit c) ++ txt " 0".
Definition adder_name (a : adder_arg) : text := match a with NBit => txt "n-bit" | Fast => txt "fast" end.
Definition multiplier_name (m : multiplier_arg) : text :=
  match m with CarrySave => txt "carry-save" | Wallace => txt "wallace" | Recursive => txt "recursive" end.

(* sabry_cnf_gen.hs:697-712: what main prints, as the list of its lines; the text ends with a newline.
   None: an error ("Input number must be greater than 1", lines 680-682, or a failure of the generation). *)
Definition gen_lines (a : adder_arg) (m : multiplier_arg) (n : Z) (g : generated) : list text :=
  [txt "c Problem generated from " ++ multiplier_name m ++ txt "[" ++ adder_name a ++
     txt "] multiplication circuit";
   txt "c by Paul Purdom and Amr Sabry";
   txt "c";
   txt "c Circuit for product = " ++ str_Z n ++ txt " " ++ show_bits (rev (int2bits n));
   txt "c Variables for output [msb,...,lsb]: " ++ show_bits (rev (g_output g));
   txt "c Variables for first input [msb,...,lsb]: " ++ show_bits (rev (g_first g));
   txt "c Variables for second input [msb,...,lsb]: " ++ show_bits (rev (g_second g));
   txt "c";
   txt "c";
   txt "p cnf " ++ str_Z (g_last g) ++ txt " " ++ str_Z (Z.of_nat (length (g_cnf g)))] ++
  map show_clause (g_cnf g).
Definition gen_main (a : adder_arg) (m : multiplier_arg) (n : Z) : option text :=
  if n <=? 1 then None else
  match generate a m n with
  | None => None
  | Some g => Some (join (txt "
") (gen_lines a m n g ++ [[]]))
  end.

Example gen_ex : exists g, generate NBit Wallace 4 = Some g /\ g_last g = 12 /\ length (g_cnf g) = 36%nat /\
  hd [] (g_cnf g) = [BitVar 1; BitVar 3; NotBitVar 5].
Proof. eexists. split; [vm_compute; reflexivity|]. repeat split. Qed.
Example test_ex : test_multiplier Fast Recursive 123 45 = Some 5535 /\ test_sub 9 4 = Some 5 /\
  test_w_adder [1; 2; 3; 4; 5] = Some 15.
Proof. vm_compute. auto. Qed.
