(* PyBase.v -- the fragment of Python's data model used by the code in /repo.
   Exceptions are values; dictionaries are association lists in insertion order; list.sort and
   sorted are a stable insertion sort driven by the comparison the code supplies; text is a list
   of ASCII characters (the program only handles ASCII: Set.py:441 encodes to "ascii"). *)
From Coq Require Import String Ascii ZArith List Bool.
Import ListNotations.
Open Scope Z_scope.

(* ---- exceptions ---- *)
Inductive exn :=
| ValueError | KeyError | IndexError | TypeError | AttributeError
| UnboundLocalError | RecursionError | OtherException.

Inductive result (A : Type) := Ok (a : A) | Err (e : exn) | OutOfFuel.
Arguments Ok {A} _. Arguments Err {A} _. Arguments OutOfFuel {A}.

Definition bind {A B} (r : result A) (k : A -> result B) : result B :=
  match r with Ok a => k a | Err e => Err e | OutOfFuel => OutOfFuel end.
Notation "x <- e ;; k" := (bind e (fun x => k)) (at level 61, e at next level, right associativity).
Notation "' p <- e ;; k" := (bind e (fun p => k))
  (at level 61, p pattern, e at next level, right associativity).

Fixpoint mapM {A B} (f : A -> result B) (l : list A) : result (list B) :=
  match l with
  | [] => Ok []
  | x :: t => y <- f x ;; ys <- mapM f t ;; Ok (y :: ys)
  end.

Definition of_option {A} (e : exn) (o : option A) : result A :=
  match o with Some a => Ok a | None => Err e end.

(* ---- dictionaries (insertion ordered, as in CPython >= 3.7) ---- *)
Section Dict.
  Context {K V : Type} (eqb : K -> K -> bool).
  Fixpoint dget (k : K) (d : list (K * V)) : option V :=
    match d with
    | [] => None
    | (k', v) :: t => if eqb k k' then Some v else dget k t
    end.
  (* d[k] = v : keeps the position of an existing key *)
  Fixpoint dset (k : K) (v : V) (d : list (K * V)) : list (K * V) :=
    match d with
    | [] => [(k, v)]
    | (k', v') :: t => if eqb k k' then (k', v) :: t else (k', v') :: dset k v t
    end.
  Definition dmem (k : K) (d : list (K * V)) : bool :=
    match dget k d with Some _ => true | None => false end.
  (* d.update(d2) *)
  Definition dupdate (d d2 : list (K * V)) : list (K * V) :=
    fold_left (fun acc kv => dset (fst kv) (snd kv) acc) d2 d.
End Dict.
Definition dkeys {K V} (d : list (K * V)) : list K := map fst d.

(* ---- lists ---- *)
(* l[i], with Python's negative indices *)
Definition py_index {A} (l : list A) (i : Z) : result A :=
  let n := Z.of_nat (List.length l) in
  let j := if i <? 0 then i + n else i in
  if (j <? 0) || (n <=? j) then Err IndexError
  else of_option IndexError (nth_error l (Z.to_nat j)).

(* stable sort: an element moves right only past strictly smaller ones *)
Section Sort.
  Context {A : Type} (lt : A -> A -> bool).
  Fixpoint insert_by (x : A) (l : list A) : list A :=
    match l with
    | [] => [x]
    | y :: t => if lt y x then y :: insert_by x t else x :: y :: t
    end.
  Fixpoint sort_by (l : list A) : list A :=
    match l with
    | [] => []
    | x :: t => insert_by x (sort_by t)
    end.
End Sort.

(* membership and removal of the first occurrence: x in l, l.pop(l.index(x)) *)
Fixpoint zmem (x : Z) (l : list Z) : bool :=
  match l with [] => false | y :: t => (x =? y) || zmem x t end.
Fixpoint remove_first (x : Z) (l : list Z) : list Z :=
  match l with
  | [] => []
  | y :: t => if x =? y then t else y :: remove_first x t
  end.
(* distinct elements, in order of first occurrence (one enumeration of a Python set) *)
Fixpoint dedup_acc (seen l : list Z) : list Z :=
  match l with
  | [] => []
  | x :: t => if zmem x seen then dedup_acc seen t else x :: dedup_acc (x :: seen) t
  end.
Definition dedup (l : list Z) : list Z := dedup_acc [] l.

(* ---- text ---- *)
Definition text := list ascii.
Definition txt (s : string) : text := list_ascii_of_string s.

Fixpoint text_eqb (a b : text) : bool :=
  match a, b with
  | [], [] => true
  | x :: a', y :: b' => Ascii.eqb x y && text_eqb a' b'
  | _, _ => false
  end.

Definition code (c : ascii) : N := N_of_ascii c.
(* whitespace recognised by int() on ASCII text: \t \n \v \f \r and blank *)
Definition is_space (c : ascii) : bool :=
  let n := code c in ((n =? 32) || ((9 <=? n) && (n <=? 13)))%N.
(* whitespace recognised by str.strip() and str.split() on ASCII text: also \x1c..\x1f *)
Definition is_uspace (c : ascii) : bool :=
  is_space c || let n := code c in ((28 <=? n) && (n <=? 31))%N.

Fixpoint lstrip (sp : ascii -> bool) (t : text) : text :=
  match t with [] => [] | c :: t' => if sp c then lstrip sp t' else t end.
Definition strip (sp : ascii -> bool) (t : text) : text :=
  rev (lstrip sp (rev (lstrip sp t))).

(* t.split(c) for a one-character separator: never empty *)
Fixpoint split_on (c : ascii) (t : text) : list text :=
  match t with
  | [] => [[]]
  | x :: t' =>
      if Ascii.eqb x c then [] :: split_on c t'
      else match split_on c t' with
           | [] => [[x]]
           | p :: ps => (x :: p) :: ps
           end
  end.

(* t.split(): maximal runs of non-whitespace *)
Fixpoint split_ws_acc (cur : text) (t : text) : list text :=
  match t with
  | [] => match cur with [] => [] | _ => [rev cur] end
  | x :: t' =>
      if is_uspace x
      then match cur with [] => split_ws_acc [] t' | _ => rev cur :: split_ws_acc [] t' end
      else split_ws_acc (x :: cur) t'
  end.
Definition split_ws (t : text) : list text := split_ws_acc [] t.

(* sep.join(parts) *)
Fixpoint join (sep : text) (parts : list text) : text :=
  match parts with
  | [] => []
  | [p] => p
  | p :: ps => p ++ sep ++ join sep ps
  end.

Definition remove_char (c : ascii) (t : text) : text := filter (fun x => negb (Ascii.eqb x c)) t.

Fixpoint starts_with (p t : text) : bool :=
  match p, t with
  | [], _ => true
  | x :: p', y :: t' => Ascii.eqb x y && starts_with p' t'
  | _ :: _, [] => false
  end.

(* str(n) for integers *)
Definition digit_char (n : N) : ascii := ascii_of_N (48 + n).
Fixpoint digits_fuel (f : nat) (n : N) (acc : text) : text :=
  match f with
  | O => acc
  | S f' =>
      let acc' := digit_char (n mod 10)%N :: acc in
      if (n / 10 =? 0)%N then acc' else digits_fuel f' (n / 10)%N acc'
  end.
Definition digits_N (n : N) : text := digits_fuel (S (N.size_nat n)) n [].
Definition str_Z (z : Z) : text :=
  if z <? 0 then "-"%char :: digits_N (Z.to_N (- z)) else digits_N (Z.to_N z).

(* int(t) for ASCII text: blanks around, optional sign, digits with single underscores between
   them.  (CPython's 4300-digit limit is not modelled.)  None = ValueError. *)
Definition digit_val (c : ascii) : option Z :=
  let n := code c in
  if ((48 <=? n) && (n <=? 57))%N then Some (Z.of_N (n - 48)) else None.
Fixpoint digits_val (prev : bool) (acc : Z) (t : text) : option Z :=
  match t with
  | [] => if prev then Some acc else None
  | c :: t' =>
      match digit_val c with
      | Some d => digits_val true (acc * 10 + d) t'
      | None => if Ascii.eqb c "_"%char && prev then digits_val false acc t' else None
      end
  end.
Definition py_int (t : text) : option Z :=
  match strip is_space t with
  | [] => None
  | c :: t' =>
      if Ascii.eqb c "-"%char then option_map Z.opp (digits_val false 0 t')
      else if Ascii.eqb c "+"%char then digits_val false 0 t'
      else digits_val false 0 (c :: t')
  end.

Example py_int_ex1 : py_int (txt " -12 ") = Some (-12). Proof. reflexivity. Qed.
Example py_int_ex2 : py_int (txt "1_0") = Some 10. Proof. reflexivity. Qed.
Example py_int_ex3 : py_int (txt "x") = None. Proof. reflexivity. Qed.
Example str_Z_ex : str_Z (-120) = txt "-120". Proof. reflexivity. Qed.
