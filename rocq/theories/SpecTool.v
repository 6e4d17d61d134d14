(* SpecTool.v -- vocabulary of the properties about the command-line tools: what a transformation means for the numbers in
   a DIMACS file.  Definitions only. *)
From Coq Require Import String Ascii ZArith List Bool Permutation.
From Verif Require Import Spec SpecInput SpecFile PyBase MText MCnf MFam MTrans MTool SpecCnf SpecFam.
Import ListNotations.
Open Scope Z_scope.

(* every literal is one of the variables 1 .. n or its negation *)
Definition over (n : Z) (F : list (list Z)) : Prop := forall cl l, In cl F -> In l cl -> 1 <= Z.abs l <= n.

(* the variables 1 .. n renamed among themselves, some of them negated *)
Record renaming (n : Z) (sigma : Z -> Z) : Prop := mkRenaming {
  rn_range : forall l, 1 <= Z.abs l <= n -> 1 <= Z.abs (sigma l) <= n;
  rn_negation : forall l, sigma (- l) = - sigma l;
  rn_different : forall l l', 1 <= Z.abs l <= n -> 1 <= Z.abs l' <= n -> sigma l = sigma l' -> l = l'
}.
(* what random.shuffle and random.choice([-1, 1]) promise *)
Record fair_shuffling (s : shuffling) : Prop := mkFair {
  fs_variables : forall l, Permutation (sh_variables s l) l;
  fs_clauses : forall l, Permutation (sh_clauses s l) l;
  fs_choice : forall i, sh_choice s i = 1 \/ sh_choice s i = -1
}.

(* ---- the value that an assignment of the new variables gives to the variable v ---- *)
(* the variable v is replaced by k variables, the i-th (from 0) of them has the number *)
Definition part (k v i : Z) : Z := k * (v - 1) + 1 + i.
Definition count_parts (a : assignment) (k v : Z) : Z := how_many (fun i => a (part k v i)) (range 0 k).
(* the lifted variable v selects its value number s *)
Definition selected (a : assignment) (k v s : Z) : Prop :=
  0 <= s < k /\ forall i, 0 <= i < k -> (a (part (2 * k) v i) = true <-> i = s).
(* the left vertices adjacent to the v-th right vertex; the new variables are the left vertices in their order *)
Definition around (b : bipartite) (v : Z) : list Z :=
  map fst (filter (fun e => snd e =? nth (Z.to_nat (v - 1)) (b_right b) 0) (b_edges b)).
Definition place (u : Z) (l : list Z) (k : Z) : Prop := exists i, nth_error l i = Some u /\ k = 1 + Z.of_nat i.
Definition compressed_value (majority : bool) (b : bipartite) (a : assignment) (v : Z) : Prop :=
  exists ks, Forall2 (fun u k => place u (b_left b) k) (around b v) ks /\
    if majority then Z.of_nat (List.length ks) <= 2 * how_many a ks else Z.Odd (how_many a ks).
Definition value_of (t : transformation) (a : assignment) (v : Z) : Prop :=
  match t with
  | T_none | T_shuffle _ => a v = true
  | T_or k => exists i, 0 <= i < k /\ a (part k v i) = true
  | T_xor k => Z.Odd (count_parts a k v)
  | T_eq k => forall i j, 0 <= i < k -> 0 <= j < k -> a (part k v i) = a (part k v j)
  | T_neq k => exists i j, 0 <= i < k /\ 0 <= j < k /\ a (part k v i) <> a (part k v j)
  | T_maj k => k <= 2 * count_parts a k v
  | T_ite => if a (part 3 v 0) then a (part 3 v 1) = true else a (part 3 v 2) = true
  | T_one k => count_parts a k v = 1
  | T_lift k => exists s, selected a k v s /\ a (part (2 * k) v (k + s)) = true
  | T_flip => a v = false
  | T_xorcomp b => compressed_value false b a v
  | T_majcomp b => compressed_value true b a v
  end.
(* only the lifting restricts the new variables: one value must be selected *)
Definition admissible (t : transformation) (n : Z) (a : assignment) : Prop :=
  match t with T_lift k => forall v, 1 <= v <= n -> exists s, selected a k v s | _ => True end.
(* how many variables a formula over n variables has afterwards *)
Definition new_size (t : transformation) (n : Z) : Z :=
  match t with
  | T_none | T_flip | T_shuffle _ => n
  | T_or k | T_xor k | T_eq k | T_neq k | T_maj k | T_one k => k * n
  | T_ite => 3 * n
  | T_lift k => 2 * k * n
  | T_xorcomp b | T_majcomp b => Z.of_nat (List.length (b_left b))
  end.
(* the arguments with which a transformation does what its name says *)
Definition proper (t : transformation) (n : Z) : Prop :=
  match t with
  | T_none | T_flip | T_ite => True
  | T_or k | T_xor k | T_maj k | T_one k | T_lift k => 1 <= k
  | T_eq k | T_neq k => 2 <= k
  | T_xorcomp b | T_majcomp b => bipartite_graph b /\ Z.of_nat (List.length (b_right b)) = n
  | T_shuffle s => fair_shuffling s
  end.
Definition is_shuffle (t : transformation) : Prop := exists s, t = T_shuffle s.
Definition compresses (t : transformation) : Prop := exists b, t = T_xorcomp b \/ t = T_majcomp b.
(* the comments h' of the output: none with -q, otherwise those of the input, without trailing blanks, after a title *)
Definition comments_kept (t : transformation) (verbose : bool) (h h' : text) : Prop :=
  (verbose = false -> h' = []) /\
  (verbose = true -> forall ls, Forall one_line ls -> h = ended ls -> exists ts, (t = T_none -> ts = []) /\ h' = ended (ts ++ map rstrip ls)).
