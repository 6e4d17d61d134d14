(* MCnf.v -- the core of the bundled formula generator, software/cnfgen/cnfformula/cnf.py: itertools as used
   there, the CNF object, DIMACS output, cardinality and parity constraints, unary and binary mappings.
   Simplifications: a CNF object is its list of variable names (_index2name without the leading None) and its
   list of compressed clauses; _name2index, which the code keeps as the inverse of _index2name, is computed
   from it; descriptions of variables, the header (given to dimacs as text) and the flag _coherent (true
   throughout the public interface) are left out. *)
From Coq Require Import String Ascii ZArith List Bool.
From Verif Require Import PyBase MText.
Import ListNotations.
Open Scope Z_scope.

(* ---- itertools ---- *)
(* combinations(l, k): by position, in the order of the positions *)
Fixpoint combinations {A} (l : list A) (k : nat) : list (list A) :=
  match k, l with
  | O, _ => [[]]
  | S _, [] => []
  | S k', x :: t => map (cons x) (combinations t k') ++ combinations t k
  end.
(* combinations(l, 2) as pairs, combinations(l, 3) as triples *)
Fixpoint pairs {A} (l : list A) : list (A * A) :=
  match l with [] => [] | x :: t => map (pair x) t ++ pairs t end.
Fixpoint triples {A} (l : list A) : list (A * A * A) :=
  match l with [] => [] | x :: t => map (fun p => (x, fst p, snd p)) (pairs t) ++ triples t end.
(* product(l1, l2, ...) *)
Fixpoint products {A} (ls : list (list A)) : list (list A) :=
  match ls with
  | [] => [[]]
  | l :: rest => flat_map (fun x => map (cons x) (products rest)) l
  end.
(* each element with the others, in order *)
Fixpoint selections {A} (l : list A) : list (A * list A) :=
  match l with [] => [] | x :: t => (x, t) :: map (fun p => (fst p, x :: snd p)) (selections t) end.
(* permutations(l, 2) and permutations(l, 3) *)
Definition permutations2 {A} (l : list A) : list (A * A) :=
  flat_map (fun p => map (pair (fst p)) (snd p)) (selections l).
Definition permutations3 {A} (l : list A) : list (A * A * A) :=
  flat_map (fun p => map (fun q => (fst p, fst q, snd q)) (permutations2 (snd p))) (selections l).
(* range(a, b) *)
Definition range (a b : Z) : list Z := map (fun i => a + Z.of_nat i) (seq 0 (Z.to_nat (b - a))).

(* a literal: polarity and variable *)
Notation plit A := (bool * A)%type (only parsing).

(* ---- constraints, cnf.py:786-1081 ---- *)
Section Constraints.
  Context {A : Type}.

  (* cnf.py:786-823; constant 0 or 1 *)
  Definition parity_constraint (variables : list A) (constant : Z) : list (list (plit A)) :=
    filter (fun c => negb (Z.of_nat (List.length (filter (fun l => negb (fst l)) c)) mod 2 =? constant))
           (products (map (fun v => [(true, v); (false, v)]) variables)).

  (* cnf.py:826-845 *)
  Definition inequality_constraint (variables : list A) (k : Z) (greater : bool) : list (list (plit A)) :=
    let n := Z.of_nat (List.length variables) in
    let k' := if greater then n - k else k in
    if n <? k' then []
    else if k' <? 0 then [[]]
    else map (map (pair greater)) (combinations variables (Z.to_nat k')).
  (* cnf.py:847-987 *)
  Definition less_than_constraint (vs : list A) (u : Z) := inequality_constraint vs u false.
  Definition less_or_equal_constraint (vs : list A) (u : Z) := inequality_constraint vs (u + 1) false.
  Definition greater_than_constraint (vs : list A) (l : Z) := inequality_constraint vs l true.
  Definition greater_or_equal_constraint (vs : list A) (l : Z) := inequality_constraint vs (l - 1) true.
  (* cnf.py:989-1017 *)
  Definition equal_to_constraint (vs : list A) (x : Z) :=
    less_or_equal_constraint vs x ++ greater_or_equal_constraint vs x.
  (* cnf.py:1019-1081; int(x/2) on floats, exact for lengths below 2^53 *)
  Definition loose_majority_constraint (vs : list A) :=
    greater_or_equal_constraint vs ((Z.of_nat (List.length vs) + 1) / 2).
  Definition loose_minority_constraint (vs : list A) :=
    less_or_equal_constraint vs (Z.of_nat (List.length vs) / 2).
  Definition exactly_half_ceil (vs : list A) := equal_to_constraint vs ((Z.of_nat (List.length vs) + 1) / 2).
  Definition exactly_half_floor (vs : list A) := equal_to_constraint vs (Z.of_nat (List.length vs) / 2).
End Constraints.

(* ---- the CNF object, cnf.py:70-484 ---- *)
Record cnf := mkCnf { cn_names : list text; cn_clauses : list (list Z) }.
Definition empty_cnf : cnf := mkCnf [] [].

(* _name2index.get(n), the first variable being number i *)
Fixpoint position (n : text) (names : list text) (i : Z) : option Z :=
  match names with
  | [] => None
  | m :: t => if text_eqb n m then Some i else position n t (i + 1)
  end.
(* cnf.py:439-465 *)
Definition add_variable (v : text) (c : cnf) : cnf :=
  match position v (cn_names c) 1 with
  | Some _ => c
  | None => mkCnf (cn_names c ++ [v]) (cn_clauses c)
  end.
(* cnf.py:158-185 *)
Definition compress_clause (names : list text) (cl : list (plit text)) : result (list Z) :=
  mapM (fun l : plit text => i <- of_option KeyError (position (snd l) names 1) ;; Ok ((if fst l then 1 else -1) * i)) cl.
Definition append_clause (c : cnf) (cl : list Z) : cnf := mkCnf (cn_names c) (cn_clauses c ++ [cl]).

Definition literal_eqb (a b : plit text) : bool := Bool.eqb (fst a) (fst b) && text_eqb (snd a) (snd b).
(* len(set(clause)) != len(clause) *)
Fixpoint repeated (cl : list (plit text)) : bool :=
  match cl with [] => false | l :: t => existsb (literal_eqb l) t || repeated t end.
(* a variable with both polarities *)
Definition opposite (cl : list (plit text)) : bool :=
  existsb (fun l => fst l && existsb (literal_eqb (false, snd l)) cl) cl.

(* cnf.py:311-407: in the code the object is changed in place; an error leaves it as it was *)
Definition add_clause_with (literal_repetitions opposite_literals auto_variables strict : bool)
  (cl : list (plit text)) (c : cnf) : result cnf :=
  if negb (literal_repetitions && negb strict) && repeated cl then Err ValueError
  else if negb (opposite_literals && negb strict) && opposite cl then Err ValueError
  else match compress_clause (cn_names c) cl with
       | Ok z => Ok (append_clause c z)
       | Err _ =>
           if auto_variables && negb strict
           then let c' := fold_left (fun c l => add_variable (snd l) c) cl c in
                z <- compress_clause (cn_names c') cl ;; Ok (append_clause c' z)
           else Err ValueError
       | OutOfFuel => OutOfFuel
       end.
(* add_clause(cl), add_clause(cl, strict=True), add_clause_unsafe(cl) (cnf.py:410-436) *)
Definition cnf_add_clause (cl : list (plit text)) (c : cnf) : result cnf := add_clause_with false false true false cl c.
Definition add_clause_strict (cl : list (plit text)) (c : cnf) : result cnf := add_clause_with false false true true cl c.
Definition add_clause_unsafe (cl : list (plit text)) (c : cnf) : result cnf :=
  z <- compress_clause (cn_names c) cl ;; Ok (append_clause c z).

(* for c in clauses: F.add_...(c) *)
Fixpoint add_all (add : list (plit text) -> cnf -> result cnf) (cls : list (list (plit text))) (c : cnf) : result cnf :=
  match cls with [] => Ok c | cl :: t => c' <- add cl c ;; add_all add t c' end.
(* for v in variables: F.add_variable(v) *)
Definition add_variables (vs : list text) (c : cnf) : cnf := fold_left (fun c v => add_variable v c) vs c.

(* CNF(clauses) (cnf.py:70-105) *)
Definition cnf_of (cls : list (list (plit text))) : result cnf := add_all cnf_add_clause cls empty_cnf.

(* variables() (cnf.py:471-477); clauses(), __iter__, _uncompress_clause (cnf.py:122-127, 145-156, 479-483) *)
Definition cnf_variables (c : cnf) : list text := cn_names c.
Definition uncompress_clause (names : list text) (cl : list Z) : list (plit text) :=
  map (fun l => (0 <? l, nth (Z.to_nat (Z.abs l - 1)) names [])) cl.
Definition cnf_clauses (c : cnf) : list (list (plit text)) := map (uncompress_clause (cn_names c)) (cn_clauses c).

(* ---- DIMACS, cnf.py:486-563 ---- *)
Definition rstrip (t : text) : text := rev (lstrip is_uspace (rev t)).
Definition comment_of (line : text) : text := rstrip (txt "c " ++ line).
(* header and extra_text, when export_header *)
Definition comments (header : text) (extra : option text) : list text :=
  map comment_of (removelast (split_on newline header)) ++
  match extra with Some t => map comment_of (split_on newline t) | None => [] end.
Definition clause_line (cl : list Z) : text := join (txt " ") (map str_Z (cl ++ [0])).
Definition dimacs (export_header : bool) (header : text) (extra : option text) (c : cnf) : text :=
  concat (map (fun l => l ++ [newline]) (if export_header then comments header extra else [])) ++
  txt "p cnf " ++ str_Z (Z.of_nat (List.length (cn_names c))) ++ txt " " ++ str_Z (Z.of_nat (List.length (cn_clauses c))) ++
  (match cn_clauses c with [] => [newline] | _ => [] end) ++
  concat (map (fun cl => newline :: clause_line cl) (cn_clauses c)).
(* cnfgen.py:257-265: print(output, file=args.output) *)
Definition cnfgen_file (verbose : bool) (header : text) (command_line : text) (c : cnf) : text :=
  dimacs verbose header (Some (txt "COMMAND LINE: cnfgen " ++ command_line ++ [newline])) c ++ [newline].

(* ---- unary mappings, cnf.py:1083-1261 ---- *)
Section Unary.
  Context {A B : Type}.
  Record unary_mapping := mkUnary {
    um_domain : list A;
    um_range : list B;
    um_images : A -> list B;
    um_counterimages : B -> list A;
    um_rank : B -> Z;                 (* RankRange *)
    um_name : A -> B -> text;
    um_complete : bool; um_functional : bool; um_surjective : bool; um_injective : bool; um_nondecreasing : bool
  }.
  (* cnf.py:1222-1225 *)
  Definition um_variables (m : unary_mapping) : list text :=
    flat_map (fun d => map (um_name m d) (um_images m d)) (um_domain m).
  (* cnf.py:1228-1261 *)
  Definition um_clauses (m : unary_mapping) : list (list (plit text)) :=
    (if um_complete m
     then flat_map (fun d => greater_or_equal_constraint (map (um_name m d) (um_images m d)) 1) (um_domain m) else []) ++
    (if um_surjective m
     then flat_map (fun r => greater_or_equal_constraint (map (fun d => um_name m d r) (um_counterimages m r)) 1) (um_range m) else []) ++
    (if um_injective m
     then flat_map (fun r => less_or_equal_constraint (map (fun d => um_name m d r) (um_counterimages m r)) 1) (um_range m) else []) ++
    (if um_functional m
     then flat_map (fun d => less_or_equal_constraint (map (um_name m d) (um_images m d)) 1) (um_domain m) else []) ++
    (if um_nondecreasing m
     then flat_map (fun ab => flat_map (fun i => flat_map (fun j =>
            if um_rank m j <? um_rank m i then [[(false, um_name m (fst ab) i); (false, um_name m (snd ab) j)]] else [])
            (um_images m (snd ab))) (um_images m (fst ab))) (pairs (um_domain m)) else []).
End Unary.
Arguments unary_mapping : clear implicits.
(* without sparsity_pattern (cnf.py:1162-1220): images are the range, counterimages the domain *)
Fixpoint rank_of (x : Z) (l : list Z) (i : Z) : Z :=
  match l with [] => 0 | y :: t => if x =? y then i else rank_of x t (i + 1) end.
Definition plain_mapping (D R : list Z) (name : Z -> Z -> text) (functional surjective injective nondecreasing : bool)
  : unary_mapping Z Z :=
  mkUnary D R (fun _ => R) (fun _ => D) (fun r => rank_of r R 1) name true functional surjective injective nondecreasing.

(* ---- binary mappings, cnf.py:1265-1369 ----
   [bits] is int(ceil(log(len(R), 2))): a floating-point computation, left as a parameter here. *)
Record binary_mapping := mkBinary {
  bm_domain : list Z; bm_range : list Z; bm_bits : nat; bm_name : Z -> Z -> text;
  bm_injective : bool; bm_nondecreasing : bool }.
(* product([0,1], repeat=bits) *)
Definition bitstrings (bits : nat) : list (list bool) := products (repeat [false; true] bits).
(* cnf.py:1280-1282 *)
Definition bm_variables (m : binary_mapping) : list text :=
  flat_map (fun v => map (fun b => bm_name m v (Z.of_nat b)) (seq 0 (bm_bits m))) (bm_domain m).
(* cnf.py:1341-1344: bit b of the string belongs to variable number bits-1-b *)
Definition forbid_bitstring (m : binary_mapping) (i : Z) (bs : list bool) : list (plit text) :=
  map (fun bv => (negb (fst bv), bm_name m i (Z.of_nat (snd bv)))) (combine bs (rev (seq 0 (bm_bits m)))).
(* cnf.py:1326-1333, 1346-1348: the bit string of the element of the range at this position *)
Definition forbid_image (m : binary_mapping) (i : Z) (bs : list bool) : list (plit text) := forbid_bitstring m i bs.
(* the strings of the elements of the range, with them *)
Definition coded_range (m : binary_mapping) : list (Z * list bool) := combine (bm_range m) (bitstrings (bm_bits m)).
(* cnf.py:1350-1369 *)
Definition bm_clauses (m : binary_mapping) : list (list (plit text)) :=
  flat_map (fun i => map (forbid_bitstring m i) (skipn (List.length (bm_range m)) (bitstrings (bm_bits m)))) (bm_domain m) ++
  (if bm_injective m
   then flat_map (fun jb => map (fun ii => forbid_image m (fst ii) (snd jb) ++ forbid_image m (snd ii) (snd jb))
                                (pairs (bm_domain m))) (coded_range m) else []) ++
  (if bm_nondecreasing m
   then flat_map (fun ii => map (fun jj => forbid_image m (fst ii) (snd (snd jj)) ++ forbid_image m (snd ii) (snd (fst jj)))
                                (pairs (coded_range m))) (pairs (bm_domain m)) else []).
