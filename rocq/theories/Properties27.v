(* Properties27.v -- generated by tools/genprops.py from PP27.v: property theorems, their
   assumptions, and examples showing that the hypotheses are met.  Proofs are in PP27.v. *)
From Coq Require Import String Ascii ZArith List Bool Lia Permutation Relations.
From Verif Require Import Spec SpecInput SpecFile PyBase MSet MText MCnf MFam MFam2 MTrans MFile MTool SpecCnf SpecFam SpecFam2 SpecTool PText PReader PLib PCnf2 PCnf3 PFam1 PFam15 PFile1 PFile2 PP16 PTool1 PTool3 PTool4 PFile3 PFile4 PFile6 PP20 PP22 PP24.
Import ListNotations.
From Verif Require Import PP27.
Open Scope Z_scope.

(* C88: cnfshuffle, and dimacstransform with the subcommand shuffle: the output is the input with renamed variables, changed
   signs and clauses in another order; the flags -p, -v, -c leave the signs, the variables, the order of the clauses alone *)
Theorem C88_shuffle : forall s verbose input h n F, dimacs2compressed_clauses input = Ok (h, n, F) -> over n F -> fair_shuffling s ->
  exists out h' F' sigma, cnfshuffle s verbose input = Ok out /\ dimacstransform (T_shuffle s) verbose input = Ok (out ++ [nl]) /\
    dimacs2compressed_clauses out = Ok (h', Z.max 0 n, F') /\ dimacs2compressed_clauses (out ++ [nl]) = Ok (h', Z.max 0 n, F') /\
    renaming n sigma /\ Permutation F' (map (map sigma) F) /\ (satisfiable F' <-> satisfiable F) /\
    (sh_no_flips s = true -> forall l, 1 <= Z.abs l <= n -> (0 < sigma l <-> 0 < l)) /\
    (sh_no_variables s = true -> forall l, 1 <= Z.abs l <= n -> Z.abs (sigma l) = Z.abs l) /\
    (sh_no_clauses s = true -> F' = map (map sigma) F) /\
    comments_kept (T_shuffle s) verbose h h'.
Proof. exact p_C88_shuffle. Qed.
Print Assumptions C88_shuffle.

(* C88: dimacstransform with any other subcommand and suitable arguments: new_size variables; an assignment satisfies the
   output exactly when the values it gives to the variables of the input satisfy the input; apart from the compressions the
   output is satisfiable exactly when the input is *)
Theorem C88_transform : forall t verbose input h n F, dimacs2compressed_clauses input = Ok (h, n, F) -> over n F ->
  proper t (Z.max 0 n) -> ~ is_shuffle t ->
  exists out h' F', dimacstransform t verbose input = Ok out /\ dimacs2compressed_clauses out = Ok (h', new_size t (Z.max 0 n), F') /\
    (forall a b, (forall v, 1 <= v <= n -> (b v = true <-> value_of t a v)) -> (cnf_true a F' <-> admissible t n a /\ cnf_true b F)) /\
    (~ compresses t -> (satisfiable F' <-> satisfiable F)) /\
    comments_kept t verbose h h'.
Proof. exact p_C88_transform. Qed.
Print Assumptions C88_transform.

(* C88: inputs that cannot be read end with the exception of the reader, literals beyond the announced variables with an
   AssertionError; a compression by a graph of another size with exit(-1) *)
Theorem C88_refused : forall input, 
  (forall e, dimacs2compressed_clauses input = Err e ->
     (forall s v, cnfshuffle s v input = Err e) /\ forall t v, dimacstransform t v input = Err e) /\
  (forall h n F, dimacs2compressed_clauses input = Ok (h, n, F) -> ~ over n F ->
     (forall s v, cnfshuffle s v input = Err AssertionError) /\ forall t v, dimacstransform t v input = Err AssertionError) /\
  (forall h n F b v, dimacs2compressed_clauses input = Ok (h, n, F) -> over n F -> Z.of_nat (List.length (b_right b)) <> Z.max 0 n ->
     dimacstransform (T_xorcomp b) v input = Err SystemExit /\ dimacstransform (T_majcomp b) v input = Err SystemExit).
Proof. exact p_C88_refused. Qed.
Print Assumptions C88_refused.

(* C88: kthlist2pebbling: the pebbling formula of the acyclic graph in the file, vertex v as variable v, transformed: an
   assignment satisfies the output exactly when the values it gives to the vertices put a pebble on each vertex whose
   predecessors have one and none on a sink.  So the output is satisfiable only when the graph has no vertices.  A graph with
   a cycle is a ValueError *)
Theorem C88_pebbling : forall t verbose lines name n adj, Forall one_line lines -> kthlist_file lines name n adj -> proper t n ->
  ((exists v, clos_trans Z (listed adj) v v) -> kthlist2pebbling t verbose (ended lines) = Err ValueError) /\
  ((forall v, ~ clos_trans Z (listed adj) v v) ->
     exists out h' F', kthlist2pebbling t verbose (ended lines) = Ok out /\ dimacs2compressed_clauses out = Ok (h', new_size t n, F') /\
       (~ is_shuffle t -> forall a b, (forall v, 1 <= v <= n -> (b v = true <-> value_of t a v)) ->
          (cnf_true a F' <-> admissible t n a /\
             (forall v, 1 <= v <= n -> (forall u, listed adj u v -> b u = true) -> b v = true) /\
             (forall v, 1 <= v <= n -> (forall u, ~ listed adj v u) -> b v = false))) /\
       (~ compresses t -> (satisfiable F' <-> n = 0))).
Proof. exact p_C88_pebbling. Qed.
Print Assumptions C88_pebbling.

(* (1 or 2) and not 1 *)
Definition small_file : text := txt "c small
p cnf 2 2
1 2 0
-1 0
".
Definition backwards : shuffling := mkShuffling false false false (@rev text) (@rev Z) (fun i => if Nat.even i then -1 else 1).
Lemma backwards_fair : fair_shuffling backwards.
Proof. split; cbn; intros; [symmetry; apply Permutation_rev|symmetry; apply Permutation_rev|]. destruct (Nat.even i); auto. Qed.
Example C88_input : dimacs2compressed_clauses small_file = Ok (txt "small" ++ [nl], 2, [[1; 2]; [-1]]) /\ over 2 [[1; 2]; [-1]].
Proof. split; [vm_compute; reflexivity|]. intros cl l [<-|[<-|[]]] Hl; cbn in Hl; lia. Qed.
Example C88_shuffled : cnfshuffle backwards true small_file = Ok (txt "c Reshuffling of:
c
c small
p cnf 2 2
2 0
-2 1 0").
Proof. vm_compute. reflexivity. Qed.
Example C88_transformed : proper (T_or 2) 2 /\ ~ is_shuffle (T_or 2) /\ dimacstransform (T_or 2) false small_file = Ok (txt "p cnf 4 3
1 2 3 4 0
-1 0
-2 0
").
Proof. split; [cbn; lia|]. split; [intros (s & E); discriminate E|]. vm_compute. reflexivity. Qed.
Example C88_lifted : proper (T_lift 2) 2 /\ dimacstransform (T_lift 2) false small_file = Ok (txt "p cnf 8 10
-1 3 -5 7 0
-1 3 -6 8 0
-2 4 -5 7 0
-2 4 -6 8 0
-1 -3 0
-2 -4 0
1 2 0
-1 -2 0
5 6 0
-5 -6 0
").
Proof. split; [cbn; lia|]. vm_compute. reflexivity. Qed.
Example C88_literal_beyond : dimacs2compressed_clauses (txt "p cnf 1 1
2 0") = Ok ([], 1, [[2]]) /\ ~ over 1 [[2]].
Proof. split; [vm_compute; reflexivity|]. intros O. specialize (O [2] 2 (or_introl eq_refl) (or_introl eq_refl)). lia. Qed.
Definition one_arc : list text := [txt "2"; txt "2:1 0"].
Example C88_path : Forall one_line one_arc /\ kthlist_file one_arc [] 2 [(2, [1])] /\ (forall v, ~ clos_trans Z (listed [(2, [1])]) v v) /\ proper (T_xor 2) 2 /\
  kthlist2pebbling (T_xor 2) false (ended one_arc) = Ok (txt "p cnf 4 8
1 2 0
-1 -2 0
1 -2 3 4 0
1 -2 -3 -4 0
-1 2 3 4 0
-1 2 -3 -4 0
3 -4 0
-3 4 0
").
Proof.
  split; [repeat (constructor; [intros K; repeat (destruct K as [K|K]; [discriminate K|]); destruct K|]); constructor|]. split; [|split; [|split; [cbn; lia|vm_compute; reflexivity]]].
  - exists [], (txt "2"), [txt "2:1 0"], [], []. split; [reflexivity|]. split; [reflexivity|]. split; [lia|]. split; [apply adj_none|]. split; [apply (numbers_join [2])|].
    apply (adj_line 2 2 [1] (txt "2") (txt "1 0")); [apply (numbers_join [2])|apply (numbers_join [1; 0])|lia|cbn; intuition lia|apply adj_none].
  - assert (L : forall u v, clos_trans Z (listed [(2, [1])]) u v -> u < v).
    { induction 1 as [u v (us & K & L)|]; [|lia]. destruct K as [K|[]]. injection K as <- <-. destruct L as [<-|[]]. lia. }
    intros v K. apply L in K. lia.
Qed.
