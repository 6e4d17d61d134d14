(* PP27.v -- C88: the command-line tools of the bundled generator *)
From Coq Require Import String Ascii ZArith List Bool Lia Permutation Relations.
From Verif Require Import Spec SpecInput SpecFile PyBase MSet MText MCnf MFam MFam2 MTrans MFile MTool SpecCnf SpecFam SpecFam2 SpecTool PText PReader PLib PCnf2 PCnf3 PFam1 PFam15 PFile1 PFile2 PP16 PTool1 PTool3 PTool4 PFile3 PFile4 PFile6 PP20 PP22 PP24.
Import ListNotations.
Open Scope Z_scope.

(* C88: cnfshuffle, and dimacstransform with the subcommand shuffle: the output is the input with renamed variables, changed
   signs and clauses in another order; the flags -p, -v, -c leave the signs, the variables, the order of the clauses alone *)
Lemma p_C88_shuffle : forall s verbose input h n F, dimacs2compressed_clauses input = Ok (h, n, F) -> over n F -> fair_shuffling s ->
  exists out h' F' sigma, cnfshuffle s verbose input = Ok out /\ dimacstransform (T_shuffle s) verbose input = Ok (out ++ [nl]) /\
    dimacs2compressed_clauses out = Ok (h', Z.max 0 n, F') /\ dimacs2compressed_clauses (out ++ [nl]) = Ok (h', Z.max 0 n, F') /\
    renaming n sigma /\ Permutation F' (map (map sigma) F) /\ (satisfiable F' <-> satisfiable F) /\
    (sh_no_flips s = true -> forall l, 1 <= Z.abs l <= n -> (0 < sigma l <-> 0 < l)) /\
    (sh_no_variables s = true -> forall l, 1 <= Z.abs l <= n -> Z.abs (sigma l) = Z.abs l) /\
    (sh_no_clauses s = true -> F' = map (map sigma) F) /\
    comments_kept (T_shuffle s) verbose h h'.
Proof.
  intros s v input h n F E O FS. destruct (read_input input h n F E O) as [EI O']. destruct (shuffled_numbers s (Z.max 0 n) F ltac:(lia) O' FS) as (F' & sigma & ES & W & L & R & P & S & A1 & A2 & A3).
  destruct (read_dimacs v (shuffle_header h) None _ W) as [D1 D2]. cbn [cn_names cn_clauses] in D1, D2. rewrite L in D1, D2.
  exists (dimacs v (shuffle_header h) None (mkCnf (the_permutation s (decimals (Z.max 0 n))) F')), (read_header v (shuffle_header h) None), F', sigma.
  split; [unfold cnfshuffle; rewrite EI; cbn [bind negb]; rewrite ES; reflexivity|]. split; [unfold dimacstransform; rewrite EI; cbn [bind negb transform]; rewrite ES; reflexivity|].
  split; [exact D1|]. split; [exact D2|]. split.
  { destruct (Z_le_gt_dec 0 n) as [Q|Q]; [rewrite Z.max_r in R by lia; exact R|]. split; intros; try lia. apply (rn_negation _ _ R). }
  split; [exact P|]. split; [exact S|]. split; [intros K l B; apply A1; auto; lia|]. split; [intros K l B; apply A2; auto; lia|]. split; [exact A3|]. exact (comments_ok (T_shuffle s) v h).
Qed.
(* C88: dimacstransform with any other subcommand and suitable arguments: new_size variables; an assignment satisfies the
   output exactly when the values it gives to the variables of the input satisfy the input; apart from the compressions the
   output is satisfiable exactly when the input is *)
Lemma p_C88_transform : forall t verbose input h n F, dimacs2compressed_clauses input = Ok (h, n, F) -> over n F ->
  proper t (Z.max 0 n) -> ~ is_shuffle t ->
  exists out h' F', dimacstransform t verbose input = Ok out /\ dimacs2compressed_clauses out = Ok (h', new_size t (Z.max 0 n), F') /\
    (forall a b, (forall v, 1 <= v <= n -> (b v = true <-> value_of t a v)) -> (cnf_true a F' <-> admissible t n a /\ cnf_true b F)) /\
    (~ compresses t -> (satisfiable F' <-> satisfiable F)) /\
    comments_kept t verbose h h'.
Proof.
  intros t v input h n F E O P NS. destruct (read_input input h n F E O) as [EI O']. destruct (transform_numbers t (Z.max 0 n) F ltac:(lia) O' P NS) as (c' & ET & W & L & S & ME).
  destruct (read_dimacs v (transform_header t h) None _ W) as [_ D2]. rewrite L in D2.
  exists (dimacs v (transform_header t h) None c' ++ [newline]), (read_header v (transform_header t h) None), (cn_clauses c').
  split; [unfold dimacstransform; rewrite EI; cbn [bind negb]; rewrite ET; reflexivity|]. split; [exact D2|]. split; [|split; [exact S|apply comments_ok]].
  intros a b H. rewrite (ME a b) by (intros w Hw; apply H; lia). assert (A : admissible t (Z.max 0 n) a <-> admissible t n a); [|tauto].
  destruct t; cbn [admissible]; try tauto. split; intros K w Hw; apply K; lia.
Qed.
(* C88: inputs that cannot be read end with the exception of the reader, literals beyond the announced variables with an
   AssertionError; a compression by a graph of another size with exit(-1) *)
Lemma p_C88_refused : forall input, 
  (forall e, dimacs2compressed_clauses input = Err e ->
     (forall s v, cnfshuffle s v input = Err e) /\ forall t v, dimacstransform t v input = Err e) /\
  (forall h n F, dimacs2compressed_clauses input = Ok (h, n, F) -> ~ over n F ->
     (forall s v, cnfshuffle s v input = Err AssertionError) /\ forall t v, dimacstransform t v input = Err AssertionError) /\
  (forall h n F b v, dimacs2compressed_clauses input = Ok (h, n, F) -> over n F -> Z.of_nat (List.length (b_right b)) <> Z.max 0 n ->
     dimacstransform (T_xorcomp b) v input = Err SystemExit /\ dimacstransform (T_majcomp b) v input = Err SystemExit).
Proof.
  intros input. split; [|split].
  - intros e E. apply read_error in E. split; intros; unfold cnfshuffle, dimacstransform; rewrite E; reflexivity.
  - intros h n F E O. destruct (read_incoherent input h n F E O) as (c & E'). split; intros; unfold cnfshuffle, dimacstransform; rewrite E'; reflexivity.
  - intros h n F b v E O L. destruct (read_input input h n F E O) as [EI O']. pose proof (decimals_length (Z.max 0 n) ltac:(lia)) as LD.
    assert (K : Nat.eqb (List.length (b_right b)) (List.length (decimals (Z.max 0 n))) = false) by (apply Nat.eqb_neq; tlia).
    split; unfold dimacstransform; rewrite EI; cbn [bind negb transform]; unfold VariableCompression; cbn [cn_names]; rewrite K; reflexivity.
Qed.
(* C88: kthlist2pebbling: the pebbling formula of the acyclic graph in the file, vertex v as variable v, transformed: an
   assignment satisfies the output exactly when the values it gives to the vertices put a pebble on each vertex whose
   predecessors have one and none on a sink.  So the output is satisfiable only when the graph has no vertices.  A graph with
   a cycle is a ValueError *)
Lemma p_C88_pebbling : forall t verbose lines name n adj, Forall one_line lines -> kthlist_file lines name n adj -> proper t n ->
  ((exists v, clos_trans Z (listed adj) v v) -> kthlist2pebbling t verbose (ended lines) = Err ValueError) /\
  ((forall v, ~ clos_trans Z (listed adj) v v) ->
     exists out h' F', kthlist2pebbling t verbose (ended lines) = Ok out /\ dimacs2compressed_clauses out = Ok (h', new_size t n, F') /\
       (~ is_shuffle t -> forall a b, (forall v, 1 <= v <= n -> (b v = true <-> value_of t a v)) ->
          (cnf_true a F' <-> admissible t n a /\
             (forall v, 1 <= v <= n -> (forall u, listed adj u v -> b u = true) -> b v = true) /\
             (forall v, 1 <= v <= n -> (forall u, ~ listed adj v u) -> b v = false))) /\
       (~ compresses t -> (satisfiable F' <-> n = 0))).
Proof.
  intros t v lines name n adj OL KF P. destruct (p_C84_digraph lines name n adj OL KF) as (f & _ & _ & PD & VD & AD & _ & YES & NO). set (d := to_digraph f) in *.
  assert (N : 0 <= n) by (destruct KF as (? & ? & ? & ? & ? & _ & _ & K & _); exact K).
  assert (WK : forall u w, walk d u w <-> clos_trans Z (listed adj) u w).
  { intros u w. split.
    - induction 1 as [u w A|u w x A B IH]; [apply t_step; apply AD; auto|]. eapply t_trans; [apply t_step; apply AD; eauto|auto].
    - rewrite clos_trans_t1n_iff. induction 1 as [w A|w x A B IH]; [apply walk_arc; apply AD; auto|]. eapply walk_step; eauto. apply AD. auto. }
  split.
  - intros (w & K). unfold kthlist2pebbling. rewrite NO; [reflexivity|]. intros A. apply (A w). apply WK. auto.
  - intros K. assert (A : acyclic d) by (intros w W; apply (K w); apply WK; auto). destruct (proj2 (p_C77_pebbling d PD) A) as (c & EC & MC & ME & SA).
    assert (NC : cn_names c = decimals n). { destruct (p_C81_pebbling_names d PD) as (Q & _). rewrite (Q c EC), VD. reflexivity. }
    assert (WC : well c) by (apply made_well; auto). destruct c as [names F0]. cbn [cn_names] in NC. subst names.
    assert (O : over n F0) by (intros cl l Hc Hl; destruct WC as [_ W]; specialize (W cl l Hc Hl); cbn [cn_names] in W; rewrite decimals_length in W by auto; exact W).
    assert (PE : forall b, cnf_true b F0 <-> (forall v, 1 <= v <= n -> (forall u, listed adj u v -> b u = true) -> b v = true) /\ (forall v, 1 <= v <= n -> (forall u, ~ listed adj v u) -> b v = false)).
    { intros b. rewrite (input_true n F0 N O b), (ME (by_numbers (decimals n) b)). rewrite VD. split.
      - intros [H1 H2]. split.
        + intros w Hw Hu. rewrite <- (input_value n b w Hw). apply H1; [apply range_In; lia|]. intros u Hu'. apply AD in Hu'. rewrite input_value; [auto|]. apply (kthlist_range _ _ _ _ KF) in Hu'. tauto.
        + intros w Hw Hu. rewrite <- (input_value n b w Hw). apply H2; [apply range_In; lia|]. intros u Hu'. apply AD in Hu'. apply (Hu u). auto.
      - intros [H1 H2]. split.
        + intros w Hw Hu. apply range_In in Hw. rewrite (input_value n b w) by lia. apply H1; [lia|]. intros u Hu'. pose proof (kthlist_range _ _ _ _ KF _ _ Hu'). rewrite <- (input_value n b u) by lia. apply Hu. apply AD. auto.
        + intros w Hw Hu. apply range_In in Hw. rewrite (input_value n b w) by lia. apply H2; [lia|]. intros u Hu'. apply (Hu u). apply AD. auto. }
    assert (SF : satisfiable F0 <-> n = 0).
    { pose proof (same_satisfiable _ WC) as Q. cbn [cn_clauses] in Q. rewrite Q, SA, VD. split; intros X; [|subst n; reflexivity]. destruct (Z.eq_dec n 0); auto. exfalso. assert (In 1 (range 1 (n + 1))) by (apply range_In; lia). rewrite X in H. destruct H. }
    unfold kthlist2pebbling. rewrite (YES A). cbn [bind]. fold d. rewrite EC. cbn [bind]. match goal with |- context [dimacs v ?h None] => set (hd := h) end. clearbody hd.
    assert (DEC : is_shuffle t \/ ~ is_shuffle t) by (destruct t; try (right; intros (s & Q); discriminate Q); left; eexists; reflexivity).
    destruct DEC as [(s & ->)|NS].
    + cbn [transform]. destruct (shuffled_numbers s n F0 N O P) as (F' & sigma & ES & W & L & R & PP & S & _). rewrite ES. cbn [bind]. destruct (read_dimacs v hd None _ W) as [_ D2]. cbn [cn_names cn_clauses] in D2. rewrite L in D2.
      eexists _, _, F'. split; [reflexivity|]. split; [exact D2|]. split; [intros NS; exfalso; apply NS; eexists; reflexivity|]. intros _. rewrite S. exact SF.
    + destruct (transform_numbers t n F0 N O P NS) as (c' & ET & W & L & S & MT). rewrite ET. cbn [bind]. destruct (read_dimacs v hd None _ W) as [_ D2]. rewrite L in D2.
      eexists _, _, (cn_clauses c'). split; [reflexivity|]. split; [exact D2|]. split; [|intros NC; rewrite (S NC); exact SF]. intros _ a b H. rewrite (MT a b H), PE. tauto.
Qed.
(*EX
(* (1 or 2) and not 1 *)
Definition small_file : text := txt "c small
p cnf 2 2
1 2 0
-1 0
".
Definition backwards : shuffling := mkShuffling false false false (@rev text) (@rev Z) (fun i => if Nat.even i then -1 else 1).
Lemma backwards_fair : fair_shuffling backwards.
Proof. split; cbn; intros; [symmetry; apply Permutation_rev|symmetry; apply Permutation_rev|]. destruct (Nat.even i); auto. Qed.
Example C88_input : dimacs2compressed_clauses small_file = Ok (txt "small" ++ [nl], 2, [[1; 2]; [-1]]) /\ over 2 [[1; 2]; [-1]].
Proof. split; [vm_compute; reflexivity|]. intros cl l [<-|[<-|[]]] Hl; cbn in Hl; lia. Qed.
Example C88_shuffled : cnfshuffle backwards true small_file = Ok (txt "c Reshuffling of:
c
c small
p cnf 2 2
2 0
-2 1 0").
Proof. vm_compute. reflexivity. Qed.
Example C88_transformed : proper (T_or 2) 2 /\ ~ is_shuffle (T_or 2) /\ dimacstransform (T_or 2) false small_file = Ok (txt "p cnf 4 3
1 2 3 4 0
-1 0
-2 0
").
Proof. split; [cbn; lia|]. split; [intros (s & E); discriminate E|]. vm_compute. reflexivity. Qed.
Example C88_lifted : proper (T_lift 2) 2 /\ dimacstransform (T_lift 2) false small_file = Ok (txt "p cnf 8 10
-1 3 -5 7 0
-1 3 -6 8 0
-2 4 -5 7 0
-2 4 -6 8 0
-1 -3 0
-2 -4 0
1 2 0
-1 -2 0
5 6 0
-5 -6 0
").
Proof. split; [cbn; lia|]. vm_compute. reflexivity. Qed.
Example C88_literal_beyond : dimacs2compressed_clauses (txt "p cnf 1 1
2 0") = Ok ([], 1, [[2]]) /\ ~ over 1 [[2]].
Proof. split; [vm_compute; reflexivity|]. intros O. specialize (O [2] 2 (or_introl eq_refl) (or_introl eq_refl)). lia. Qed.
Definition one_arc : list text := [txt "2"; txt "2:1 0"].
Example C88_path : Forall one_line one_arc /\ kthlist_file one_arc [] 2 [(2, [1])] /\ (forall v, ~ clos_trans Z (listed [(2, [1])]) v v) /\ proper (T_xor 2) 2 /\
  kthlist2pebbling (T_xor 2) false (ended one_arc) = Ok (txt "p cnf 4 8
1 2 0
-1 -2 0
1 -2 3 4 0
1 -2 -3 -4 0
-1 2 3 4 0
-1 2 -3 -4 0
3 -4 0
-3 4 0
").
Proof.
  split; [repeat (constructor; [intros K; repeat (destruct K as [K|K]; [discriminate K|]); destruct K|]); constructor|]. split; [|split; [|split; [cbn; lia|vm_compute; reflexivity]]].
  - exists [], (txt "2"), [txt "2:1 0"], [], []. split; [reflexivity|]. split; [reflexivity|]. split; [lia|]. split; [apply adj_none|]. split; [apply (numbers_join [2])|].
    apply (adj_line 2 2 [1] (txt "2") (txt "1 0")); [apply (numbers_join [2])|apply (numbers_join [1; 0])|lia|cbn; intuition lia|apply adj_none].
  - assert (L : forall u v, clos_trans Z (listed [(2, [1])]) u v -> u < v).
    { induction 1 as [u v (us & K & L)|]; [|lia]. destruct K as [K|[]]. injection K as <- <-. destruct L as [<-|[]]. lia. }
    intros v K. apply L in K. lia.
Qed.
EX*)
