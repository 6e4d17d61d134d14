(* Properties21.v -- generated by tools/genprops.py from PP21.v: property theorems, their
   assumptions, and examples showing that the hypotheses are met.  Proofs are in PP21.v. *)
From Coq Require Import String Ascii ZArith List Bool Lia Sorted Permutation.
From Verif Require Import Spec PyBase MSet MText MCnf MFam MTrans SpecCnf SpecFam SpecTrans PLib PCnf1 PCnf2 PFam1 PFam2 PFam4 PTrans1 PTrans2 PTrans3 PTrans4 PTrans5 PTrans6 PTrans7.
Import ListNotations.
From Verif Require Import PP21.
Open Scope Z_scope.

(* C78: RandomKCNF(k, n, m, planted_assignments) refuses negative numbers and clauses wider than the variables *)
Theorem C78_arguments : forall R k n m planted, n < 0 \/ m < 0 \/ k < 0 \/ n < k -> RandomKCNF R k n m planted = Err ValueError.
Proof. exact p_C78_arguments. Qed.
Print Assumptions C78_arguments.

(* C78: whatever is drawn, it returns a formula over x_1 .. x_n with m different clauses of k literals, every one made true
   by every planted assignment; it gives up with ValueError only if there are not so many such clauses *)
Theorem C78_random_formula : forall R k n m planted, lawful R -> 0 <= k <= n -> 0 <= m ->
  (exists c, RandomKCNF R k n m planted = Ok c /\ made c /\ cn_names c = map (fun i => txt "x_" ++ str_Z i) (range 1 (n + 1)) /\
     NoDup (cnf_clauses c) /\ Z.of_nat (List.length (cnf_clauses c)) = m /\ (forall cl, In cl (cnf_clauses c) -> k_clause k n planted cl)) \/
  (RandomKCNF R k n m planted = Err ValueError /\
     forall L, NoDup L -> (forall cl, In cl L -> k_clause k n planted cl) -> Z.of_nat (List.length L) < m).
Proof. exact p_C78_random_formula. Qed.
Print Assumptions C78_random_formula.

(* C78: without planted assignments: it succeeds exactly when m is at most the number of choices of k variables times 2^k *)
Theorem C78_how_many : forall R k n m, lawful R -> 0 <= k <= n -> 0 <= m ->
  ((exists c, RandomKCNF R k n m [] = Ok c) <-> m <= binomial (Z.to_nat n) (Z.to_nat k) * 2 ^ k).
Proof. exact p_C78_how_many. Qed.
Print Assumptions C78_how_many.

(* C78: every such list of clauses can be drawn *)
Theorem C78_every_outcome : forall k n L planted, 0 <= k <= n -> NoDup L -> (forall cl, In cl L -> k_clause k n planted cl) ->
  exists R c, lawful R /\ RandomKCNF R k n (Z.of_nat (List.length L)) planted = Ok c /\ cnf_clauses c = L.
Proof. exact p_C78_every_outcome. Qed.
Print Assumptions C78_every_outcome.

(* C78: a planted assignment, however it is completed, satisfies the formula *)
Theorem C78_planted : forall R k n m planted c asg a, lawful R -> RandomKCNF R k n m planted = Ok c ->
  In asg planted -> (forall v b, asg v = Some b -> a v = b) -> all_hold a (cnf_clauses c).
Proof. exact p_C78_planted. Qed.
Print Assumptions C78_planted.

(* two clauses over x_1, x_2, both satisfied by x_1 = true, x_2 = false *)
Definition drawn : list (list (bool * text)) := [[(true, txt "x_1"); (true, txt "x_2")]; [(false, txt "x_1"); (false, txt "x_2")]].
Definition plan : partial := fun v => if text_eqb v (txt "x_1") then Some true else if text_eqb v (txt "x_2") then Some false else None.
Lemma drawn_clauses : NoDup drawn /\ forall cl, In cl drawn -> k_clause 2 2 [plan] cl.
Proof.
  split; [unfold drawn; constructor; [intros [H|[]]; discriminate H|constructor; [intros []|constructor]]|].
  intros cl H. split.
  - exists [1; 2]. split; [repeat constructor; lia|]. split; [intros i [<-|[<-|[]]]; lia|]. split; [reflexivity|]. destruct H as [<-|[<-|[]]]; reflexivity.
  - intros asg [<-|[]]. destruct H as [<-|[<-|[]]].
    + exists true, (txt "x_1"). split; [left; reflexivity|reflexivity].
    + exists false, (txt "x_2"). split; [right; left; reflexivity|reflexivity].
Qed.
Example C78_applies :
  (exists R c, lawful R /\ RandomKCNF R 2 2 2 [plan] = Ok c /\ cnf_clauses c = drawn) /\
  (forall R, lawful R -> (exists c, RandomKCNF R 2 3 12 [] = Ok c) /\ RandomKCNF R 2 3 13 [] = Err ValueError).
Proof.
  split; [apply (C78_every_outcome 2 2 drawn [plan] ltac:(lia) (proj1 drawn_clauses) (proj2 drawn_clauses))|]. intros R W. split.
  - apply (C78_how_many R 2 3 12 W ltac:(lia) ltac:(lia)). vm_compute. discriminate.
  - destruct (C78_random_formula R 2 3 13 [] W ltac:(lia) ltac:(lia)) as [(c & E & _)|(E & _)]; auto. exfalso.
    pose proof (proj1 (C78_how_many R 2 3 13 W ltac:(lia) ltac:(lia)) (ex_intro _ c E)) as K. vm_compute in K. auto.
Qed.

(* C79: the substitutions: OR, loose majority, XOR, "all equal", "not all equal", "exactly one", if-then-else *)
Theorem C79_or : forall c rank, made c -> exists F, OrSubstitution c rank = Ok F /\
  replaced_by c [] rank (fun x => exists i, 0 <= i < rank /\ x i = true) F /\ (1 <= rank -> faithful c [] rank F).
Proof. exact p_C79_or. Qed.
Print Assumptions C79_or.

(* C79: at least half of the variables *)
Theorem C79_majority : forall c rank, made c -> exists F, MajoritySubstitution c rank = Ok F /\
  replaced_by c [] rank (fun x => rank <= 2 * trues rank x) F /\ (1 <= rank -> faithful c [] rank F).
Proof. exact p_C79_majority. Qed.
Print Assumptions C79_majority.

(* C79: an odd number of the variables *)
Theorem C79_xor : forall c rank, made c -> exists F, XorSubstitution c rank = Ok F /\
  replaced_by c [] rank (fun x => Z.Odd (trues rank x)) F /\ (1 <= rank -> faithful c [] rank F).
Proof. exact p_C79_xor. Qed.
Print Assumptions C79_xor.

(* C79: all the variables have the same value *)
Theorem C79_all_equal : forall c rank, made c -> exists F, AllEqualSubstitution c rank = Ok F /\
  replaced_by c [] rank (fun x => forall i j, 0 <= i < rank -> 0 <= j < rank -> x i = x j) F /\ (2 <= rank -> faithful c [] rank F).
Proof. exact p_C79_all_equal. Qed.
Print Assumptions C79_all_equal.

(* C79: two of the variables differ *)
Theorem C79_not_all_equal : forall c rank, made c -> exists F, NotAllEqualSubstitution c rank = Ok F /\
  replaced_by c [] rank (fun x => exists i j, 0 <= i < rank /\ 0 <= j < rank /\ x i <> x j) F /\ (2 <= rank -> faithful c [] rank F).
Proof. exact p_C79_not_all_equal. Qed.
Print Assumptions C79_not_all_equal.

(* C79: exactly one of the variables X_{v}^i is true *)
Theorem C79_exactly_one : forall c rank, made c -> exists F, ExactlyOneSubstitution c rank = Ok F /\
  replaced_by c (txt "X_") rank (fun x => trues rank x = 1) F /\ (1 <= rank -> faithful c (txt "X_") rank F).
Proof. exact p_C79_exactly_one. Qed.
Print Assumptions C79_exactly_one.

(* C79: if {v}^0 then {v}^1 else {v}^2 *)
Theorem C79_if_then_else : forall c, made c -> exists F, IfThenElseSubstitution c = Ok F /\
  replaced_by c [] 3 (fun x => if x 0 then x 1 = true else x 2 = true) F /\ faithful c [] 3 F.
Proof. exact p_C79_if_then_else. Qed.
Print Assumptions C79_if_then_else.

(* C79: FlipPolarity keeps the variables and negates every literal *)
Theorem C79_flip : forall c, made c -> exists F, FlipPolarity c = Ok F /\ made F /\ cn_names F = cn_names c /\
  cnf_clauses F = map (map (fun l => (negb (fst l), snd l))) (cnf_clauses c).
Proof. exact p_C79_flip. Qed.
Print Assumptions C79_flip.

(* C79: FormulaLifting: exactly one selector Y_{v}^s is true, and v has the value of X_{v}^s *)
Theorem C79_lifting : forall c rank, made c -> exists F, FormulaLifting c rank = Ok F /\ made F /\
  (forall w, In w (cn_names F) <-> exists v i, In v (cn_names c) /\ 0 <= i < rank /\ (w = new_variable (txt "X_") v i \/ w = new_variable (txt "Y_") v i)) /\
  (forall a, all_hold a (cnf_clauses F) <->
     exists s, (forall v, In v (cn_names c) -> selects a rank v (s v)) /\ all_hold (fun v => a (new_variable (txt "X_") v (s v))) (cnf_clauses c)) /\
  (1 <= rank -> (has_model (cnf_clauses F) <-> has_model (cnf_clauses c))).
Proof. exact p_C79_lifting. Qed.
Print Assumptions C79_lifting.

(* C79: VariableCompression by a bipartite graph, XOR or majority; anything else is a ValueError *)
Theorem C79_compression : forall c b function, made c -> bipartite_graph b ->
  (function <> txt "xor" /\ function <> txt "maj" -> VariableCompression c b function = Err ValueError) /\
  (List.length (b_right b) <> List.length (cn_names c) -> VariableCompression c b function = Err ValueError) /\
  (forall majority : bool, function = (if majority then txt "maj" else txt "xor") -> List.length (b_right b) = List.length (cn_names c) ->
    exists F, VariableCompression c b function = Ok F /\ made F /\ cn_names F = map compressed_variable (b_left b) /\
      forall a f, (forall i v r, nth_error (cn_names c) i = Some v -> nth_error (b_right b) i = Some r -> (f v = true <-> compressed_true majority b a r)) ->
        (all_hold a (cnf_clauses F) <-> all_hold f (cnf_clauses c))).
Proof. exact p_C79_compression. Qed.
Print Assumptions C79_compression.

(* (x or y) and not x *)
Definition small : cnf := mkCnf [txt "x"; txt "y"] [[1; 2]; [-1]].
Lemma small_made : made small.
Proof.
  assert (E : exists c1, add_clause_strict [(true, txt "x"); (true, txt "y")] (add_variable (txt "y") (add_variable (txt "x") empty_cnf)) = Ok c1 /\ add_clause_strict [(false, txt "x")] c1 = Ok small)
    by (eexists; split; reflexivity).
  destruct E as (c1 & E1 & E2). eapply made_clause; [|exact E2]. eapply made_clause; [|exact E1]. repeat constructor.
Qed.
Lemma small_model : has_model (cnf_clauses small).
Proof. exists (text_eqb (txt "y")). intros cl [<-|[<-|[]]]; [exists true, (txt "y")|exists false, (txt "x")]; cbn; auto. Qed.
Lemma small_graph : bipartite_graph (mkBipartite [1; 2] [3; 4] [(1, 3); (2, 3); (2, 4)]).
Proof.
  constructor; cbn [b_left b_right b_edges].
  - repeat (constructor; [cbn; intuition lia|]); constructor.
  - repeat (constructor; [cbn; intuition lia|]); constructor.
  - repeat (constructor; [cbn; intuition congruence|]); constructor.
  - intros u v H; cbn in H |- *; intuition congruence.
  - intros v H K. cbn in H, K. intuition congruence.
Qed.
Example C79_applies :
  (exists F, OrSubstitution small 2 = Ok F /\ cnf_clauses F = [[(true, txt "{x}^0"); (true, txt "{x}^1"); (true, txt "{y}^0"); (true, txt "{y}^1")]; [(false, txt "{x}^0")]; [(false, txt "{x}^1")]]) /\
  (exists F, MajoritySubstitution small 3 = Ok F /\ has_model (cnf_clauses F)) /\
  (exists F, FormulaLifting small 2 = Ok F /\ has_model (cnf_clauses F)) /\
  (exists F, VariableCompression small (mkBipartite [1; 2] [3; 4] [(1, 3); (2, 3); (2, 4)]) (txt "xor") = Ok F /\ cn_names F = [txt "Y_{1}"; txt "Y_{2}"]).
Proof.
  split; [|split; [|split]].
  - eexists. split; reflexivity.
  - destruct (C79_majority small 3 small_made) as (F & E & _ & H). exists F. split; auto. apply (fa_models _ _ _ _ (H ltac:(lia))). apply small_model.
  - destruct (C79_lifting small 2 small_made) as (F & E & _ & _ & _ & H). exists F. split; auto. apply (H ltac:(lia)). apply small_model.
  - destruct (proj2 (proj2 (C79_compression small _ (txt "xor") small_made small_graph)) false eq_refl eq_refl) as (F & E & _ & N & _). exists F. split; auto.
Qed.

(* C80: Shuffle with a permutation of the variables, of the clause numbers, and a vector of 1 and -1: the variables are
   renumbered (each keeps its name), the k-th clause goes where the permutation says, with its literals flipped *)
Theorem C80_shuffle : forall c variables clauses flip, made c -> Permutation variables (cn_names c) ->
  List.length flip = List.length (cn_names c) -> (forall x, In x flip -> x = 1 \/ x = -1) ->
  Permutation clauses (range 0 (Z.of_nat (List.length (cnf_clauses c)))) ->
  exists F, Shuffle c variables clauses flip = Ok F /\ made F /\ cn_names F = variables /\ List.length (cnf_clauses F) = List.length (cnf_clauses c) /\
    (forall k i cl, nth_error clauses k = Some i -> nth_error (cnf_clauses c) k = Some cl ->
       exists cl', nth_error (cnf_clauses F) (Z.to_nat i) = Some cl' /\ Forall2 (flipped c flip) cl cl') /\
    (has_model (cnf_clauses F) <-> has_model (cnf_clauses c)).
Proof. exact p_C80_shuffle. Qed.
Print Assumptions C80_shuffle.

(* C80: vectors of the wrong length are refused, and a variable without a place is a KeyError *)
Theorem C80_refused : forall c variables clauses flip,
  (List.length variables <> List.length (cn_names c) \/ List.length flip <> List.length (cn_names c) -> Shuffle c variables clauses flip = Err AssertionError) /\
  (List.length variables = List.length (cn_names c) -> List.length flip = List.length (cn_names c) ->
   forall v, In v (cn_names c) -> ~ In v variables -> Shuffle c variables clauses flip = Err KeyError).
Proof. exact p_C80_refused. Qed.
Print Assumptions C80_refused.

Example C80_applies :
  Shuffle small [txt "y"; txt "x"] [1; 0] [1; -1] = Ok (mkCnf [txt "y"; txt "x"] [[-2]; [2; -1]]) /\
  (Permutation [txt "y"; txt "x"] (cn_names small) /\ Permutation [1; 0] (range 0 (Z.of_nat (List.length (cnf_clauses small))))) /\
  Shuffle small [txt "y"; txt "x"] [1; 0] [1] = Err AssertionError /\ Shuffle small [txt "y"; txt "z"] [1; 0] [1; 1] = Err KeyError.
Proof. split; [reflexivity|]. split; [split; [apply perm_swap|apply perm_swap]|]. split; reflexivity. Qed.
