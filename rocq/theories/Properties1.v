(* Properties1.v -- generated by tools/genprops.py from PP1.v: property theorems, their
   assumptions, and examples showing that the hypotheses are met.  Proofs are in PP1.v. *)
From Coq Require Import String Ascii ZArith List Bool Lia Permutation Sorted.
From Verif Require Import Spec PyBase MSet MText MQueue MDb MSolver SpecRun PLib PClause PRename PLo
  PNorm PEval PText PQueue PNode PStep PRun PStats PSolver PSolve PSearch PGraph.
Import ListNotations.
From Verif Require Import PP1.
Open Scope Z_scope.

(* C01: a clause over distinct variables keeps its literals, sorted by variable, whatever order the
   collection is enumerated in, and is undecided. *)
Theorem C01_clause_keeps_literals : forall c : list Z, distinct_vars c ->
  Permutation (raw (clause_init c)) c /\ sorted_clause (raw (clause_init c)) /\
  cvalue (clause_init c) = None /\ substituted (clause_init c) = false /\
  (forall c', Permutation c c' -> clause_init c' = clause_init c).
Proof. exact p_C01_clause_keeps_literals. Qed.
Print Assumptions C01_clause_keeps_literals.

Example C01_example : distinct_vars [6; 3; -5] /\ raw (clause_init [6; 3; -5]) = [3; -5; 6].
Proof. split; [repeat constructor; simpl; lia | reflexivity]. Qed.

(* C02: a clause of at most three literals becomes the constant True exactly when it contains a
   complementary pair; otherwise it is undecided. *)
Theorem C02_tautology_exact_up_to_three : forall c : list Z, NoDup c -> (List.length c <= 3)%nat ->
  (cvalue (clause_init c) = Some true <-> complementary c) /\
  (~ complementary c -> cvalue (clause_init c) = None /\ Permutation (raw (clause_init c)) c).
Proof. exact p_C02_tautology_exact_up_to_three. Qed.
Print Assumptions C02_tautology_exact_up_to_three.

(* C02, longer clauses: from four literals on, only a complementary pair over the smallest variable of
   the clause is noticed. *)
Theorem C02_tautology_only_smallest_variable : forall c : list Z, NoDup c -> (4 <= List.length c)%nat ->
  (cvalue (clause_init c) = Some true <->
   exists v, 0 < v /\ In v c /\ In (- v) c /\ forall l, In l c -> v <= Z.abs l).
Proof. exact p_C02_tautology_only_smallest_variable. Qed.
Print Assumptions C02_tautology_only_smallest_variable.

(* C02, consequence: a clause of four literals with a complementary pair that is not over its smallest
   variable makes the solver abort, with every option set without early exit; the formula is valid. *)
Theorem C02_wide_tautology_aborts_refuted :
  exists F : list (list Z), (forall a, cnf_true a F) /\
    forall o, o_gdb o = false -> o_no_mem o = false -> o_exit o = false ->
      forall fuel lf, (10 <= fuel)%nat -> (10 <= lf)%nat ->
        exists e, solve_set (fun t => t) no_fail fuel lf o (set_of_text (formula_text F)) [] = Err e.
Proof. exact p_C02_wide_tautology_aborts_refuted. Qed.
Print Assumptions C02_wide_tautology_aborts_refuted.

(* C03: the clause order *)
Theorem C03_clause_order : 
  (forall a, clause_lt a a = false) /\
  (forall a b c, clause_lt a b = true -> clause_lt b c = true -> clause_lt a c = true) /\
  (forall a b, clause_lt a b = true \/ raw a = raw b \/ clause_lt b a = true) /\
  (forall a b, clause_lt a b = true <->
     (exists y q, raw b = raw a ++ y :: q) \/
     (exists p x y q r, raw a = p ++ x :: q /\ raw b = p ++ y :: r /\ lit_before x y)).
Proof. exact p_C03_clause_order. Qed.
Print Assumptions C03_clause_order.

Example C03_example : clause_lt (clause_init [1; 2]) (clause_init [-1; 2]) = true /\
  clause_lt (clause_init [1; 2]) (clause_init [1; 2; 3]) = true.
Proof. split; reflexivity. Qed.

(* C04: adding clauses one by one computes the conjunction *)
Theorem C04_add_clauses_conjunction : forall cs : list clause,
  let s := fold_left add_clause cs empty_set in
  (svalue s = Some false <-> exists c, In c cs /\ cvalue c = Some false) /\
  (svalue s = Some true <-> cs <> [] /\ forall c, In c cs -> cvalue c = Some true) /\
  ((forall c, In c cs -> cvalue c <> Some false) ->
     clauses s = filter (fun c => match cvalue c with None => true | _ => false end) cs).
Proof. exact p_C04_add_clauses_conjunction. Qed.
Print Assumptions C04_add_clauses_conjunction.

Example C04_example : exists cs, List.length cs = 3%nat /\
  raws (fold_left add_clause cs empty_set) = [[1; 2]; [-1; 3]].
Proof. exists [clause_init [2; 1]; clause_init [2; -2; 5]; clause_init [3; -1]]. split; reflexivity. Qed.

(* C05: renaming is an invertible change of names *)
Theorem C05_renaming_invertible : forall s s' : cset, names_ok s -> rename_vars s = Ok s' ->
  exists f : Z -> Z,
    map f (first_occurrences (occurrences (raws s))) =
      one_to (List.length (first_occurrences (occurrences (raws s)))) /\
    injective_on f (fvars (raws s)) /\
    Forall2 (fun c d => Permutation (map (rename_lit f) c) d /\ sorted_clause d) (raws s) (raws s') /\
    (forall v, In v (fvars (raws s)) ->
       nth_error (final_names_map s') (Z.to_nat (f v - 1)) =
       match final_names_map s with
       | [] => Some v
       | m => nth_error m (Z.to_nat (v - 1))
       end) /\
    evaluated_vars s' = evaluated_vars s /\ original_values s' = original_values s /\ svalue s' = svalue s.
Proof. exact p_C05_renaming_invertible. Qed.
Print Assumptions C05_renaming_invertible.

Example C05_example : exists s', rename_vars (set_of_text (txt "6|3|-5&8|-3")) = Ok s' /\
  raws s' = [[1; -2; 3]; [-1; 4]] /\ final_names_map s' = [3; 5; 6; 8].
Proof. eexists; split; [vm_compute; reflexivity|split; reflexivity]. Qed.

(* C06: renaming fails exactly on sets without literals *)
Theorem C06_renaming_fails_iff_no_literal : forall s : cset, names_ok s ->
  ((exists s', rename_vars s = Ok s') <-> (exists c l, In c (raws s) /\ In l c)) /\
  ((forall s', rename_vars s <> Ok s') -> rename_vars s = Err ValueError).
Proof. exact p_C06_renaming_fails_iff_no_literal. Qed.
Print Assumptions C06_renaming_fails_iff_no_literal.

(* C06, consequence: a non-empty list of tautologies is not reported satisfiable, the run ends with an
   exception *)
Theorem C06_all_tautologies_error : forall hash insert_fails fuel lf o db (cs : list clause),
  cs <> [] -> (forall c, In c cs -> cvalue c = Some true) ->
  solve_set hash insert_fails fuel lf o (fold_left add_clause cs empty_set) db = Err ValueError.
Proof. exact p_C06_all_tautologies_error. Qed.
Print Assumptions C06_all_tautologies_error.

Example C06_example : forall c, In c [clause_init [1; -1]; clause_init [2; 3; -3]] -> cvalue c = Some true.
Proof. intros c [<-|[<-|[]]]; reflexivity. Qed.

(* C07: normalisation terminates, in every mode and with every option *)
Theorem C07_normalisation_terminates : forall m by_size thief (s : cset), pre_lo s ->
  exists s', exists N, forall fuel, (N <= fuel)%nat -> to_lo_condition fuel m by_size thief s = Ok s'.
Proof. exact p_C07_normalisation_terminates. Qed.
Print Assumptions C07_normalisation_terminates.

Example C07_example : pre_lo sample.
Proof.
  split; [discriminate|split; [|left; reflexivity]].
  intros c H. vm_compute in H. repeat destruct H as [<-|H]; try discriminate. destruct H.
Qed.

(* C08: what holds on return from normalisation *)
Theorem C08_normal_form_conditions : forall fuel m by_size thief (s s' : cset), pre_lo s ->
  to_lo_condition fuel m by_size thief s = Ok s' ->
  (forall c, In c (raws s') -> sorted_clause c) /\
  (m <> MODE_NORMAL -> starts_low (raws s') /\ new_vars_ascend (raws s') /\
     (forall v, In v (fvars (raws s')) -> 1 <= v)) /\
  (m = MODE_LO \/ m = MODE_FLO \/ m = MODE_FLOP -> leading_ascend (raws s')).
Proof. exact p_C08_normal_form_conditions. Qed.
Print Assumptions C08_normal_form_conditions.

(* C08, the state test itself *)
Theorem C08_state_test_exact : forall m (s : cset), clauses s <> [] -> nonempty_clauses (raws s) ->
  exists b, is_in_lo_state m s = Ok b /\
    (b = true <-> (m = MODE_NORMAL \/
      (starts_low (raws s) /\ new_vars_ascend (raws s) /\ (m <> MODE_LOU -> leading_ascend (raws s))))).
Proof. exact p_C08_state_test_exact. Qed.
Print Assumptions C08_state_test_exact.

(* C09: the documented full clause ordering is not guaranteed *)
Theorem C09_full_order_refuted : exists s : cset, pre_lo s /\
  forall m by_size thief fuel, m = MODE_LO \/ m = MODE_FLO \/ m = MODE_FLOP ->
    exists s', to_lo_condition (1 + fuel) m by_size thief s = Ok s' /\
    ~ StronglySorted (fun c d => clause_lt d c = false) (clauses s').
Proof. exact p_C09_full_order_refuted. Qed.
Print Assumptions C09_full_order_refuted.

(* C10: normalisation only renames and reorders *)
Theorem C10_normalisation_renames : forall fuel m by_size thief (s s' : cset), pre_lo s ->
  to_lo_condition fuel m by_size thief s = Ok s' ->
  exists f : Z -> Z,
    injective_on f (fvars (raws s)) /\
    same_up_to_renaming f (raws s) (raws s') /\
    (forall a, cnf_true a (raws s') <-> cnf_true (fun v => a (f v)) (raws s)) /\
    (satisfiable (raws s') <-> satisfiable (raws s)) /\
    (forall v, In v (fvars (raws s)) -> name_at s' (f v) = name_at s v) /\
    evaluated_vars s' = evaluated_vars s /\ original_values s' = original_values s /\ svalue s' = svalue s.
Proof. exact p_C10_normalisation_renames. Qed.
Print Assumptions C10_normalisation_renames.

(* C10, for the root of a search: the recorded maps lead from each name of the normal form to the
   input variable it stands for *)
Theorem C10_root_names_trace_back : forall hash lf o (root r : cset), root_ok root ->
  prepare_root hash lf o root = Ok r ->
  exists f : Z -> Z,
    injective_on f (fvars (raws root)) /\
    same_up_to_renaming f (raws root) (raws r) /\
    (forall v, In v (fvars (raws root)) -> original_of r (f v) = Ok v) /\
    evaluated_vars r = evaluated_vars root.
Proof. exact p_C10_root_names_trace_back. Qed.
Print Assumptions C10_root_names_trace_back.

Example C10_example : root_ok sample /\ exists r, prepare_root (fun t => t) 50 default_opts sample = Ok r /\
  final_names_map r = [3; 5; 6; 1; 8; 9; 2; 7; 4].
Proof. split; [apply sample_ok|]. eexists; split; [vm_compute; reflexivity|reflexivity]. Qed.

(* C11: branching computes the two cofactors.  [restrict p b F] drops the clauses made true by p = b and
   removes the falsified literals (Spec.v). *)
Theorem C11_branching_cofactors : forall s : cset, eval_ready s ->
  let p := leading (hd [] (raws s)) in
  exists l r po, evaluate s = Ok (Some (l, r)) /\ In p (fvars (raws s)) /\ original_of s p = Ok po /\
    forall b c, (b = true /\ c = l) \/ (b = false /\ c = r) ->
      raws c = filter nonempty (restrict p b (raws s)) /\
      (svalue c = Some false <-> In [] (restrict p b (raws s))) /\
      (svalue c = Some true <-> restrict p b (raws s) = []) /\
      ~ In p (fvars (raws c)) /\
      (forall a, a p = b ->
         (svalue c = Some true -> cnf_true a (raws s)) /\
         (svalue c = Some false -> ~ cnf_true a (raws s)) /\
         (svalue c = None -> (cnf_true a (raws s) <-> cnf_true a (raws c)))) /\
      evaluated_vars c = dset Z.eqb po b (evaluated_vars s) /\
      (forall v, In v (fvars (raws c)) -> exists x, original_of s v = Ok x /\
                                                    dget Z.eqb v (original_values c) = Some x).
Proof. exact p_C11_branching_cofactors. Qed.
Print Assumptions C11_branching_cofactors.

Example C11_example : exists r, prepare_root (fun t => t) 50 default_opts sample = Ok r /\ eval_ready r.
Proof.
  eexists; split; [vm_compute; reflexivity|]. split; [|split; [|split; [discriminate|]]].
  - repeat constructor; simpl; try lia; intros H; repeat destruct H as [H|H]; lia || destruct H.
  - intros c H. vm_compute in H. repeat (destruct H as [<-|H]; [discriminate|]). destruct H.
  - intros v H. vm_compute in H. repeat (destruct H as [<-|H]; [eexists; vm_compute; reflexivity|]). destruct H.
Qed.

(* C12: substitution computes the restriction *)
Theorem C12_substitution_restricts : forall (s : cset) (d : list (Z * bool)),
  NoDup (dkeys d) -> (forall c l, In c (raws s) -> In l c -> l <> 0) ->
  let s' := substitute_vars s d in
  raws s' = restrict_all d (raws s) /\
  (forall a, extends a d -> (cnf_true a (raws s) <-> cnf_true a (raws s'))) /\
  Forall2 (fun c c' => raw c' = filter (fun l => negb (assigned_by d l)) (raw c) /\
                       (raw c' = [] -> raw c <> [] -> cvalue c' = Some false) /\
                       (raw c' = raw c -> c' = c))
    (filter (fun c => negb (existsb (satisfied_by d) (raw c))) (clauses s)) (clauses s') /\
  svalue s' = svalue s /\ evaluated_vars s' = evaluated_vars s.
Proof. exact p_C12_substitution_restricts. Qed.
Print Assumptions C12_substitution_restricts.

(* C12, literal 0 (accepted by the single-line format): it is removed even when variable 0 is set to
   True, so the restriction property fails there *)
Theorem C12_literal_zero_refuted : exists (s : cset) (d : list (Z * bool)) a,
  NoDup (dkeys d) /\ extends a d /\ cnf_true a (raws s) /\ ~ cnf_true a (raws (substitute_vars s d)).
Proof. exact p_C12_literal_zero_refuted. Qed.
Print Assumptions C12_literal_zero_refuted.

Example C12_example : raws (substitute_vars sample [(3, false); (8, true)]) = [[-5; 6]; [2; 5; -7]].
Proof. reflexivity. Qed.

(* C13: node identity *)
Theorem C13_equal_text_iff_equal_formula : forall s t : cset,
  svalue s = None -> clauses s <> [] -> nonempty_clauses (raws s) ->
  svalue t = None -> clauses t <> [] -> nonempty_clauses (raws t) ->
  exists x y, to_text s = Ok x /\ to_text t = Ok y /\ (x = y <-> raws s = raws t).
Proof. exact p_C13_equal_text_iff_equal_formula. Qed.
Print Assumptions C13_equal_text_iff_equal_formula.

Theorem C13_undecided_text_not_constant : forall s : cset,
  svalue s = None -> clauses s <> [] -> nonempty_clauses (raws s) ->
  exists x, to_text s = Ok x /\ forall t b, svalue t = Some b -> to_text t <> Ok x.
Proof. exact p_C13_undecided_text_not_constant. Qed.
Print Assumptions C13_undecided_text_not_constant.

Example C13_example : to_text sample = Ok (txt "3|-5|6&1|3|8&2|5|-7&1|4|8&3|8|9").
Proof. reflexivity. Qed.

(* C14: parsing a printed set gives the set back *)
Theorem C14_parse_printed : forall (s : cset) (t : text),
  svalue s = None -> clauses s <> [] -> nonempty_clauses (raws s) ->
  (forall c, In c (raws s) -> distinct_vars c /\ sorted_clause c) ->
  to_text s = Ok t ->
  raws (set_of_text t) = raws s /\
  map initial_index (clauses (set_of_text t)) = one_to (List.length (clauses s)) /\
  (forall c, In c (clauses (set_of_text t)) -> cvalue c = None /\ substituted c = false) /\
  svalue (set_of_text t) = None.
Proof. exact p_C14_parse_printed. Qed.
Print Assumptions C14_parse_printed.

Example C14_example : to_text (set_of_text (txt "3|-5|6&1|3|8")) = Ok (txt "3|-5|6&1|3|8") /\
  forall c, In c (raws (set_of_text (txt "3|-5|6&1|3|8"))) -> distinct_vars c /\ sorted_clause c.
Proof.
  split; [reflexivity|]. intros c H. vm_compute in H.
  repeat (destruct H as [<-|H]; [split; [repeat constructor; simpl; lia|repeat constructor; simpl; lia]|]). destruct H.
Qed.

(* C15: saved node properties survive the database round trip *)
Theorem C15_properties_round_trip : forall (s0 s : cset),
  NoDup (dkeys (evaluated_vars s)) -> (forall v, In v (dkeys (evaluated_vars s)) -> 0 <= v) ->
  NoDup (dkeys (original_values s)) ->
  exists x, deserialize_properties s0 (serialize_properties s) = Ok x /\
    (forall v, dget Z.eqb v (evaluated_vars x) = dget Z.eqb v (evaluated_vars s)) /\
    Permutation (evaluated_vars x) (evaluated_vars s) /\
    original_values x = original_values s /\ final_names_map x = final_names_map s /\
    clauses x = clauses s0 /\ svalue x = svalue s0.
Proof. exact p_C15_properties_round_trip. Qed.
Print Assumptions C15_properties_round_trip.

Example C15_example : exists s : cset, evaluated_vars s = [(4, false); (2, true); (9, false)] /\
  serialize_properties s = txt "2-4,9|{1: 3, 2: 7}|[2, 1]".
Proof. exists (mkSet [] None [] None [2; 1] [(4, false); (2, true); (9, false)] [(1, 3); (2, 7)] 1). split; reflexivity. Qed.
