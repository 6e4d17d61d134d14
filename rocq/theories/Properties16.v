(* Properties16.v -- generated by tools/genprops.py from PP16.v: property theorems, their
   assumptions, and examples showing that the hypotheses are met.  Proofs are in PP16.v. *)
From Coq Require Import String Ascii ZArith List Bool Lia.
From Verif Require Import Spec PyBase MSet MText MQueue MDb MSolver MMain MProc MShare MCli MCnf SpecInput SpecRun SpecProc SpecShare SpecCli
  SpecCnf PLib PReader PCnf1 PCnf2 PCnf3 PFam1 PCli PP14.
Import ListNotations.
From Verif Require Import PP16.
Open Scope Z_scope.

(* C65: an assignment satisfies the clauses of a cardinality constraint exactly when the number of true
   variables in the list (with repetitions) obeys it, for every bound, also negative or beyond the length *)
Theorem C65_cardinality : forall (A : Type) (vs : list A) (bound : Z) (a : A -> bool),
  (all_hold a (less_than_constraint vs bound) <-> how_many a vs < bound) /\
  (all_hold a (less_or_equal_constraint vs bound) <-> how_many a vs <= bound) /\
  (all_hold a (greater_than_constraint vs bound) <-> how_many a vs > bound) /\
  (all_hold a (greater_or_equal_constraint vs bound) <-> how_many a vs >= bound) /\
  (all_hold a (equal_to_constraint vs bound) <-> how_many a vs = bound).
Proof. exact p_C65_cardinality. Qed.
Print Assumptions C65_cardinality.

(* C65: parity: the number of true variables modulo 2 *)
Theorem C65_parity : forall (A : Type) (vs : list A) (constant : Z) (a : A -> bool),
  all_hold a (parity_constraint vs constant) <-> how_many a vs mod 2 = constant.
Proof. exact p_C65_parity. Qed.
Print Assumptions C65_parity.

(* C65: half of the variables, rounded either way when their number is odd *)
Theorem C65_halves : forall (A : Type) (vs : list A) (a : A -> bool),
  let n := Z.of_nat (List.length vs) in let k := how_many a vs in
  (all_hold a (loose_majority_constraint vs) <-> 2 * k >= n) /\
  (all_hold a (loose_minority_constraint vs) <-> 2 * k <= n) /\
  (all_hold a (exactly_half_ceil vs) <-> 2 * k = n \/ 2 * k = n + 1) /\
  (all_hold a (exactly_half_floor vs) <-> 2 * k = n \/ 2 * k = n - 1).
Proof. exact p_C65_halves. Qed.
Print Assumptions C65_halves.

(* C65: over different variables the clauses use only these variables, none twice: a formula object takes
   them whatever its checks *)
Theorem C65_acceptable : forall (vs : list text) (bound : Z) cl, NoDup vs ->
  In cl (less_than_constraint vs bound) \/ In cl (less_or_equal_constraint vs bound) \/
  In cl (greater_than_constraint vs bound) \/ In cl (greater_or_equal_constraint vs bound) \/
  In cl (equal_to_constraint vs bound) \/ In cl (parity_constraint vs bound) \/
  In cl (loose_majority_constraint vs) \/ In cl (loose_minority_constraint vs) \/
  In cl (exactly_half_ceil vs) \/ In cl (exactly_half_floor vs) ->
  ~ repeats cl /\ ~ contradicts cl /\ forall v, In v (map snd cl) -> In v vs.
Proof. exact p_C65_acceptable. Qed.
Print Assumptions C65_acceptable.

(* three of five variables true, one of them counted twice; an impossible and a void bound *)
Example C65_applies :
  let a := (fun v => zmem v [1; 2; 3]) in
  how_many a [1; 2; 3; 4; 3] = 4 /\ all_hold a (equal_to_constraint [1; 2; 3; 4; 3] 4) /\
  ~ all_hold a (less_than_constraint [1; 2; 3; 4; 3] 4) /\ all_hold a (parity_constraint [1; 2; 4] 0) /\
  less_than_constraint [1; 2] 0 = [[]] /\ less_than_constraint [1; 2] 3 = [].
Proof.
  cbv zeta. split; [reflexivity|]. split; [apply C65_cardinality; reflexivity|]. split.
  - rewrite (proj1 (C65_cardinality _ _ _ _)). vm_compute. discriminate.
  - split; [apply C65_parity; reflexivity|split; reflexivity].
Qed.

(* C66: a clause is accepted exactly when it has no repeated literal (unless repetitions are allowed), no
   variable with both polarities (unless allowed) and only known variables (unless they may be added), strict
   overriding all three permissions.  It is then the last of clauses(), and its new variables follow the old
   ones in order of appearance; otherwise the call raises ValueError *)
Theorem C66_add_clause : forall c repetitions opposites auto strict cl, made c ->
  let fine := ((repetitions = true /\ strict = false) \/ ~ repeats cl) /\
              ((opposites = true /\ strict = false) \/ ~ contradicts cl) /\
              ((auto = true /\ strict = false) \/ forall v, In v (map snd cl) -> In v (cnf_variables c)) in
  (fine -> exists c', add_clause_with repetitions opposites auto strict cl c = Ok c' /\
     cnf_clauses c' = cnf_clauses c ++ [cl] /\ cnf_variables c' = with_new (cnf_variables c) (map snd cl)) /\
  (~ fine -> add_clause_with repetitions opposites auto strict cl c = Err ValueError).
Proof. exact p_C66_add_clause. Qed.
Print Assumptions C66_add_clause.

(* C66: add_clause_unsafe takes any clause over known variables, KeyError otherwise; add_variable adds a name
   at the end unless it is known and leaves the clauses alone *)
Theorem C66_unsafe_and_variables : forall c, made c ->
  (forall cl, (forall v, In v (map snd cl) -> In v (cnf_variables c)) -> exists c', add_clause_unsafe cl c = Ok c' /\
     cnf_clauses c' = cnf_clauses c ++ [cl] /\ cnf_variables c' = cnf_variables c) /\
  (forall cl v, In v (map snd cl) -> ~ In v (cnf_variables c) -> add_clause_unsafe cl c = Err KeyError) /\
  (forall v, cnf_clauses (add_variable v c) = cnf_clauses c /\
     (In v (cnf_variables c) -> cnf_variables (add_variable v c) = cnf_variables c) /\
     (~ In v (cnf_variables c) -> cnf_variables (add_variable v c) = cnf_variables c ++ [v])).
Proof. exact p_C66_unsafe_and_variables. Qed.
Print Assumptions C66_unsafe_and_variables.

(* C66: whatever the history of the object, variables() has no repetition and holds every variable of clauses() *)
Theorem C66_consistent : forall c, made c ->
  NoDup (cnf_variables c) /\ forall cl p v, In cl (cnf_clauses c) -> In (p, v) cl -> In v (cnf_variables c).
Proof. exact p_C66_consistent. Qed.
Print Assumptions C66_consistent.

(* C66: CNF(clauses) gives the clauses back, and the variables in order of appearance *)
Theorem C66_constructor : forall cls,
  ((forall cl, In cl cls -> ~ repeats cl /\ ~ contradicts cl) ->
     exists c, cnf_of cls = Ok c /\ made c /\ cnf_clauses c = cls /\ cnf_variables c = with_new [] (map snd (concat cls))) /\
  ((exists cl, In cl cls /\ (repeats cl \/ contradicts cl)) -> cnf_of cls = Err ValueError).
Proof. exact p_C66_constructor. Qed.
Print Assumptions C66_constructor.

(* an object with a history *)
Definition small_cnf : cnf :=
  mkCnf [txt "z"; txt "x"; txt "y"] [[2; -3]; [-1; 3; 3]].
Example C66_applies : made small_cnf /\
  cnf_clauses small_cnf = [[(true, txt "x"); (false, txt "y")]; [(false, txt "z"); (true, txt "y"); (true, txt "y")]] /\
  add_clause_strict [(true, txt "w")] small_cnf = Err ValueError /\
  cnf_add_clause [(true, txt "w"); (true, txt "w")] small_cnf = Err ValueError /\
  cnf_add_clause [(true, txt "w"); (false, txt "x")] small_cnf =
    Ok (mkCnf [txt "z"; txt "x"; txt "y"; txt "w"] [[2; -3]; [-1; 3; 3]; [4; -2]]).
Proof.
  split.
  - apply (made_clause (mkCnf [txt "z"; txt "x"; txt "y"] [[2; -3]]) true false false false
             [(false, txt "z"); (true, txt "y"); (true, txt "y")]); [|reflexivity].
    apply (made_clause (add_variable (txt "z") empty_cnf) false false true false [(true, txt "x"); (false, txt "y")]); [|reflexivity].
    apply made_variable. apply made_empty.
  - split; [reflexivity|]. split; [reflexivity|]. split; reflexivity.
Qed.

(* C67: the file: comments, 'p cnf' with the numbers of variables and clauses, one line per clause with
   literal i for the i-th of variables(), a final blank line *)
Theorem C67_file : forall verbose header cmd c, made c ->
  exists comments F lines blank,
    cnfgen_file verbose header cmd c =
      file_of (comments ++
               (chars "p cnf " ++ str_Z (Z.of_nat (List.length (cnf_variables c))) ++ chars " " ++
                str_Z (Z.of_nat (List.length (cnf_clauses c)))) :: lines ++ blank) /\
    Forall comment_line comments /\ (verbose = false -> comments = []) /\
    blank <> [] /\ (forall b, In b blank -> b = []) /\
    Forall2 (fun f l => spaced (f ++ [0]) l) F lines /\
    Forall2 (Forall2 (fun (l : bool * text) z => z <> 0 /\ fst l = (0 <? z) /\
                        nth_error (cnf_variables c) (Z.to_nat (Z.abs z - 1)) = Some (snd l))) (cnf_clauses c) F.
Proof. exact p_C67_file. Qed.
Print Assumptions C67_file.

(* C67: NDP reads it back: with clauses of one to three literals the file holds, in NDP's sense, a formula
   satisfiable exactly when clauses() is; a clause of more than three literals makes the reader fail *)
Theorem C67_read_back : forall verbose header cmd c, made c ->
  ((forall cl, In cl (cnf_clauses c) -> (1 <= List.length cl <= 3)%nat) ->
     exists F, represents (InDimacs (cnfgen_file verbose header cmd c)) F /\
       Forall2 (Forall2 (fun (l : bool * text) z => z <> 0 /\ fst l = (0 <? z) /\
                           nth_error (cnf_variables c) (Z.to_nat (Z.abs z - 1)) = Some (snd l))) (cnf_clauses c) F /\
       (satisfiable F <-> has_model (cnf_clauses c))) /\
  ((exists cl, In cl (cnf_clauses c) /\ (3 < List.length cl)%nat) ->
     get_cnf_set (InDimacs (cnfgen_file verbose header cmd c)) = Err OtherException).
Proof. exact p_C67_read_back. Qed.
Print Assumptions C67_read_back.

(* C67: from the formula object to the verdict of NDP: with clauses of one to three literals, not all of them
   with opposite literals, NDP ends with a report on the file; 'SATISFIABLE' is right and the solution, read
   through variables(), makes every clause true; without hash collision the verdict is exact *)
Theorem C67_solved : forall verbose header cmd c e l db name,
  made c -> (forall cl, In cl (cnf_clauses c) -> (1 <= List.length cl <= 3)%nat) ->
  (exists cl, In cl (cnf_clauses c) /\ ~ contradicts cl) ->
  proper l -> c_dimacs l = Some (name, cnfgen_file verbose header cmd c) -> reliable e l db ->
  c_factorize l = false -> c_multiply l = None ->
  exists root out file ver written shown,
    get_cnf_set (InDimacs (cnfgen_file verbose header cmd c)) = Ok root /\
    command_ends e l db (Ran (Report out [] file ver) written shown) /\
    (out_sat out = true -> exists sol, out_solution out = Some sol /\
       forall a : text -> bool,
         (forall i b, In (i, b) sol -> exists v, nth_error (cnf_variables c) (Z.to_nat (i - 1)) = Some v /\ a v = b) ->
         all_hold a (cnf_clauses c)) /\
    (out_sat out = true -> has_model (cnf_clauses c)) /\
    (collision_free (e_hash e) (opts_of l) root -> (out_sat out = true <-> has_model (cnf_clauses c))).
Proof. exact p_C67_solved. Qed.
Print Assumptions C67_solved.

(* C67, exception: NDP does not see empty clauses: on the file of a formula with an empty clause, which no
   assignment satisfies, it does exactly what it does on the file of the formula without its empty clauses *)
Theorem C67_empty_clause_lost : forall verbose header cmd c l name,
  made c -> (forall cl, In cl (cnf_clauses c) -> (List.length cl <= 3)%nat) -> In [] (cnf_clauses c) ->
  proper l -> c_dimacs l = Some (name, cnfgen_file verbose header cmd c) ->
  ~ has_model (cnf_clauses c) /\
  exists c', made c' /\ cnf_clauses c' = filter (fun cl => match cl with [] => false | _ => true end) (cnf_clauses c) /\
    cnf_variables c' = cnf_variables c /\
    forall e fuel lf db, command e fuel lf l db = command e fuel lf (on_dimacs l name (cnfgen_file verbose header cmd c')) db.
Proof. exact p_C67_empty_clause_lost. Qed.
Print Assumptions C67_empty_clause_lost.

From Verif Require Import Properties14.
(* a satisfiable formula as generated, with a comment, solved by NDP with three worker processes *)
Definition generated_file : text := cnfgen_file true (txt "x and y
") (txt "some family") small_cnf.
Definition on_cnf (t : text) : cli :=
  mkCli false false false true None None (Some (txt "in/f.cnf", t)) None true true 3 false true false false false false false false None MODE_LO.
Example C67_text : cnfgen_file false [] [] small_cnf = txt "p cnf 3 2
2 -3 0
-1 3 3 0
".
Proof. reflexivity. Qed.
Example C67_applies : exists out file ver written shown,
  proper (on_cnf generated_file) /\ reliable plain_env (on_cnf generated_file) [] /\
  command plain_env 300 300 (on_cnf generated_file) [] = Ok (Ran (Report out [] file ver) written shown) /\
  out_sat out = true /\ out_solution out = Some [(2, true); (3, true)].
Proof.
  do 5 eexists. split; [apply PCli.proper_iff; split; reflexivity|]. split.
  - split; [reflexivity|]. split; [intros k; exists 0%nat; reflexivity|]. split; [apply PP10.round_robin_fair|]. split; [auto|discriminate].
  - split; [vm_compute; reflexivity|]. split; reflexivity.
Qed.
(* a formula with an empty clause and its file, which NDP declares satisfiable *)
Definition with_empty : cnf := mkCnf [txt "x"] [[1]; []].
Example C67_empty_clause : made with_empty /\ In [] (cnf_clauses with_empty) /\
  exists out file ver written shown,
    command plain_env 300 300 (on_cnf (cnfgen_file false [] [] with_empty)) [] = Ok (Ran (Report out [] file ver) written shown) /\
    out_sat out = true.
Proof.
  split.
  - apply (made_clause (mkCnf [txt "x"] [[1]]) false false true false []); [|reflexivity].
    apply (made_clause empty_cnf false false true false [(true, txt "x")]); [constructor|reflexivity].
  - split; [right; left; reflexivity|]. do 5 eexists. split; [vm_compute; reflexivity|reflexivity].
Qed.
