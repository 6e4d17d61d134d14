(* PP16.v -- the bundled formula generator, core (C65-C67): statements and proofs. *)
From Coq Require Import String Ascii ZArith List Bool Lia.
From Verif Require Import Spec PyBase MSet MText MQueue MDb MSolver MMain MProc MShare MCli MCnf SpecInput SpecRun SpecProc SpecShare SpecCli
  SpecCnf PLib PReader PCnf1 PCnf2 PCnf3 PFam1 PCli PP14.
Import ListNotations.
Open Scope Z_scope.

(* C65: an assignment satisfies the clauses of a cardinality constraint exactly when the number of true
   variables in the list (with repetitions) obeys it, for every bound, also negative or beyond the length *)
Lemma p_C65_cardinality : forall (A : Type) (vs : list A) (bound : Z) (a : A -> bool),
  (all_hold a (less_than_constraint vs bound) <-> how_many a vs < bound) /\
  (all_hold a (less_or_equal_constraint vs bound) <-> how_many a vs <= bound) /\
  (all_hold a (greater_than_constraint vs bound) <-> how_many a vs > bound) /\
  (all_hold a (greater_or_equal_constraint vs bound) <-> how_many a vs >= bound) /\
  (all_hold a (equal_to_constraint vs bound) <-> how_many a vs = bound).
Proof.
  intros A vs b a.
  repeat split; (apply less_than_ok || apply less_or_equal_ok || apply greater_than_ok || apply greater_or_equal_ok || apply equal_to_ok).
Qed.
(* C65: parity: the number of true variables modulo 2 *)
Lemma p_C65_parity : forall (A : Type) (vs : list A) (constant : Z) (a : A -> bool),
  all_hold a (parity_constraint vs constant) <-> how_many a vs mod 2 = constant.
Proof. intros. apply parity_ok. Qed.
(* C65: half of the variables, rounded either way when their number is odd *)
Lemma p_C65_halves : forall (A : Type) (vs : list A) (a : A -> bool),
  let n := Z.of_nat (List.length vs) in let k := how_many a vs in
  (all_hold a (loose_majority_constraint vs) <-> 2 * k >= n) /\
  (all_hold a (loose_minority_constraint vs) <-> 2 * k <= n) /\
  (all_hold a (exactly_half_ceil vs) <-> 2 * k = n \/ 2 * k = n + 1) /\
  (all_hold a (exactly_half_floor vs) <-> 2 * k = n \/ 2 * k = n - 1).
Proof. intros A vs a n k. split; [apply majority_ok|]. split; [apply minority_ok|]. split; [apply half_ceil_ok|apply half_floor_ok]. Qed.
(* C65: over different variables the clauses use only these variables, none twice: a formula object takes
   them whatever its checks *)
Lemma p_C65_acceptable : forall (vs : list text) (bound : Z) cl, NoDup vs ->
  In cl (less_than_constraint vs bound) \/ In cl (less_or_equal_constraint vs bound) \/
  In cl (greater_than_constraint vs bound) \/ In cl (greater_or_equal_constraint vs bound) \/
  In cl (equal_to_constraint vs bound) \/ In cl (parity_constraint vs bound) \/
  In cl (loose_majority_constraint vs) \/ In cl (loose_minority_constraint vs) \/
  In cl (exactly_half_ceil vs) \/ In cl (exactly_half_floor vs) ->
  ~ repeats cl /\ ~ contradicts cl /\ forall v, In v (map snd cl) -> In v vs.
Proof.
  intros vs b cl N H.
  assert (G : clean cl /\ forall v, In v (map snd cl) -> In v vs); [|destruct G as [[G1 G2] G3]; split; auto].
  destruct H as [H|[H|[H|[H|[H|[H|[H|[H|[H|H]]]]]]]]].
  6:{ unfold parity_constraint in H. apply filter_In in H as [H _]. apply products_In in H.
      assert (E : map snd cl = vs).
      { clear -H. revert cl H. induction vs as [|v vs IH]; intros cl H; cbn [map] in H; inversion H as [|x d c' ls' Hx Hc]; subst; auto.
        cbn [map]. f_equal; [destruct Hx as [<-|[<-|[]]]; auto|auto]. }
      split; [apply clean_vars; rewrite E; auto|]. rewrite E. auto. }
  all: split; [(apply (equal_clean vs _ cl N) in H; exact H) || (apply (inequality_clean vs _ _ cl N) in H; exact H)
              |intros v Hv; (apply (equal_vars vs _ cl v H); exact Hv) || (apply (inequality_vars vs _ _ cl v H); exact Hv)].
Qed.
(*EX
(* three of five variables true, one of them counted twice; an impossible and a void bound *)
Example C65_applies :
  let a := (fun v => zmem v [1; 2; 3]) in
  how_many a [1; 2; 3; 4; 3] = 4 /\ all_hold a (equal_to_constraint [1; 2; 3; 4; 3] 4) /\
  ~ all_hold a (less_than_constraint [1; 2; 3; 4; 3] 4) /\ all_hold a (parity_constraint [1; 2; 4] 0) /\
  less_than_constraint [1; 2] 0 = [[]] /\ less_than_constraint [1; 2] 3 = [].
Proof.
  cbv zeta. split; [reflexivity|]. split; [apply C65_cardinality; reflexivity|]. split.
  - rewrite (proj1 (C65_cardinality _ _ _ _)). vm_compute. discriminate.
  - split; [apply C65_parity; reflexivity|split; reflexivity].
Qed.
EX*)

(* C66: a clause is accepted exactly when it has no repeated literal (unless repetitions are allowed), no
   variable with both polarities (unless allowed) and only known variables (unless they may be added), strict
   overriding all three permissions.  It is then the last of clauses(), and its new variables follow the old
   ones in order of appearance; otherwise the call raises ValueError *)
Lemma p_C66_add_clause : forall c repetitions opposites auto strict cl, made c ->
  let fine := ((repetitions = true /\ strict = false) \/ ~ repeats cl) /\
              ((opposites = true /\ strict = false) \/ ~ contradicts cl) /\
              ((auto = true /\ strict = false) \/ forall v, In v (map snd cl) -> In v (cnf_variables c)) in
  (fine -> exists c', add_clause_with repetitions opposites auto strict cl c = Ok c' /\
     cnf_clauses c' = cnf_clauses c ++ [cl] /\ cnf_variables c' = with_new (cnf_variables c) (map snd cl)) /\
  (~ fine -> add_clause_with repetitions opposites auto strict cl c = Err ValueError).
Proof.
  intros c r o av st cl M. cbv zeta.
  assert (DN : ~ repeats cl <-> NoDup cl).
  { unfold repeats. split; [|tauto]. intros H. apply repeated_spec. destruct (repeated cl) eqn:E; auto. exfalso. apply H. intros K.
    apply repeated_spec in K. congruence. }
  rewrite DN. split.
  - intros (A & B & C). destruct (add_with_ok r o av st cl c (made_well c M) A B C) as (c' & E & W & V & L). eauto.
  - intros H. apply add_with_err.
    destruct (repeated cl) eqn:ER; [|destruct (opposite cl) eqn:EO].
    + destruct r, st; try (left; split; [auto|]; intros K; apply repeated_spec in K; congruence).
      destruct (opposite cl) eqn:EO.
      * apply opposite_spec in EO. destruct o; [|right; left; auto]. right; right.
        destruct (known_dec (cn_names c) (map snd cl)) as [K|K]; [exfalso; apply H; auto 6|]. destruct av; [exfalso; apply H; auto 6|auto].
      * assert (~ contradicts cl) by (intros K; apply opposite_spec in K; congruence). right; right.
        destruct (known_dec (cn_names c) (map snd cl)) as [K|K]; [exfalso; apply H; auto 6|]. destruct av; [exfalso; apply H; auto 6|auto].
    + apply repeated_spec in ER. apply opposite_spec in EO. destruct o, st; try (right; left; auto; fail).
      right; right. destruct (known_dec (cn_names c) (map snd cl)) as [K|K]; [exfalso; apply H; auto 6|]. destruct av; [exfalso; apply H; auto 6|auto].
    + apply repeated_spec in ER. assert (~ contradicts cl) by (intros K; apply opposite_spec in K; congruence). right; right.
      destruct (known_dec (cn_names c) (map snd cl)) as [K|K]; [exfalso; apply H; auto 6|].
      destruct av, st; try (exfalso; apply H; auto 6; fail); auto.
Qed.
(* C66: add_clause_unsafe takes any clause over known variables, KeyError otherwise; add_variable adds a name
   at the end unless it is known and leaves the clauses alone *)
Lemma p_C66_unsafe_and_variables : forall c, made c ->
  (forall cl, (forall v, In v (map snd cl) -> In v (cnf_variables c)) -> exists c', add_clause_unsafe cl c = Ok c' /\
     cnf_clauses c' = cnf_clauses c ++ [cl] /\ cnf_variables c' = cnf_variables c) /\
  (forall cl v, In v (map snd cl) -> ~ In v (cnf_variables c) -> add_clause_unsafe cl c = Err KeyError) /\
  (forall v, cnf_clauses (add_variable v c) = cnf_clauses c /\
     (In v (cnf_variables c) -> cnf_variables (add_variable v c) = cnf_variables c) /\
     (~ In v (cnf_variables c) -> cnf_variables (add_variable v c) = cnf_variables c ++ [v])).
Proof.
  intros c M. pose proof (made_well c M) as W. split; [|split].
  - intros cl H. destruct (add_unsafe_ok cl c H W) as (c' & E & _ & A & B). eauto.
  - intros cl v Hv N. apply add_unsafe_err. eauto.
  - intros v. pose proof (add_variable_names v c) as E. split; [eapply grown_clauses; eauto; apply add_variable_numbers|].
    unfold cnf_variables. rewrite E. cbn [with_new]. destruct (in_dec _ _ _); split; intros; tauto.
Qed.
(* C66: whatever the history of the object, variables() has no repetition and holds every variable of clauses() *)
Lemma p_C66_consistent : forall c, made c ->
  NoDup (cnf_variables c) /\ forall cl p v, In cl (cnf_clauses c) -> In (p, v) cl -> In v (cnf_variables c).
Proof. intros c M. split; [apply (made_well c M)|apply made_names; auto]. Qed.
(* C66: CNF(clauses) gives the clauses back, and the variables in order of appearance *)
Lemma p_C66_constructor : forall cls,
  ((forall cl, In cl cls -> ~ repeats cl /\ ~ contradicts cl) ->
     exists c, cnf_of cls = Ok c /\ made c /\ cnf_clauses c = cls /\ cnf_variables c = with_new [] (map snd (concat cls))) /\
  ((exists cl, In cl cls /\ (repeats cl \/ contradicts cl)) -> cnf_of cls = Err ValueError).
Proof.
  intros cls. split.
  - intros H. apply build_plain. intros cl Hc. destruct (H cl Hc) as [A B]. split; auto. apply repeated_spec.
    destruct (repeated cl) eqn:E; auto. exfalso. apply A. intros K. apply repeated_spec in K. congruence.
  - intros (cl & Hc & H). unfold cnf_of. generalize made_empty. generalize empty_cnf.
    induction cls as [|d t IH]; [destruct Hc|]. intros c M. cbn [add_all].
    destruct (p_C66_add_clause c false false true false d M) as [P1 P2]. cbv zeta in P1, P2. fold (cnf_add_clause d c) in P1, P2.
    destruct Hc as [->|Hc].
    + rewrite P2; [reflexivity|]. intros ([[]|A] & [[]|B] & _); try discriminate. destruct H; auto.
    + destruct (cnf_add_clause d c) as [c'|e|] eqn:E; cbn [bind].
      * apply (IH Hc). eapply made_clause; eauto.
      * destruct (repeated d) eqn:E1; [|destruct (opposite d) eqn:E2].
        -- apply P2. intros ([[]|A] & _); try discriminate. apply A. intros K. apply repeated_spec in K. congruence.
        -- apply P2. intros (_ & [[]|A] & _); try discriminate. apply A. apply opposite_spec. auto.
        -- destruct P1 as (c' & P1 & _); [|discriminate]. split; [right; intros K; apply K; apply repeated_spec; auto|].
           split; [right; intros K; apply opposite_spec in K; congruence|]. left; auto.
      * destruct (repeated d) eqn:E1; [|destruct (opposite d) eqn:E2].
        -- apply P2. intros ([[]|A] & _); try discriminate. apply A. intros K. apply repeated_spec in K. congruence.
        -- apply P2. intros (_ & [[]|A] & _); try discriminate. apply A. apply opposite_spec. auto.
        -- destruct P1 as (c' & P1 & _); [|discriminate]. split; [right; intros K; apply K; apply repeated_spec; auto|].
           split; [right; intros K; apply opposite_spec in K; congruence|]. left; auto.
Qed.
(*EX
(* an object with a history *)
Definition small_cnf : cnf :=
  mkCnf [txt "z"; txt "x"; txt "y"] [[2; -3]; [-1; 3; 3]].
Example C66_applies : made small_cnf /\
  cnf_clauses small_cnf = [[(true, txt "x"); (false, txt "y")]; [(false, txt "z"); (true, txt "y"); (true, txt "y")]] /\
  add_clause_strict [(true, txt "w")] small_cnf = Err ValueError /\
  cnf_add_clause [(true, txt "w"); (true, txt "w")] small_cnf = Err ValueError /\
  cnf_add_clause [(true, txt "w"); (false, txt "x")] small_cnf =
    Ok (mkCnf [txt "z"; txt "x"; txt "y"; txt "w"] [[2; -3]; [-1; 3; 3]; [4; -2]]).
Proof.
  split.
  - apply (made_clause (mkCnf [txt "z"; txt "x"; txt "y"] [[2; -3]]) true false false false
             [(false, txt "z"); (true, txt "y"); (true, txt "y")]); [|reflexivity].
    apply (made_clause (add_variable (txt "z") empty_cnf) false false true false [(true, txt "x"); (false, txt "y")]); [|reflexivity].
    apply made_variable. apply made_empty.
  - split; [reflexivity|]. split; [reflexivity|]. split; reflexivity.
Qed.
EX*)

(* C67: the file: comments, 'p cnf' with the numbers of variables and clauses, one line per clause with
   literal i for the i-th of variables(), a final blank line *)
Lemma p_C67_file : forall verbose header cmd c, made c ->
  exists comments F lines blank,
    cnfgen_file verbose header cmd c =
      file_of (comments ++
               (chars "p cnf " ++ str_Z (Z.of_nat (List.length (cnf_variables c))) ++ chars " " ++
                str_Z (Z.of_nat (List.length (cnf_clauses c)))) :: lines ++ blank) /\
    Forall comment_line comments /\ (verbose = false -> comments = []) /\
    blank <> [] /\ (forall b, In b blank -> b = []) /\
    Forall2 (fun f l => spaced (f ++ [0]) l) F lines /\
    Forall2 (Forall2 (fun (l : bool * text) z => z <> 0 /\ fst l = (0 <? z) /\
                        nth_error (cnf_variables c) (Z.to_nat (Z.abs z - 1)) = Some (snd l))) (cnf_clauses c) F.
Proof.
  intros v h cmd c M. destruct (made_well c M) as [N W].
  exists (if v then comments h (Some (txt "COMMAND LINE: cnfgen " ++ cmd ++ [newline])) else []), (cn_clauses c),
    (map clause_line (cn_clauses c)), (match cn_clauses c with [] => [[]; []] | _ => [[]] end).
  split; [|split; [|split; [|split; [|split; [|split]]]]].
  - rewrite file_lines. unfold body, PGen6.p_line. unfold cnf_clauses. rewrite map_length. reflexivity.
  - destruct v; [apply comments_ok|constructor].
  - intros ->. reflexivity.
  - destruct (cn_clauses c); discriminate.
  - destruct (cn_clauses c); intros b Hb; cbn in Hb; intuition.
  - clear W. induction (cn_clauses c) as [|cl F IH]; constructor; auto. apply clause_line_spaced.
  - unfold cnf_clauses. assert (G : forall F, (forall cl l, In cl F -> In l cl -> 1 <= Z.abs l <= Z.of_nat (List.length (cn_names c))) ->
      Forall2 (Forall2 (fun (l : bool * text) z => z <> 0 /\ fst l = (0 <? z) /\
                        nth_error (cnf_variables c) (Z.to_nat (Z.abs z - 1)) = Some (snd l))) (map (uncompress_clause (cn_names c)) F) F).
    { clear. induction F as [|cl F IH]; intros H; cbn [map]; constructor; [|apply IH; intros; eapply H; eauto; right; auto].
      assert (K : forall l, In l cl -> 1 <= Z.abs l <= Z.of_nat (List.length (cn_names c))) by (intros; eapply H; eauto; left; auto).
      clear H IH. induction cl as [|z cl IH]; cbn [uncompress_clause map]; constructor; [|apply IH; intros; apply K; right; auto].
      cbn [fst snd]. specialize (K z (or_introl eq_refl)). split; [lia|]. split; auto. apply nth_error_nth'. unfold cnf_variables. lia. }
    apply G. exact W.
Qed.
(* C67: NDP reads it back: with clauses of one to three literals the file holds, in NDP's sense, a formula
   satisfiable exactly when clauses() is; a clause of more than three literals makes the reader fail *)
Lemma p_C67_read_back : forall verbose header cmd c, made c ->
  ((forall cl, In cl (cnf_clauses c) -> (1 <= List.length cl <= 3)%nat) ->
     exists F, represents (InDimacs (cnfgen_file verbose header cmd c)) F /\
       Forall2 (Forall2 (fun (l : bool * text) z => z <> 0 /\ fst l = (0 <? z) /\
                           nth_error (cnf_variables c) (Z.to_nat (Z.abs z - 1)) = Some (snd l))) (cnf_clauses c) F /\
       (satisfiable F <-> has_model (cnf_clauses c))) /\
  ((exists cl, In cl (cnf_clauses c) /\ (3 < List.length cl)%nat) ->
     get_cnf_set (InDimacs (cnfgen_file verbose header cmd c)) = Err OtherException).
Proof.
  intros v h cmd c M. pose proof (made_well c M) as W. split.
  - intros H. exists (cn_clauses c). split; [|split; [|apply same_satisfiable; auto]].
    + apply file_represents; auto. intros cl Hc. specialize (H (uncompress_clause (cn_names c) cl)).
      unfold uncompress_clause in H. rewrite map_length in H. apply H. apply in_map. auto.
    + destruct (p_C67_file v h cmd c M) as (cs & F & ls & bl & _ & _ & _ & _ & _ & _ & G).
      assert (F = cn_clauses c); [|subst; auto]. clear -G W. destruct W as [N W]. unfold cnf_clauses in G. revert F G. revert W.
      induction (cn_clauses c) as [|cl t IH]; intros W F G; inversion G as [|? f ? F' G1 G2]; subst; auto. f_equal; [|apply IH; auto; intros; eapply W; eauto; right; auto].
      assert (K : forall l, In l cl -> 1 <= Z.abs l <= Z.of_nat (List.length (cn_names c))) by (intros; eapply W; eauto; left; auto).
      clear -N G1 K. revert f G1. induction cl as [|z cl IH]; intros f G; inversion G as [|? y ? f' G1 G2]; subst; auto.
      f_equal; [|apply IH; auto; intros; apply K; right; auto]. cbn [fst snd] in G1. destruct G1 as (Y0 & Y1 & Y2).
      specialize (K z (or_introl eq_refl)).
      assert (Z.to_nat (Z.abs y - 1) = Z.to_nat (Z.abs z - 1)).
      { apply (proj1 (NoDup_nth_error (cn_names c)) N).
        - apply nth_error_Some. unfold cnf_variables in Y2. congruence.
        - unfold cnf_variables in Y2. rewrite Y2. symmetry. apply nth_error_nth'. lia. }
      destruct (Z.ltb_spec 0 z), (Z.ltb_spec 0 y); try discriminate; lia.
  - intros (cl & Hc & L). unfold cnf_clauses in Hc. apply in_map_iff in Hc as (z & <- & Hz).
    apply (file_wide v h cmd c z); auto. unfold uncompress_clause in L. rewrite map_length in L. auto.
Qed.
(* C67: from the formula object to the verdict of NDP: with clauses of one to three literals, not all of them
   with opposite literals, NDP ends with a report on the file; 'SATISFIABLE' is right and the solution, read
   through variables(), makes every clause true; without hash collision the verdict is exact *)
Lemma p_C67_solved : forall verbose header cmd c e l db name,
  made c -> (forall cl, In cl (cnf_clauses c) -> (1 <= List.length cl <= 3)%nat) ->
  (exists cl, In cl (cnf_clauses c) /\ ~ contradicts cl) ->
  proper l -> c_dimacs l = Some (name, cnfgen_file verbose header cmd c) -> reliable e l db ->
  c_factorize l = false -> c_multiply l = None ->
  exists root out file ver written shown,
    get_cnf_set (InDimacs (cnfgen_file verbose header cmd c)) = Ok root /\
    command_ends e l db (Ran (Report out [] file ver) written shown) /\
    (out_sat out = true -> exists sol, out_solution out = Some sol /\
       forall a : text -> bool,
         (forall i b, In (i, b) sol -> exists v, nth_error (cnf_variables c) (Z.to_nat (i - 1)) = Some v /\ a v = b) ->
         all_hold a (cnf_clauses c)) /\
    (out_sat out = true -> has_model (cnf_clauses c)) /\
    (collision_free (e_hash e) (opts_of l) root -> (out_sat out = true <-> has_model (cnf_clauses c))).
Proof.
  intros v h cmd c e l db name M HL (cl & Hc & HT) P HD HR Hf Hm. pose proof (made_well c M) as W.
  assert (HL' : forall cl, In cl (cn_clauses c) -> (1 <= List.length cl <= 3)%nat).
  { intros z Hz. specialize (HL (uncompress_clause (cn_names c) z)). unfold uncompress_clause in HL. rewrite map_length in HL. apply HL. apply in_map. auto. }
  destruct (p_C59_program_verdict e l db name (InDimacs (cnfgen_file v h cmd c)) (cn_clauses c) P) as (root & out & file & ver & written & shown & A & B & C & D & E); auto.
  - right. eauto.
  - apply file_represents; auto.
  - unfold cnf_clauses in Hc. apply in_map_iff in Hc as (z & <- & Hz). exists z. split; auto. intros (w & Hw & K1 & K2). apply HT.
    exists (nth (Z.to_nat (Z.abs w - 1)) (cn_names c) []). unfold uncompress_clause.
    destruct (Z.ltb_spec 0 w).
    + split; apply in_map_iff; [exists w|exists (- w)]; split; auto; [|rewrite Z.abs_opp]; f_equal; apply Z.ltb_lt || apply Z.ltb_ge; lia.
    + split; apply in_map_iff; [exists (- w)|exists w]; split; auto; [rewrite Z.abs_opp|]; f_equal; apply Z.ltb_lt || apply Z.ltb_ge; lia.
  - exists root, out, file, ver, written, shown. split; auto. split; auto. pose proof (same_satisfiable c W) as SS. split; [|split].
    + intros T. destruct (C T) as (_ & sol & S1 & S2 & S3 & S4 & _). exists sol. split; auto. intros a Ha.
      assert (X : cnf_true (fun i => a (nth (Z.to_nat (i - 1)) (cn_names c) [])) (cn_clauses c)).
      { apply S3. intros i b Hi. destruct (Ha i b Hi) as (w & E1 & E2). unfold cnf_variables in E1. rewrite (nth_error_nth _ _ _ E1). auto. }
      intros d Hd. unfold cnf_clauses in Hd. apply in_map_iff in Hd as (z & <- & Hz). destruct (X z Hz) as (k & Hk & Ek).
      exists (0 <? k), (nth (Z.to_nat (Z.abs k - 1)) (cn_names c) []). split; [unfold uncompress_clause; apply in_map_iff; eauto|].
      destruct W as [N W]. specialize (W z k Hz Hk). unfold lit_true in Ek.
      destruct (Z.ltb_spec 0 k), (Z.ltb_spec k 0); try lia.
      * rewrite Z.abs_eq by lia. auto.
      * rewrite Z.abs_neq by lia. apply negb_true_iff in Ek. auto.
    + intros T. apply SS. apply C. auto.
    + intros CF. rewrite <- SS. apply E. auto.
Qed.
Lemma same_read_command e fuel lf l db name t t' : proper l -> c_dimacs l = Some (name, t) ->
  get_cnf_set (InDimacs t) = get_cnf_set (InDimacs t') -> command e fuel lf l db = command e fuel lf (on_dimacs l name t') db.
Proof.
  intros P HD E. destruct (pr_input l P) as [(A & B & C)|[(A & B & C)|(A & B & C)]]; try congruence.
  destruct l. cbn in A, B, HD. subst. unfold on_dimacs, command. cbn [groups_ok MCli.c_line MCli.c_line_file MCli.c_dimacs].
  match goal with |- (if ?x then _ else match ?y with _ => _ end) = (if ?x' then _ else match ?y' with _ => _ end) => change x' with x; change y' with y; destruct x, y; auto end.
  unfold main_with. cbn [chosen_input c_line c_line_file c_dimacs]. rewrite E. reflexivity.
Qed.
Lemma made_of_numbers vs zs : NoDup vs -> (forall cl z, In cl zs -> In z cl -> 1 <= Z.abs z <= Z.of_nat (List.length vs)) -> made (mkCnf vs zs).
Proof.
  intros N H. induction zs as [|z zs IH] using rev_ind.
  - assert (E : mkCnf vs [] = add_variables vs empty_cnf).
    { assert (G : cn_names (add_variables vs empty_cnf) = vs).
      { rewrite add_variables_names. cbn [empty_cnf cn_names].
        assert (K : forall k, NoDup (k ++ vs) -> with_new k vs = k ++ vs); [|apply (K []); auto]. clear.
        induction vs as [|v vs IH]; intros k N; cbn [with_new]; [rewrite app_nil_r; auto|].
        destruct (in_dec _ _ _) as [K|K].
        - exfalso. apply NoDup_remove_2 in N. apply N. apply in_app_iff. auto.
        - rewrite IH; rewrite <- app_assoc; auto. }
      pose proof (add_variables_numbers vs empty_cnf) as G2. destruct (add_variables vs empty_cnf) as [x y]. cbn in *. subst. auto. }
    rewrite E. apply variables_made. constructor.
  - assert (made (mkCnf vs zs)) as M by (apply IH; intros cl w Hc; apply H; apply in_app_iff; auto).
    apply (made_unsafe (mkCnf vs zs) (uncompress_clause vs z)); auto. unfold add_clause_unsafe. cbn [cn_names].
    assert (E : compress_clause vs (uncompress_clause vs z) = Ok z); [|rewrite E; reflexivity].
    assert (K : forall l, In l z -> 1 <= Z.abs l <= Z.of_nat (List.length vs)) by (intros; eapply H; eauto; apply in_app_iff; right; left; auto).
    clear -N K. unfold compress_clause, uncompress_clause. induction z as [|k z IH]; auto. cbn [map mapM fst snd].
    pose proof (K k (or_introl eq_refl)) as B. rewrite position_nth by (auto; lia). cbn [of_option bind].
    rewrite IH by (intros; apply K; right; auto). cbn [bind]. do 2 f_equal. destruct (Z.ltb_spec 0 k); lia.
Qed.
(* C67, exception: NDP does not see empty clauses: on the file of a formula with an empty clause, which no
   assignment satisfies, it does exactly what it does on the file of the formula without its empty clauses *)
Lemma p_C67_empty_clause_lost : forall verbose header cmd c l name,
  made c -> (forall cl, In cl (cnf_clauses c) -> (List.length cl <= 3)%nat) -> In [] (cnf_clauses c) ->
  proper l -> c_dimacs l = Some (name, cnfgen_file verbose header cmd c) ->
  ~ has_model (cnf_clauses c) /\
  exists c', made c' /\ cnf_clauses c' = filter (fun cl => match cl with [] => false | _ => true end) (cnf_clauses c) /\
    cnf_variables c' = cnf_variables c /\
    forall e fuel lf db, command e fuel lf l db = command e fuel lf (on_dimacs l name (cnfgen_file verbose header cmd c')) db.
Proof.
  intros v h cmd c l name M HL H0 P HD. pose proof (made_well c M) as W.
  split; [intros (a & Ha); destruct (Ha [] H0) as (? & ? & [] & _)|].
  exists (without_empty c).
  split; [|split; [apply without_empty_clauses|split; [reflexivity|]]].
  - destruct W as [N W]. apply made_of_numbers; auto. intros cl z Hc. apply filter_In in Hc as [Hc _]. apply W. auto.
  - intros e fuel lf db. apply (same_read_command e fuel lf l db name _ _ P HD). apply file_without_empty; auto.
    intros z Hz. specialize (HL (uncompress_clause (cn_names c) z)). unfold uncompress_clause in HL. rewrite map_length in HL. apply HL. apply in_map. auto.
Qed.
(*EX
From Verif Require Import Properties14.
(* a satisfiable formula as generated, with a comment, solved by NDP with three worker processes *)
Definition generated_file : text := cnfgen_file true (txt "x and y
") (txt "some family") small_cnf.
Definition on_cnf (t : text) : cli :=
  mkCli false false false true None None (Some (txt "in/f.cnf", t)) None true true 3 false true false false false false false false None MODE_LO.
Example C67_text : cnfgen_file false [] [] small_cnf = txt "p cnf 3 2
2 -3 0
-1 3 3 0
".
Proof. reflexivity. Qed.
Example C67_applies : exists out file ver written shown,
  proper (on_cnf generated_file) /\ reliable plain_env (on_cnf generated_file) [] /\
  command plain_env 300 300 (on_cnf generated_file) [] = Ok (Ran (Report out [] file ver) written shown) /\
  out_sat out = true /\ out_solution out = Some [(2, true); (3, true)].
Proof.
  do 5 eexists. split; [apply PCli.proper_iff; split; reflexivity|]. split.
  - split; [reflexivity|]. split; [intros k; exists 0%nat; reflexivity|]. split; [apply PP10.round_robin_fair|]. split; [auto|discriminate].
  - split; [vm_compute; reflexivity|]. split; reflexivity.
Qed.
(* a formula with an empty clause and its file, which NDP declares satisfiable *)
Definition with_empty : cnf := mkCnf [txt "x"] [[1]; []].
Example C67_empty_clause : made with_empty /\ In [] (cnf_clauses with_empty) /\
  exists out file ver written shown,
    command plain_env 300 300 (on_cnf (cnfgen_file false [] [] with_empty)) [] = Ok (Ran (Report out [] file ver) written shown) /\
    out_sat out = true.
Proof.
  split.
  - apply (made_clause (mkCnf [txt "x"] [[1]]) false false true false []); [|reflexivity].
    apply (made_clause empty_cnf false false true false [(true, txt "x")]); [constructor|reflexivity].
  - split; [right; left; reflexivity|]. do 5 eexists. split; [vm_compute; reflexivity|reflexivity].
Qed.
EX*)
