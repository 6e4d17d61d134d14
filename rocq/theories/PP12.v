(* PP12.v -- the benchmark generator (C52-C56): statements and proofs. *)
From Coq Require Import String Ascii ZArith List Bool Lia Permutation Sorted.
From Verif Require Import Spec PyBase MSet MText MQueue MDb MSolver MMain SpecInput SpecRun MGen SpecGen PGen5
  PGen6 PGen9 PGen10 PGen11 PGen12 PGen13 PP5 PP6.
Import ListNotations.
Open Scope Z_scope.

Lemma vars_from_next n : 4 <= n -> PGen4.vars_from 1 (PGen4.n1 n) = map BitVar (next_vars 0 (first_bits n)) /\
  PGen4.vars_from (1 + first_bits n) (PGen4.n2 n) = map BitVar (next_vars (first_bits n) (second_bits n)).
Proof.
  intros _. unfold PGen4.vars_from, next_vars. fold (PGen4.n1 n) (PGen4.n2 n). rewrite <- !seq_shift, !map_map.
  split; apply map_ext; intros; f_equal; lia.
Qed.

(* C52: for every number n >= 4 and every choice of adder and multiplier the generator ends with a formula F
   whose models encode exactly the factorisations of n: clauses of one or three literals over the variables
   1..g_last, the two factors in the variables announced (bit_length n - 1 and half of bit_length n, rounded
   up); every model gives two numbers greater than 1 with product n; every two numbers of these sizes with
   product n are given by a model, and by only one; so F is satisfiable exactly when n is not prime *)
Lemma p_C52_factoring_formula : forall a m n, 4 <= n ->
  let f1 := first_bits n in let f2 := second_bits n in
  exists g F, generate a m n = Some g /\ g_cnf g = map (map literal) F /\
    g_first g = map BitVar (next_vars 0 f1) /\ g_second g = map BitVar (next_vars f1 f2) /\
    (forall c, In c F -> List.length c = 1%nat \/ List.length c = 3%nat) /\
    (forall c l, In c F -> In l c -> 1 <= Z.abs l <= g_last g) /\
    (forall asg, cnf_true asg F ->
       let p := value_of asg (next_vars 0 f1) in let q := value_of asg (next_vars f1 f2) in
       1 < p /\ 1 < q /\ p * q = n) /\
    (forall p q, 0 <= p < 2 ^ f1 -> 0 <= q < 2 ^ f2 -> p * q = n ->
       exists asg, cnf_true asg F /\ value_of asg (next_vars 0 f1) = p /\ value_of asg (next_vars f1 f2) = q) /\
    (forall asg asg', cnf_true asg F -> cnf_true asg' F ->
       value_of asg (next_vars 0 f1) = value_of asg' (next_vars 0 f1) ->
       value_of asg (next_vars f1 f2) = value_of asg' (next_vars f1 f2) ->
       forall v, 1 <= v <= g_last g -> asg v = asg' v) /\
    (satisfiable F <-> composite n) /\ (satisfiable F <-> ~ Znumtheory.prime n).
Proof.
  intros a m n Hn f1 f2. destruct (gen_run_exists a m n Hn) as (cs & v1 & ds & GR).
  destruct (vars_from_next n Hn) as [V1 V2].
  eexists _, (ints (clauses_of (ds ++ PGen4.assert_gates (filter keepBitVar cs) (map bit_value (int2bits n))))).
  split; [apply (gr_gen _ _ _ _ _ _ GR)|]. cbn [g_cnf g_first g_second g_last].
  assert (M : forall asg, cnf_true asg (ints (clauses_of (ds ++ PGen4.assert_gates (filter keepBitVar cs) (map bit_value (int2bits n))))) ->
    let p := value_of asg (next_vars 0 f1) in let q := value_of asg (next_vars f1 f2) in
    1 < p /\ 1 < q /\ p * q = n).
  { intros asg H p q. apply (model_iff a m n cs v1 ds Hn GR) in H as [_ H]. rewrite first_value, second_value in H.
    fold f1 f2 in H. fold p q in H.
    pose proof (PGen2.nval_range asg (PGen4.vars_from 1 (PGen4.n1 n))) as R1. rewrite PGen4.vars_from_length, first_value, n1_Z in R1 by auto.
    pose proof (PGen2.nval_range asg (PGen4.vars_from (1 + first_bits n) (PGen4.n2 n))) as R2. rewrite PGen4.vars_from_length, second_value, n2_Z in R2 by auto.
    destruct (fit_factors n p q Hn R1 R2 H). auto. }
  assert (E : forall p q, 0 <= p < 2 ^ f1 -> 0 <= q < 2 ^ f2 -> p * q = n ->
    exists asg, cnf_true asg (ints (clauses_of (ds ++ PGen4.assert_gates (filter keepBitVar cs) (map bit_value (int2bits n))))) /\
     value_of asg (next_vars 0 f1) = p /\ value_of asg (next_vars f1 f2) = q).
  { intros p q Hp Hq H. destruct (gen_models a m n cs v1 ds Hn GR p q Hp Hq H) as (f & A & B & C).
    exists f. rewrite first_value in B. rewrite second_value in C. auto. }
  assert (S : satisfiable (ints (clauses_of (ds ++ PGen4.assert_gates (filter keepBitVar cs) (map bit_value (int2bits n))))) <-> composite n).
  { split.
    - intros (f & Hf). apply M in Hf as (A & B & C). eexists _, _. split; [exact A|]. split; [exact B|]. lia.
    - intros (p & q & Hp & Hq & Hpq). destruct (Z_le_gt_dec p q) as [L|L].
      + destruct (factors_fit n p q) as [A B]; auto. destruct (E q p) as (f & Hf & _); [fold f1 in B; lia|fold f2 in A; lia|lia|]. exists f; auto.
      + destruct (factors_fit n q p) as [A B]; auto; try lia. destruct (E p q) as (f & Hf & _); [fold f1 in B; lia|fold f2 in A; lia|lia|]. exists f; auto. }
  split; [symmetry; apply (gen_literals a m n cs v1 ds GR)|]. split; [exact V1|]. split; [exact V2|].
  split; [apply gen_sizes|]. split.
  { intros c l H1 H2. pose proof (gen_vars a m n cs v1 ds GR c l H1 H2). lia. }
  split; [exact M|]. split; [exact E|]. split; [|split; [exact S|rewrite S; apply composite_not_prime; lia]].
  intros x y Hx Hy E1 E2 v Hv. unfold f1, f2 in E1, E2. rewrite <- !first_value in E1. rewrite <- !second_value in E2.
  apply (gen_unique a m n cs v1 ds Hn GR x y Hx Hy E1 E2). lia.
Qed.
(* C52 does not extend to n = 2 and n = 3: the formula is satisfiable although the number is prime *)
Lemma p_C52_two_and_three : forall a m n, n = 2 \/ n = 3 -> exists g F,
  generate a m n = Some g /\ g_cnf g = map (map literal) F /\ satisfiable F /\ Znumtheory.prime n.
Proof.
  intros a m n Hn.
  set (F := [[1; 2; -3]; [1; -2; -3]; [-1; 2; -3]; [-1; -2; 3]; [if n =? 2 then -3 else 3]]).
  exists (Generated [BitVar 1] [BitVar 2] [BitVar 3] 3 (map (map literal) F)), F.
  split; [|split; [reflexivity|split]].
  - destruct Hn as [-> | ->]; destruct a, m; reflexivity.
  - exists (fun _ => negb (n =? 2)). unfold F, cnf_true, clause_true.
    destruct Hn as [-> | ->]; cbn [In]; intros c [<-|[<-|[<-|[<-|[<-|[]]]]]];
      first [exists 1; split; [cbn; tauto|reflexivity]|exists (-1); split; [cbn; tauto|reflexivity]|
             exists 2; split; [cbn; tauto|reflexivity]|exists (-2); split; [cbn; tauto|reflexivity]|
             exists 3; split; [cbn; tauto|reflexivity]|exists (-3); split; [cbn; tauto|reflexivity]].
  - destruct Hn as [-> | ->]; [apply Znumtheory.prime_2|apply Znumtheory.prime_3].
Qed.

(* C53: what the generator prints is a DIMACS file for that formula: comment lines, one problem line with the
   numbers of variables and clauses, one line per clause, closed by 0; the solver's reader takes it as the
   formula; numbers below 2 are refused *)
Lemma p_C53_generated_file : forall a m n,
  (n <= 1 <-> gen_main a m n = None) /\
  (4 <= n -> exists g F t header body,
     generate a m n = Some g /\ g_cnf g = map (map literal) F /\ gen_main a m n = Some t /\
     t = file_of (header ++ [txt "p cnf " ++ str_Z (g_last g) ++ txt " " ++ str_Z (Z.of_nat (List.length F))] ++
                  body ++ [[]]) /\
     Forall comment_line header /\ Forall2 (fun c line => spaced (c ++ [0]) line) F body /\
     Forall one_line (header ++ body) /\ represents (InDimacs t) F).
Proof.
  intros a m n. split; [split|].
  - intros H. unfold gen_main. rewrite (proj2 (Z.leb_le n 1)) by lia. auto.
  - intros H. destruct (Z_le_gt_dec n 1) as [|Hn]; auto. exfalso. unfold gen_main in H. rewrite (proj2 (Z.leb_gt n 1)) in H by lia.
    destruct (Z_lt_le_dec n 4) as [L|L].
    + destruct (p_C52_two_and_three a m n) as (g & F & E & _); [lia|]. rewrite E in H. discriminate.
    + destruct (p_C52_factoring_formula a m n L) as (g & F & E & _). rewrite E in H. discriminate.
  - intros Hn. destruct (p_C52_factoring_formula a m n Hn) as (g & F & E & EF & _ & _ & Len & Var & _).
    assert (K : forall c, In c F -> c <> [] /\ ~ In 0 c /\ (List.length c <= 3)%nat).
    { intros c Hc. destruct (Len c Hc) as [L|L]; (split; [intros ->; discriminate|split; [|lia]]);
        intros H0; apply (Var c 0) in H0; auto; lia. }
    exists g, F, (join (txt "
") (gen_lines a m n g ++ [[]])), (hd [] (gen_lines a m n g) :: gen_header a m n g), (map show_clause (g_cnf g)).
    split; auto. split; auto. split. { unfold gen_main. rewrite (proj2 (Z.leb_gt n 1)) by lia. rewrite E. reflexivity. }
    split. { rewrite join_separated. rewrite gen_lines_split. rewrite EF at 1 2. unfold p_line. rewrite !map_length.
      rewrite EF. cbn [app]. rewrite <- app_assoc. reflexivity. }
    split; [apply header_comments|]. split.
    { rewrite EF. clear -K. induction F as [|c F IH]; cbn [map]; constructor.
      - apply show_clause_spaced. apply K. left; auto.
      - apply IH. intros; apply K; right; auto. }
    split; [|apply text_represents; auto].
    pose proof (gen_lines_one_line a m n g) as O. rewrite gen_lines_split in O.
    change (hd [] (gen_lines a m n g) :: ?x) with ([hd [] (gen_lines a m n g)] ++ x) in O.
    rewrite !Forall_app in O. rewrite Forall_app. destruct O as (O1 & O2 & O3 & O4). split; auto.
    inversion O1; subst. constructor; auto.
Qed.

Lemma literal_inj F : forall F', map (map literal) F = map (map literal) F' -> F' = F.
Proof.
  assert (I : forall a b : list Z, map literal a = map literal b -> b = a).
  { induction a as [|x a IH]; destruct b; cbn [map]; intros H; try discriminate; auto. injection H as H1 H2. f_equal; auto.
    unfold literal in H1. destruct (Z.ltb_spec x 0), (Z.ltb_spec z 0); try discriminate; injection H1; lia. }
  induction F as [|c F IH]; destruct F'; cbn [map]; intros H; try discriminate; auto. injection H as H1 H2. f_equal; auto.
Qed.
Lemma listed_bits {A} (f : A -> bit) (g : A -> text) l : (forall x, In x l -> show_bit (f x) = g x) ->
  show_bits (rev (map f l)) = listed (map g (rev l)).
Proof.
  intros H. unfold show_bits, listed. rewrite <- map_rev. f_equal. f_equal.
  assert (H' : forall x, In x (rev l) -> show_bit (f x) = g x) by (intros x Hx; apply H, in_rev; auto).
  induction (rev l) as [|x r IH]; auto. cbn [map]. rewrite (H' x) by (left; auto). destruct r as [|y r]; auto.
  change (g x ++ txt "," ++ join (txt ",") (map show_bit (map f (y :: r))) =
          g x ++ ","%char :: separated ","%char (map g (y :: r))).
  rewrite IH by (intros; apply H'; right; auto). reflexivity.
Qed.
Lemma nval_bits f l : PGen1.nval f l = bits_value (map (PGen1.bval f) l).
Proof. induction l as [|b l IH]; cbn [PGen1.nval map bits_value]; auto. rewrite IH. reflexivity. Qed.
Lemma outputs_value a m n cs' v1 ds f : 4 <= n -> gen_run a m n cs' v1 ds ->
  cnf_true f (ints (clauses_of (ds ++ PGen4.assert_gates (filter keepBitVar cs') (map bit_value (int2bits n))))) ->
  bits_value (map (PGen1.bval f) (filter keepBitVar cs')) = n.
Proof.
  intros Hn GR H. pose proof (gr_core _ _ _ _ _ _ GR) as C.
  rewrite (clauses_of_true v1) in H by (eapply all_gates_vars; eauto). apply Forall_app in H as [D HA].
  pose proof (proj1 (PGen4.assert_gates_true f _ _) HA) as HA'. clear HA. rename HA' into HA.
  rewrite <- nval_bits. apply Z.bits_inj'. intros i Hi. rewrite <- (Z2Nat.id i Hi), <- PGen4.nval_testbit.
  destruct (PGen4.size_facts n Hn) as (S1 & S2 & S3 & S4). pose proof (n1_Z n Hn) as Z1. pose proof (n2_Z n Hn) as Z2.
  destruct (PGen4.filter_prefix (PGen4.n1 n + PGen4.n2 n) cs') as (Len & _ & Ef).
  { intros j Hj. eapply PGen4.core_bits; eauto; lia. }
  destruct (Nat.lt_ge_cases (Z.to_nat i) (List.length (filter keepBitVar cs'))) as [L|L].
  - rewrite HA by auto. apply PGen4.int2bits_values; lia.
  - rewrite nth_overflow by auto. cbn. symmetry. apply Z.bits_above_log2; [lia|]. apply Z.log2_lt_pow2; [lia|].
    eapply Z.lt_le_trans; [apply S4|]. apply Z.pow_le_mono_r; [lia|].
    rewrite Ef, app_length, firstn_length_le in L by auto. lia.
Qed.

(* C53: the comments at the head of the file say what its variables mean: the number with its binary digits,
   the literals of the output (in every model they spell the number), the variables of the first and of the
   second factor, all with the most significant bit first *)
Lemma p_C53_header : forall a m n t, 4 <= n -> gen_main a m n = Some t ->
  exists F outputs digits rest, represents (InDimacs t) F /\
    t = file_of ([txt "c Problem generated from " ++ circuit_name a m ++ txt " multiplication circuit";
                  txt "c by Paul Purdom and Amr Sabry"; txt "c";
                  txt "c Circuit for product = " ++ str_Z n ++ txt " " ++ listed (map truth (rev digits));
                  txt "c Variables for output [msb,...,lsb]: " ++ listed (map str_Z (rev outputs));
                  txt "c Variables for first input [msb,...,lsb]: " ++
                    listed (map str_Z (rev (next_vars 0 (first_bits n))));
                  txt "c Variables for second input [msb,...,lsb]: " ++
                    listed (map str_Z (rev (next_vars (first_bits n) (second_bits n))));
                  txt "c"; txt "c"] ++ rest) /\
    bits_value digits = n /\ Z.of_nat (List.length digits) = bit_length n /\
    (forall asg, cnf_true asg F -> bits_value (map (lit_true asg) outputs) = n).
Proof.
  intros a m n t Hn Ht. destruct (gen_run_exists a m n Hn) as (cs & v1 & ds & GR).
  destruct (vars_from_next n Hn) as [V1 V2].
  pose proof (gr_gen _ _ _ _ _ _ GR) as E. rewrite V1, V2 in E.
  set (F := ints (clauses_of (ds ++ PGen4.assert_gates (filter keepBitVar cs) (map bit_value (int2bits n))))) in *.
  set (outs := map lit_of (filter keepBitVar cs)).
  destruct (p_C53_generated_file a m n) as [_ G]. destruct (G Hn) as (g & F' & t' & hd & bd & E1 & E2 & E3 & _ & _ & _ & _ & R).
  rewrite Ht in E3. injection E3 as <-. rewrite E in E1. injection E1 as <-. cbn [g_cnf] in E2.
  rewrite <- (gen_literals a m n cs v1 ds GR) in E2. fold F in E2.
  apply literal_inj in E2. subst F'.
  exists F, outs, (map bit_value (int2bits n)), (skipn 9 (gen_lines a m n (Generated (map BitVar (next_vars 0 (first_bits n)))
    (map BitVar (next_vars (first_bits n) (second_bits n))) (filter keepBitVar cs) (v1 - 1)
    (clauses_of (ds ++ PGen4.assert_gates (filter keepBitVar cs) (map bit_value (int2bits n)))))) ++ [[]]).
  split; [exact R|]. split; [|split; [|split]].
  - unfold gen_main in Ht. rewrite (proj2 (Z.leb_gt n 1)), E in Ht by lia.
    match type of Ht with Some ?x = _ => assert (Q : x = t) by congruence end. rewrite <- Q. clear Q. clear Ht.
    rewrite join_separated. unfold gen_lines at 1. f_equal. rewrite <- app_assoc.
    change ((?x1 :: ?x2 :: ?x3 :: ?x4 :: ?x5 :: ?x6 :: ?x7 :: ?x8 :: ?x9 :: [?x10]) ++ ?y) with
      ([x1; x2; x3; x4; x5; x6; x7; x8; x9] ++ [x10] ++ y).
    f_equal.
    cbn [g_first g_second g_output].
    assert (VS : forall l, (forall x, In x l -> 0 < x) -> show_bits (rev (map BitVar l)) = listed (map str_Z (rev l))).
    { intros l Hl. apply listed_bits. intros; reflexivity. }
    rewrite (VS (next_vars 0 (first_bits n))), (VS (next_vars (first_bits n) (second_bits n)))
      by (intros x Hx; unfold next_vars in Hx; apply in_map_iff in Hx as (i & <- & Hi); apply in_seq in Hi; pose proof (PGen4.size_facts n Hn); lia).
    assert (OS : show_bits (rev (filter keepBitVar cs)) = listed (map str_Z (rev outs))).
    { rewrite <- (map_id (filter keepBitVar cs)). rewrite (listed_bits (fun b => b) (fun b => str_Z (lit_of b))).
      - unfold outs. rewrite <- map_rev, map_map. reflexivity.
      - intros b Hb. pose proof (outputs_vars _ _ _ _ _ _ GR) as O. rewrite Forall_forall in O.
        rewrite <- (literal_lit_of v1 b) at 1 by auto. apply show_literal. }
    rewrite OS.
    assert (DS : show_bits (rev (int2bits n)) = listed (map truth (rev (map bit_value (int2bits n))))).
    { rewrite <- (map_id (int2bits n)) at 1. rewrite (listed_bits (fun b => b) (fun b => truth (bit_value b))).
      - rewrite <- map_rev, map_map. reflexivity.
      - intros b Hb. pose proof (PGen4.int2bits_consts n 1) as B. unfold PGen1.belows in B. rewrite Forall_forall in B.
        specialize (B b Hb). destruct b as [[|]| |]; try reflexivity; cbn in B; lia. }
    rewrite DS. unfold multiplier_name, adder_name, circuit_name. destruct a, m; reflexivity.
  - transitivity (PGen1.nval (fun _ => false) (int2bits n)); [|apply PGen4.int2bits_nval; lia]. rewrite nval_bits.
    f_equal. apply map_ext_in. intros b Hb. pose proof (PGen4.int2bits_consts n 1) as B.
    unfold PGen1.belows in B. rewrite Forall_forall in B. specialize (B b Hb). destruct b as [[|]| |]; try reflexivity; cbn in B; lia.
  - rewrite map_length. apply PGen4.int2bits_length. lia.
  - intros asg H. etransitivity; [|apply (outputs_value a m n cs v1 ds asg Hn GR H)]. f_equal. unfold outs. rewrite map_map.
    apply map_ext_in. intros b Hb. pose proof (outputs_vars _ _ _ _ _ _ GR) as O. rewrite Forall_forall in O.
    apply (lit_of_true v1). auto.
Qed.

(* C53: the solver run on a generated file answers whether n is composite *)
Lemma p_C53_verdict : forall am mm n t hash insert_fails o a db,
  4 <= n -> gen_main am mm n = Some t ->
  fresh_db o insert_fails db -> a_factorize a = false -> a_multiply a = None ->
  exists root out file ver,
    get_cnf_set (InDimacs t) = Ok root /\
    program_answers hash insert_fails o a (InDimacs t) db (Report out [] file ver) /\
    (out_sat out = true -> composite n /\ exists sol, out_solution out = Some sol /\
       NoDup (dkeys sol) /\ forall asg, extends asg sol ->
         let p := value_of asg (next_vars 0 (first_bits n)) in
         let q := value_of asg (next_vars (first_bits n) (second_bits n)) in
         1 < p /\ 1 < q /\ n = p * q) /\
    (collision_free hash o root -> (out_sat out = true <-> composite n)).
Proof.
  intros am mm n t hash ifl o a db Hn Ht FD Hf Hm.
  destruct (p_C53_generated_file am mm n) as [_ G]. destruct (G Hn) as (g & F & t' & hd & bd & E1 & E2 & E3 & _ & _ & _ & _ & R).
  rewrite Ht in E3. apply (f_equal (fun o => match o with Some x => x | None => t end)) in E3. cbv beta iota in E3. subst t'.
  destruct (p_C52_factoring_formula am mm n Hn) as (g' & F' & D1 & D2 & _ & _ & _ & Dv & Dm & _ & _ & Ds & _).
  rewrite E1 in D1. apply (f_equal (fun o => match o with Some x => x | None => g end)) in D1. cbv beta iota in D1. subst g'.
  rewrite E2 in D2. apply literal_inj in D2.
  subst F'.
  assert (HT : exists c, In c F /\ ~ complementary c).
  { set (z := fun _ : Z => false). destruct (forallb (existsb (lit_true z)) F) eqn:EB.
    - exfalso. assert (X : cnf_true z F).
      { intros c Hc. rewrite forallb_forall in EB. apply EB, existsb_exists in Hc as (l & Hl & Hlt). exists l; auto. }
      apply Dm in X as (A & _). revert A. unfold value_of. generalize (next_vars 0 (first_bits n)). intros l.
      assert (bits_value (map z l) = 0); [|lia]. induction l; cbn [map bits_value]; auto. unfold z at 1. lia.
    - assert (X : existsb (fun c => negb (existsb (lit_true z) c)) F = true).
      { clear -EB. induction F as [|c F IH]; [discriminate|]. cbn [forallb existsb] in *. destruct (existsb (lit_true z) c); auto. }
      apply existsb_exists in X as (c & Hc & X). exists c. split; auto. intros K. apply (PReader.complementary_true z) in K as (l & Hl & K).
      apply negb_true_iff in X. rewrite <- not_true_iff_false in X. apply X. apply existsb_exists. eauto. }
  destruct (p_C47_program_verdict hash ifl o a (InDimacs t) db F R HT FD Hf Hm) as (root & out & file & ver & A & B & C & _ & D).
  exists root, out, file, ver. split; auto. split; auto. split.
  - intros Hs. destruct (C Hs) as (S1 & sol & S2 & S0 & S3 & _). split; [apply Ds; auto|]. exists sol. split; auto. split; auto. intros asg Ha p q.
    destruct (Dm asg (S3 asg Ha)) as (P1 & P2 & P3). split; auto.
  - intros CF. rewrite (D CF). auto.
Qed.

(* C54: with -fact, the solver run on a generated file prints two proper factors of n, or 'n is prime'; the
   answer is exact unless two formulas met in the search have the same hash.  The circuit has to be an
   array: any number with the carry-save and the Wallace multiplier; with the recursive multiplier numbers of
   at most 21 binary digits, or of an even number of digits up to 40 *)
Lemma p_C54_factoring : forall am mm n t hash insert_fails o a db,
  4 <= n -> array_sized mm n -> gen_main am mm n = Some t ->
  fresh_db o insert_fails db -> a_factorize a = true -> a_multiply a = None ->
  exists root info s' out lines file ver,
    get_cnf_set (InDimacs t) = Ok root /\ factorize root = Some (info, s') /\
    program_answers hash insert_fails o a (InDimacs t) db (Report out lines file ver) /\
    (out_sat out = true -> exists p q, lines = [LFactors n p q] /\ 1 < p /\ 1 < q /\ n = p * q) /\
    (out_sat out = false -> lines = [LPrime n]) /\
    (collision_free hash o s' -> (out_sat out = true <-> ~ Znumtheory.prime n)).
Proof.
  intros am mm n t hash ifl o a db Hn Hr Ht FD Hf Hm.
  destruct (gen_root am mm n t Hn Hr Ht) as (cs' & v1 & ds & root & rest & GR & arr & Hg & RO & ER & Hz & B & U & NU & SUB).
  destruct (PGen4.size_facts n Hn) as (S1 & S2 & _).
  set (f1 := first_bits n) in *. set (f2 := second_bits n) in *.
  destruct (p_C41_factorizer root 1 (1 + f1) (- (1 + f1 + f2)) rest ER ltac:(lia) Hz) as (info & s' & Hfac & _).
  destruct (factorize_generated am mm n t root info s' Hn Hr Ht Hg Hfac) as [NE NI].
  assert (MI : forall asg, cnf_true asg (raws root) ->
     1 < value_of asg (next_vars 0 f1) /\ 1 < value_of asg (next_vars f1 f2) /\
     value_of asg (next_vars 0 f1) * value_of asg (next_vars f1 f2) = n).
  { intros asg H. apply B in H. apply (model_iff am mm n cs' v1 ds Hn GR) in H as [_ H]. rewrite first_value, second_value in H.
    pose proof (PGen2.nval_range asg (PGen4.vars_from 1 (PGen4.n1 n))) as R1. rewrite PGen4.vars_from_length, first_value, n1_Z in R1 by auto.
    pose proof (PGen2.nval_range asg (PGen4.vars_from (1 + first_bits n) (PGen4.n2 n))) as R2. rewrite PGen4.vars_from_length, second_value, n2_Z in R2 by auto.
    destruct (fit_factors n _ _ Hn R1 R2 H). auto. }
  pose proof (F_number am mm n cs' v1 ds Hn GR arr) as FN. change (bits_value (map (Z.ltb 0) (unit_literals (formula n cs' ds))) = n) in FN.
  rewrite <- U in FN.
  pose proof (p_C42_factoring_run hash ifl o a (InDimacs t) db root 1 (1 + f1) (- (1 + f1 + f2)) rest info s' Hg RO ER Hz FD Hf Hm) as Q.
  cbv zeta in Q. rewrite FN in Q. replace (1 + f1 - 1) with f1 in Q by lia. replace (Z.abs (- (1 + f1 + f2)) - (1 + f1)) with f2 in Q by lia.
  destruct Q as (out & lines & file & ver & Q1 & Q2 & Q3 & Q4); auto; try lia.
  { pose proof (F_many am mm n cs' v1 ds Hn GR arr (first_occurrences (map Z.abs (unit_literals (raws root))))) as X.
    apply X. intros v. rewrite U. rewrite PRename.first_occurrences_dedup, PLib.dedup_In. reflexivity. }
  { intros asg Ha. apply MI; auto. }
  exists root, info, s', out, lines, file, ver. split; auto. split; auto. split; auto. split; [|split; auto].
  - intros Hs. destruct (Q2 Hs) as (sol & Es & Nd & K).
    destruct (K _ (PArith.override_extends sol (fun _ => false) Nd)) as (Hm' & p & q & L1 & L2 & -> & ->).
    destruct (MI _ Hm') as (P1 & P2 & _). eexists _, _. split; [exact L1|]. auto.
  - intros CF. rewrite (Q4 CF). rewrite <- composite_not_prime by lia.
    destruct (p_C52_factoring_formula am mm n Hn) as (g & F & E1 & E2 & _ & _ & _ & _ & _ & _ & _ & E3 & _).
    rewrite <- E3. assert (EF : F = formula n cs' ds).
    { rewrite (gr_gen _ _ _ _ _ _ GR) in E1. injection E1 as <-. cbn [g_cnf] in E2. symmetry. apply literal_inj. rewrite <- E2. symmetry. apply (gen_literals am mm n cs' v1 ds GR). }
    subst F. split; intros (x & Hx); exists x; apply B; auto.
Qed.

Lemma run_lines hash ifl fuel lf o a i db root info s' out lines file ver :
  get_cnf_set i = Ok root -> factorize root = Some (info, s') -> a_factorize a = true -> a_multiply a = None ->
  main_run hash ifl fuel lf o a i db = Ok (Report out lines file ver) -> fact_lines (Some info) (out_solution out) = Ok lines.
Proof.
  intros Hg Hf Ha Hm H. unfold main_run, main_with in H. rewrite Hg in H. cbn [bind] in H. unfold preprocess, preprocess_with in H. rewrite Ha, Hf, Hm in H.
  unfold run_solver, run_with in H. destruct (_ && _); [discriminate|].
  destruct (get_hash hash false s') as [[h c]| |]; cbn [bind catch] in H; try discriminate.
  destruct (solve_set hash ifl fuel lf o c db) as [out'| |]; cbn [bind catch] in H; try discriminate.
  destruct (fact_lines (Some info) (out_solution out')) as [l| |] eqn:E; cbn [bind catch mult_lines] in H; try discriminate.
  injection H as -> <- _ _. rewrite app_nil_r. exact E.
Qed.
Lemma misread_number : exists t root info s', gen_main NBit Recursive misread = Some t /\
  get_cnf_set (InDimacs t) = Ok root /\ factorize root = Some (info, s') /\ f_number info = 4 * misread + 3.
Proof.
  assert (Hn : 4 <= misread) by (unfold misread; lia). pose proof misread_check as CK. set (n := misread) in *. clearbody n.
  destruct (p_C53_generated_file NBit Recursive n) as [_ G]. destruct (G Hn) as (g & F & t & hd & bd & E1 & E2 & E3 & _ & _ & _ & _ & R).
  rewrite E1 in CK. cbn [circuit_check] in CK. apply andb_prop in CK as [CK C3]. apply andb_prop in CK as [C1 C2]. apply Z.eqb_eq in C2.
  rewrite E2 in C1, C2, C3.
  assert (LL : forall l, lit_of (literal l) = l). { intros l. unfold literal. destruct (Z.ltb_spec l 0); cbn; lia. }
  assert (FS : forall c, In c F -> (exists l, c = [l] /\ l <> 0) \/ two_vars c).
  { intros c Hc. rewrite forallb_forall in C1. apply (in_map (map literal)) in Hc. apply C1 in Hc. destruct c as [|x [|y [|z [|w c]]]]; try discriminate; cbn [map shape_ok] in Hc.
    - left. exists x. split; auto. rewrite LL in Hc. apply negb_true_iff, Z.eqb_neq in Hc. auto.
    - right. rewrite !LL in Hc. apply negb_true_iff, Z.eqb_neq in Hc. exists x, y. cbn. auto. }
  assert (FU : bits_value (map (Z.ltb 0) (unit_literals F)) = 4 * n + 3).
  { rewrite <- C2. f_equal. clear -LL. unfold units_bits, unit_literals. induction F as [|c F IH]; auto. cbn [map flat_map].
    rewrite !map_app, IH. f_equal. destruct c as [|x [|y c]]; auto. cbn [map]. rewrite LL. auto. }
  assert (FF : exists F', F = [12; 34; -35] :: F').
  { destruct F as [|c F']; [discriminate|]. destruct c as [|x [|y [|z [|w c]]]]; cbn [map] in C3; try discriminate;
      try (destruct (literal x), (literal y); discriminate); try (destruct (literal x); discriminate).
    exists F'. f_equal. pose proof (LL x) as Lx. pose proof (LL y) as Ly. pose proof (LL z) as Lz.
      destruct (literal x), (literal y), (literal z); try discriminate. cbn in Lx, Ly, Lz.
      apply andb_prop in C3 as [C3 D3]. apply andb_prop in C3 as [C3 D2]. apply Z.eqb_eq in C3, D2, D3. subst. reflexivity. }
  destruct FF as (F' & EF).
  destruct (represents_read _ _ R) as (root & A & _ & D & _).
  assert (ER : map snd (map (fun c => (initial_index c, raw c)) (clauses root)) = raws root) by (rewrite map_map; reflexivity).
  destruct (reads_split 1 F _ D FS) as (U1 & U2 & _). rewrite ER in U1, U2.
  assert (FIRST : exists rest, raws root = [12; 34; -35] :: rest).
  { rewrite <- ER. rewrite EF in D. eapply reads_first; eauto.
    - intros (v & Hv & P & Q). destruct P as [P|[P|[P|[]]]], Q as [Q|[Q|[Q|[]]]]; lia.
    - unfold distinct_vars. cbn [cvars map].
      repeat (apply NoDup_cons; [intros X; repeat (destruct X as [X|X]; [lia|]); destruct X|]). apply NoDup_nil.
    - unfold sorted_clause. cbn [cvars map]. repeat (apply SSorted_cons; [|repeat (apply Forall_cons; [lia|]); apply Forall_nil]). apply SSorted_nil. }
  destruct FIRST as (rest & ER1).
  destruct (p_C41_factorizer root 12 34 (-35) rest ER1 ltac:(lia)) as (info & s' & X1 & X2 & _).
  { intros c l Hc Hl. destruct (U2 c Hc) as (c0 & Hc0 & _ & Q). apply Q in Hl. destruct (FS c0 Hc0) as [(l0 & -> & Hl0)|_].
    - destruct Hl as [<-|[]]. auto.
    - destruct (p_C52_factoring_formula NBit Recursive n Hn) as (g' & F0 & D1 & D2 & _ & _ & _ & Dv & _).
      rewrite E1 in D1. apply (f_equal (fun o => match o with Some x => x | None => g end)) in D1. cbv beta iota in D1. subst g'.
      rewrite E2 in D2. apply literal_inj in D2. subst F0. intros ->. specialize (Dv c0 0 Hc0 Hl). lia. }
  exists t, root, info, s'. split; auto. split; auto. split; auto. rewrite X2, U1. exact FU.
Qed.
(* C54 does not extend to the recursive multiplier on other numbers: for 4194309 = 3 * 1398103 (23 binary
   digits) -fact takes the clauses asserting the carries of the subtractions for digits of the number, and
   reads 16777239: whatever the program reports is not about the number of the file *)
Lemma p_C54_large_recursive_refuted : exists n t root info s',
  composite n /\ bit_length n = 23 /\ gen_main NBit Recursive n = Some t /\
  get_cnf_set (InDimacs t) = Ok root /\ factorize root = Some (info, s') /\ f_number info = 4 * n + 3 /\
  forall hash insert_fails fuel lf o a db out lines file ver,
    a_factorize a = true -> a_multiply a = None ->
    main_run hash insert_fails fuel lf o a (InDimacs t) db = Ok (Report out lines file ver) ->
    (forall p q, ~ In (LFactors n p q) lines) /\ ~ In (LPrime n) lines.
Proof.
  destruct misread_number as (t & root & info & s' & Et & Eg & Ef & N).
  exists misread, t, root, info, s'. split; [exists 3, 1398103; repeat split; reflexivity|]. split; [reflexivity|].
  split; [exact Et|]. split; [exact Eg|]. split; [exact Ef|]. split; [exact N|].
  intros hash ifl fuel lf o a db out lines file ver Ha Hm H.
  pose proof (run_lines _ _ _ _ _ _ _ _ _ _ _ _ _ _ _ Eg Ef Ha Hm H) as L.
  destruct (p_C42_printed_factors_multiply info (out_solution out) lines L) as [A B]. split.
  - intros p q Hin. destruct (A _ _ _ Hin) as [E _]. rewrite N in E. unfold misread in E. lia.
  - intros Hin. destruct (B _ Hin) as [E _]. rewrite N in E. unfold misread in E. lia.
Qed.

(* C55: with -mult p q, the solver run on a generated file (whatever the number it was generated for) prints
   the product of p and q when they fit into the variables of the file (the larger the first, the smaller
   the second group), and refuses them otherwise; it never prints a wrong product, and says that they cannot
   be multiplied only when two formulas met in the search have the same hash *)
Lemma p_C55_multiplication : forall am mm n t hash insert_fails o a db p q,
  4 <= n -> array_sized mm n -> gen_main am mm n = Some t ->
  fresh_db o insert_fails db -> a_factorize a = false -> a_multiply a = Some (p, q) -> 1 < p -> 1 < q ->
  (Z.max p q < 2 ^ first_bits n /\ Z.min p q < 2 ^ second_bits n ->
   exists root rb l1 l2 s' out lines file ver,
     get_cnf_set (InDimacs t) = Ok root /\ multiply root p q = Some (rb, l1, l2, s') /\
     program_answers hash insert_fails o a (InDimacs t) db (Report out lines file ver) /\
     (out_sat out = true -> lines = [LProduct p q (p * q)]) /\
     (out_sat out = false -> lines = [LNoProduct p q]) /\
     (collision_free hash o s' -> out_sat out = true)) /\
  (~ (Z.max p q < 2 ^ first_bits n /\ Z.min p q < 2 ^ second_bits n) ->
   forall fuel lf, main_run hash insert_fails fuel lf o a (InDimacs t) db = Ok Refused).
Proof.
  intros am mm n t hash ifl o a db p q Hn Hr Ht FD Hf Hm Hp Hq.
  destruct (gen_root am mm n t Hn Hr Ht) as (cs' & v1 & ds & root & rest & GR & arr & Hg & RO & ER & Hz & B & U & NU & SUB).
  destruct (PGen4.size_facts n Hn) as (S1 & S2 & _).
  assert (L1 : 1 + first_bits n - 1 = first_bits n) by lia.
  assert (L2 : Z.abs (- (1 + first_bits n + second_bits n)) - (1 + first_bits n) = second_bits n) by lia.
  destruct (p_C43_multiplier root _ _ _ rest p q ER Hz Hp Hq) as [M0 _]. cbv zeta in M0. rewrite L1, L2 in M0. split.
  - intros Fit. destruct (multiply root p q) as [[[[rb l1] l2] s']|] eqn:Hmul; [|exfalso; apply M0; auto].
    destruct (multiply_generated am mm n t root p q rb l1 l2 s' Hn Hr Ht Hg Hp Hq Hmul) as [NE NI].
    pose proof (p_C43_multiplication_run hash ifl o a (InDimacs t) db root _ _ _ rest p q rb l1 l2 s' Hg RO ER Hz FD Hf Hm Hp Hq) as Q.
    cbv zeta in Q. rewrite L1, L2 in Q. destruct Q as (out & lines & file & ver & Q1 & Q2 & Q3 & Q4); auto.
    { intros asg Ha. apply NU in Ha. rewrite U. apply (asserted_product am mm n cs' v1 ds Hn GR arr asg Ha). }
    exists root, rb, l1, l2, s', out, lines, file, ver. repeat (split; [assumption|]). intros CF. apply (Q4 CF).
    destruct (product_reached am mm n cs' v1 ds Hn GR arr (Z.max p q) (Z.min p q)) as (f & F1 & F2 & F3); [lia|lia|].
    exists f. split; auto. apply NU; auto.
  - intros NF fuel lf. pose proof (p_C43_other_endings hash ifl fuel lf o a (InDimacs t) db root _ _ _ rest p q Hg RO ER Hz Hf Hm Hp Hq) as [Q _].
    cbv zeta in Q. rewrite L1, L2 in Q. auto.
Qed.

(* C56: the generator's circuits, simulated on numbers (its own test functions): adders add, the Wallace-tree
   adder adds any list of numbers, the subtracter subtracts and fails on a negative result, every
   combination of adder and multiplier multiplies positive numbers of any size *)
Lemma p_C56_simulation :
  (forall a x y, 0 <= x -> 0 <= y -> 0 < x + y -> test_adder a x y = Some (x + y)) /\
  (forall xs, (forall x, In x xs -> 0 <= x) -> test_w_adder xs = Some (fold_right Z.add 0 xs)) /\
  (forall x y, 0 <= y <= x -> test_sub x y = Some (x - y)) /\
  (forall x y, 0 <= x < y -> test_sub x y = None) /\
  (forall a m x y, 0 < x -> 0 < y -> test_multiplier a m x y = Some (x * y)).
Proof.
  split; [exact PGen4.test_adder_ok|]. split; [intros xs H; apply PGen4.test_w_adder_ok, Forall_forall; auto|].
  split; [exact PGen4.test_sub_ok|]. split; [exact PGen12.test_sub_negative|exact PGen4.test_multiplier_ok].
Qed.
(* C56, limits: 0 + 0 has no value with the fast adder (it has with the n-bit adder), nor has a product with a
   factor 0 with the carry-save multiplier *)
Lemma p_C56_zero_fails : test_adder Fast 0 0 = None /\ test_adder NBit 0 0 = Some 0 /\
  forall a x y, x = 0 \/ y = 0 -> test_multiplier a CarrySave x y = None.
Proof.
  split; [exact PGen4.fast_adder_zero|]. split; [reflexivity|exact PGen12.carry_save_zero].
Qed.

(*EX
(* the formula for 4, and the file that comes with the project for 5 (inputs/test_cases/Factoring5.txt, up to
   the final newline) *)
Example C52_four : option_map g_cnf (generate NBit Wallace 4) <> None /\ first_bits 4 = 2 /\ second_bits 4 = 2 /\
  composite 4 /\ first_bits 35 = 5 /\ second_bits 35 = 3 /\ composite 35.
Proof.
  split; [vm_compute; discriminate|]. split; [reflexivity|]. split; [reflexivity|]. split; [exists 2, 2; repeat split; lia|].
  split; [reflexivity|]. split; [reflexivity|]. exists 5, 7. repeat split; lia.
Qed.
Definition text_of (n : Z) : text := match gen_main NBit CarrySave n with Some t => t | None => [] end.
Example C53_example : gen_main NBit CarrySave 6 = Some (text_of 6) /\ 4 <= 6 /\ fresh_db default_opts no_fail [] /\
  exists out, program_answers (fun t => t) no_fail default_opts (mkMain false None false true) (InDimacs (text_of 6)) []
    (Report out [] None (Some true)) /\ out_sat out = true.
Proof.
  split; [vm_compute; reflexivity|]. split; [lia|]. split; [split; discriminate|].
  eexists. split.
  - exists 400%nat. intros fuel lf H1 H2. apply (PMain.main_report_mono _ _ _ _ _ _ 400 fuel 400 lf); [vm_compute; reflexivity|auto|auto].
  - reflexivity.
Qed.
Example C54_example : array_sized CarrySave 6 /\ array_sized Recursive 15 /\ array_sized Recursive 3000000 /\
  (exists out, program_answers (fun t => t) no_fail default_opts (mkMain true None false false) (InDimacs (text_of 6)) []
    (Report out [LFactors 6 3 2] None None)) /\
  (exists out, program_answers (fun t => t) no_fail default_opts (mkMain true None false false) (InDimacs (text_of 7)) []
    (Report out [LPrime 7] None None)).
Proof.
  split; [discriminate|]. split; [intros _; left; vm_compute; discriminate|]. split; [intros _; right; vm_compute; split; [reflexivity|discriminate]|]. split.
  - eexists. exists 400%nat. intros fuel lf H1 H2. apply (PMain.main_report_mono _ _ _ _ _ _ 400 fuel 400 lf); [vm_compute; reflexivity|auto|auto].
  - eexists. exists 400%nat. intros fuel lf H1 H2. apply (PMain.main_report_mono _ _ _ _ _ _ 400 fuel 400 lf); [vm_compute; reflexivity|auto|auto].
Qed.
Example C55_example : exists out, program_answers (fun t => t) no_fail default_opts (mkMain false (Some (2, 3)) false false)
  (InDimacs (text_of 6)) [] (Report out [LProduct 2 3 6] None None) /\
  Z.max 2 3 < 2 ^ first_bits 6 /\ Z.min 2 3 < 2 ^ second_bits 6 /\ ~ Z.max 5 2 < 2 ^ first_bits 6.
Proof.
  eexists. split; [|split; [reflexivity|split; [reflexivity|vm_compute; discriminate]]].
  exists 400%nat. intros fuel lf H1 H2. apply (PMain.main_report_mono _ _ _ _ _ _ 400 fuel 400 lf); [vm_compute; reflexivity|auto|auto].
Qed.
EX*)
