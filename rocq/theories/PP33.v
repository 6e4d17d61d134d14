(* PP33.v -- C94: the generator's command line and the script that calls it *)
From Coq Require Import String Ascii ZArith List Bool Lia.
From Verif Require Import Spec SpecInput PyBase MText MSet MSolver MMain MCnf MGen MSabry SpecRun SpecGen SpecSabry PLib PText PFam1 PFam4 PP12 PSabry.
Import ListNotations.
Open Scope Z_scope.

(* C94: called with a number greater than 1 and known names, sabry_cnf_gen prints the file of C53 and ends without error; with
   any other names it ends without error only for 2 and 3, where the array and the tree need no adder; with another
   number of arguments it prints nothing and ends with an error *)
Lemma p_C94_call : forall other kept,
  (forall n a m, 1 < n -> exists t, gen_main a m n = Some t /\
     sabry other kept [str_Z n; adder_name a; multiplier_name m] = (t, true)) /\
  (forall n ad mu, snd (sabry other kept [str_Z n; ad; mu]) = true <->
     1 < n /\ exists m, mu = multiplier_name m /\ ((exists a, ad = adder_name a) \/ (n <= 3 /\ m <> CarrySave))) /\
  (forall args, List.length args <> 3%nat -> sabry other kept args = ([], false)).
Proof.
  intros other kept. split; [|split].
  - intros n a m H. destruct (gen_main a m n) as [t|] eqn:G.
    + exists t. split; [reflexivity|exact (sabry_valid _ _ _ _ _ _ G)].
    + apply (proj1 (p_C53_generated_file a m n)) in G. lia.
  - intros n ad mu. apply succeeds.
  - intros [|x [|y [|z [|u l]]]] H; try reflexivity. exfalso. apply H. reflexivity.
Qed.

(* C94: what a call that fails has printed are comments, which the program reads as a formula without clauses: no verdict *)
Lemma p_C94_failed_call : forall other kept args t,
  sabry other kept args = (t, false) -> (forall w, In w args -> ~ In newline w) ->
  only_comments t /\ get_cnf_set (InDimacs t) = Ok empty_set /\
  forall hash insert_fails fuel lf o a db, a_multiply a = None ->
    main_run hash insert_fails fuel lf o a (InDimacs t) db = Ok NoAnswer.
Proof.
  intros other kept args t H N. pose proof (failed_comments _ _ _ _ H N) as C. pose proof (comments_read t C) as R.
  split; [exact C|]. split; [exact R|]. intros hash ifl fuel lf o a db M. unfold main_run, main_with. rewrite R. cbn [bind]. unfold preprocess_with. rewrite M.
  destruct (a_factorize a); reflexivity.
Qed.

(* C94: called with two numbers the script writes one file for each number from the first to the second, in this order, and
   nothing else: for a number greater than 1 the generated file (n-bit adder, Wallace tree), otherwise comments only *)
Lemma p_C94_range : forall hs shell kept a b, shell_sized a -> shell_sized b -> b < 2 ^ 63 - 1 ->
  exists N ws, (forall rounds, (N <= rounds)%nat -> multiple_set_gen hs shell kept rounds [str_Z a; str_Z b] = Some ws) /\
    map fst ws = map (fun i => benchmark_file (str_Z i)) (range a (b + 1)) /\
    (forall i, a <= i <= b -> 1 < i -> exists t, gen_main NBit Wallace i = Some t /\ content ws (benchmark_file (str_Z i)) = Some t) /\
    (forall i, a <= i <= b -> i <= 1 -> exists t, content ws (benchmark_file (str_Z i)) = Some t /\ only_comments t) /\
    (forall name, (forall i, a <= i <= b -> name <> benchmark_file (str_Z i)) -> content ws name = None).
Proof.
  intros hs shell kept a b A B H.
  set (f := fun i => fst (sabry hs kept [i; txt "n-bit"; txt "wallace"])).
  exists (Z.to_nat (b + 1 - a)), (map (fun i => (benchmark_file i, f i)) (map str_Z (range a (b + 1)))).
  split; [|split; [|split; [|split]]].
  - intros rounds R. unfold multiple_set_gen. rewrite !str_not_empty. cbn [orb]. rewrite !shell_number_str by assumption.
    rewrite (loop_ends b H rounds a R (proj1 A)). cbn [option_map]. rewrite map_map. reflexivity.
  - rewrite !map_map. reflexivity.
  - intros i I J. destruct (p_C94_call hs kept) as (P & _). destruct (P i NBit Wallace J) as (t & G & E). exists t. split; [exact G|].
    rewrite content_map. rewrite (proj2 (existsb_In (str_Z i) (map str_Z (range a (b + 1))))).
    + unfold f. change (txt "n-bit") with (adder_name NBit). change (txt "wallace") with (multiplier_name Wallace). rewrite E. reflexivity.
    + apply in_map, range_In. lia.
  - intros i I J. exists (f (str_Z i)). split.
    + rewrite content_map. rewrite (proj2 (existsb_In (str_Z i) (map str_Z (range a (b + 1))))); [reflexivity|]. apply in_map, range_In. lia.
    + destruct (sabry hs kept [str_Z i; txt "n-bit"; txt "wallace"]) as [t s] eqn:E. unfold f. rewrite E. cbn [fst].
      assert (s = false) as ->.
      { destruct s; [|reflexivity]. destruct (p_C94_call hs kept) as (_ & P & _). apply (f_equal snd) in E. apply P in E. lia. }
      apply (failed_comments _ _ _ _ E). intros w [<-|[<-|[<-|[]]]]; [exact (PLatex.str_line i)| |]; cbn; intuition discriminate.
  - intros name N. apply content_other. intros w W. apply in_map_iff in W as (i & <- & I). apply range_In in I. apply N. lia.
Qed.

(* C94: up to the largest number of the shell the loop never ends; when the first number is larger than the second, or one of the
   first two words is missing or empty, nothing is written *)
Lemma p_C94_edges : forall hs shell kept rounds,
  (forall a, shell_sized a -> multiple_set_gen hs shell kept rounds [str_Z a; str_Z (2 ^ 63 - 1)] = None) /\
  (forall a b, shell_sized a -> shell_sized b -> b < a -> multiple_set_gen hs shell kept rounds [str_Z a; str_Z b] = Some []) /\
  multiple_set_gen hs shell kept rounds [] = Some [] /\
  (forall w, multiple_set_gen hs shell kept rounds [w] = Some []) /\
  (forall w more, multiple_set_gen hs shell kept rounds ([] :: w :: more) = Some [] /\ multiple_set_gen hs shell kept rounds (w :: [] :: more) = Some []).
Proof.
  intros hs shell kept rounds. split; [|split; [|split; [|split]]]; try reflexivity.
  - intros a A. unfold multiple_set_gen. rewrite !str_not_empty. cbn [orb]. rewrite !shell_number_str; [|unfold shell_sized; lia|exact A].
    rewrite loop_endless; [reflexivity|]. destruct A. lia.
  - intros a b A B H. unfold multiple_set_gen. rewrite !str_not_empty. cbn [orb]. rewrite !shell_number_str by assumption.
    destruct rounds; cbn [loop_numbers]; destruct (Z.leb_spec a b); try lia; reflexivity.
  - intros w more. split; [reflexivity|]. unfold multiple_set_gen. destruct (text_eqb w []); reflexivity.
Qed.

(* C94: called with three or more numbers it writes one file for each of them *)
Lemma p_C94_list : forall hs shell kept rounds numbers, (3 <= List.length numbers)%nat ->
  exists ws, multiple_set_gen hs shell kept rounds (map str_Z numbers) = Some ws /\
    map fst ws = map (fun i => benchmark_file (str_Z i)) numbers /\
    (forall i, In i numbers -> 1 < i -> exists t, gen_main NBit Wallace i = Some t /\ content ws (benchmark_file (str_Z i)) = Some t) /\
    (forall i, In i numbers -> i <= 1 -> exists t, content ws (benchmark_file (str_Z i)) = Some t /\ only_comments t) /\
    (forall name, (forall i, In i numbers -> name <> benchmark_file (str_Z i)) -> content ws name = None).
Proof.
  intros hs shell kept rounds numbers L.
  set (f := fun i => fst (sabry hs kept [i; txt "n-bit"; txt "wallace"])).
  exists (map (fun i => (benchmark_file i, f i)) (map str_Z numbers)).
  split; [|split; [|split; [|split]]].
  - destruct numbers as [|x [|y [|z l]]]; cbn [List.length] in L; try lia. cbn [map multiple_set_gen]. rewrite !str_not_empty. cbn [orb].
    assert (F : forall l, filter (fun w => negb (text_eqb w [])) (map str_Z l) = map str_Z l).
    { clear. induction l as [|x l IH]; [reflexivity|]. cbn [map filter]. rewrite str_not_empty. cbn [negb]. rewrite IH. reflexivity. }
    change (str_Z x :: str_Z y :: str_Z z :: map str_Z l) with (map str_Z (x :: y :: z :: l)). rewrite F. reflexivity.
  - rewrite !map_map. reflexivity.
  - intros i I J. destruct (p_C94_call hs kept) as (P & _). destruct (P i NBit Wallace J) as (t & G & E). exists t. split; [exact G|].
    rewrite content_map. rewrite (proj2 (existsb_In (str_Z i) (map str_Z numbers))) by (apply in_map; exact I).
    unfold f. change (txt "n-bit") with (adder_name NBit). change (txt "wallace") with (multiplier_name Wallace). rewrite E. reflexivity.
  - intros i I J. exists (f (str_Z i)). split.
    + rewrite content_map. rewrite (proj2 (existsb_In (str_Z i) (map str_Z numbers))) by (apply in_map; exact I). reflexivity.
    + destruct (sabry hs kept [str_Z i; txt "n-bit"; txt "wallace"]) as [t s] eqn:E. unfold f. rewrite E. cbn [fst].
      assert (s = false) as ->.
      { destruct s; [|reflexivity]. destruct (p_C94_call hs kept) as (_ & P & _). apply (f_equal snd) in E. apply P in E. lia. }
      apply (failed_comments _ _ _ _ E). intros w [<-|[<-|[<-|[]]]]; [exact (PLatex.str_line i)| |]; cbn; intuition discriminate.
  - intros name N. apply content_other. intros w W. apply in_map_iff in W as (i & <- & I). apply N. exact I.
Qed.

(* C94: so after the script has written the files for a range, the program run on the file of a number of the range decides
   whether the number is composite *)
Lemma p_C94_decides : forall hs shell kept a b i, shell_sized a -> shell_sized b -> b < 2 ^ 63 - 1 -> a <= i <= b -> 4 <= i ->
  exists N ws t, (forall rounds, (N <= rounds)%nat -> multiple_set_gen hs shell kept rounds [str_Z a; str_Z b] = Some ws) /\
    content ws (benchmark_file (str_Z i)) = Some t /\
    forall hash insert_fails o opts db, fresh_db o insert_fails db -> a_factorize opts = false -> a_multiply opts = None ->
      exists root out file ver, get_cnf_set (InDimacs t) = Ok root /\
        program_answers hash insert_fails o opts (InDimacs t) db (Report out [] file ver) /\
        (out_sat out = true -> composite i) /\
        (collision_free hash o root -> (out_sat out = true <-> composite i)).
Proof.
  intros hs shell kept a b i A B H I J. destruct (p_C94_range hs shell kept a b A B H) as (N & ws & R & _ & G & _).
  destruct (G i I ltac:(lia)) as (t & T & C). exists N, ws, t. split; [exact R|]. split; [exact C|].
  intros hash ifl o opts db FD F M. destruct (p_C53_verdict NBit Wallace i t hash ifl o opts db J T FD F M) as (root & out & file & ver & E1 & E2 & E3 & E4).
  exists root, out, file, ver. split; [exact E1|]. split; [exact E2|]. split; [intros S'; apply E3; exact S'|exact E4].
Qed.

(* C94: and with -fact it prints two proper factors of the number, or that it is prime *)
Lemma p_C94_factors : forall hs shell kept a b i, shell_sized a -> shell_sized b -> b < 2 ^ 63 - 1 -> a <= i <= b -> 4 <= i ->
  exists N ws t, (forall rounds, (N <= rounds)%nat -> multiple_set_gen hs shell kept rounds [str_Z a; str_Z b] = Some ws) /\
    content ws (benchmark_file (str_Z i)) = Some t /\
    forall hash insert_fails o opts db, fresh_db o insert_fails db -> a_factorize opts = true -> a_multiply opts = None ->
      exists out lines file ver,
        program_answers hash insert_fails o opts (InDimacs t) db (Report out lines file ver) /\
        ((exists p q, lines = [LFactors i p q] /\ 1 < p /\ 1 < q /\ i = p * q) \/ lines = [LPrime i]) /\
        (forall root info s, get_cnf_set (InDimacs t) = Ok root -> factorize root = Some (info, s) -> collision_free hash o s ->
           (lines = [LPrime i] <-> Znumtheory.prime i)).
Proof.
  intros hs shell kept a b i A B H I J. destruct (p_C94_range hs shell kept a b A B H) as (N & ws & R & _ & G & _).
  destruct (G i I ltac:(lia)) as (t & T & C). exists N, ws, t. split; [exact R|]. split; [exact C|].
  intros hash ifl o opts db FD F M.
  destruct (p_C54_factoring NBit Wallace i t hash ifl o opts db J ltac:(discriminate) T FD F M) as (root & info & s & out & lines & file & ver & E1 & E2 & E3 & E4 & E5 & E6).
  exists out, lines, file, ver. split; [exact E3|]. split.
  - destruct (out_sat out); [left; apply E4; reflexivity|right; apply E5; reflexivity].
  - intros root' info' s' E1' E2' CF. rewrite E1 in E1'. injection E1' as <-. rewrite E2 in E2'. injection E2' as <- <-. specialize (E6 CF).
    destruct (out_sat out).
    + destruct (E4 eq_refl) as (p & q & -> & _). split; [discriminate|]. intros P. exfalso. exact (proj1 E6 eq_refl P).
    + split; [intros _|intros _; exact (E5 eq_refl)]. destruct (Znumtheory.prime_dec i) as [P|P]; [exact P|]. exfalso. pose proof (proj2 E6 P). discriminate.
Qed.

(*EX
(* the range 2..5, the list 2 4 6, an unknown adder, a number that is none *)
Definition no_number (_ : text) : option Z := None.
Example C94_range_holds : shell_sized 2 /\ shell_sized 5 /\ 5 < 2 ^ 63 - 1 /\
  option_map (map fst) (multiple_set_gen no_number no_number true 10 [txt "2"; txt "5"]) =
    Some (map (fun i => benchmark_file (txt i)) ["2"; "3"; "4"; "5"]%string) /\
  option_map (map fst) (multiple_set_gen no_number no_number true 10 [txt "2"; txt "4"; txt "6"]) =
    Some (map (fun i => benchmark_file (txt i)) ["2"; "4"; "6"]%string) /\
  str_Z 2 = txt "2" /\ str_Z 5 = txt "5".
Proof. split; [split; vm_compute; [discriminate|reflexivity]|]. split; [split; vm_compute; [discriminate|reflexivity]|]. split; [reflexivity|]. repeat split; vm_compute; reflexivity. Qed.
Example C94_names_example :
  snd (sabry no_number true [txt "2"; txt "slow"; txt "wallace"]) = true /\
  snd (sabry no_number true [txt "4"; txt "slow"; txt "wallace"]) = false /\
  snd (sabry no_number true [txt "2"; txt "slow"; txt "carry-save"]) = false /\
  snd (sabry no_number true [txt "4"; txt "fast"; txt "recursive"]) = true.
Proof. repeat split; vm_compute; reflexivity. Qed.
Example C94_failed_example : sabry no_number true [txt "one"; txt "n-bit"; txt "wallace"] =
  (join [newline] [txt "c Problem generated from wallace[n-bit] multiplication circuit"; txt "c by Paul Purdom and Amr Sabry"; txt "c"; txt "c Circuit for product = "], false).
Proof. vm_compute. reflexivity. Qed.
EX*)
