(* PTool4.v -- the tools *)
From Coq Require Import String Ascii ZArith List Bool Lia Arith Permutation Sorted.
From Verif Require Import Spec SpecInput SpecFile PyBase MSet MText MCnf MFam MFam2 MTrans MFile MTool SpecCnf SpecFam SpecTrans SpecTool PText PReader PLib PCnf1 PCnf2 PFam1 PFam2 PFam3 PFam4 PFam5 PFam6 PFam7 PFam8 PFam12 PFam13 PGen6 PP16 PTrans1 PTrans2 PTrans7 PFile1 PFile2 PTool1 PTool3.
Import ListNotations.
Open Scope Z_scope.

Definition the_permutation (s : shuffling) (names : list text) : list text := if sh_no_variables s then names else sh_variables s names.
Definition the_flips (s : shuffling) (names : list text) : list Z :=
  if sh_no_flips s then repeat 1 (List.length names) else map (sh_choice s) (seq 0 (List.length names)).
Lemma shuffled_numbers s n F0 : 0 <= n -> over n F0 -> fair_shuffling s ->
  exists F' sigma, shuffle_with s (mkCnf (decimals n) F0) = Ok (mkCnf (the_permutation s (decimals n)) F') /\ well (mkCnf (the_permutation s (decimals n)) F') /\
    Z.of_nat (List.length (the_permutation s (decimals n))) = n /\ renaming n sigma /\ Permutation F' (map (map sigma) F0) /\ (satisfiable F' <-> satisfiable F0) /\
    (sh_no_flips s = true -> forall l, 1 <= Z.abs l <= n -> (0 < sigma l <-> 0 < l)) /\
    (sh_no_variables s = true -> forall l, 1 <= Z.abs l <= n -> Z.abs (sigma l) = Z.abs l) /\
    (sh_no_clauses s = true -> F' = map (map sigma) F0).
Proof.
  intros N O FS. set (c := mkCnf (decimals n) F0). pose proof (input_well n F0 N O) as W. fold c in W. pose proof (decimals_length n N) as LD.
  assert (PV : Permutation (the_permutation s (decimals n)) (decimals n)) by (unfold the_permutation; destruct (sh_no_variables s); [reflexivity|apply (fs_variables s FS)]).
  assert (LP : List.length (the_flips s (decimals n)) = List.length (decimals n)) by (unfold the_flips; destruct (sh_no_flips s); [apply repeat_length|rewrite map_length, seq_length; reflexivity]).
  assert (PM : forall x, In x (the_flips s (decimals n)) -> x = 1 \/ x = -1).
  { unfold the_flips. intros x Hx. destruct (sh_no_flips s); [apply repeat_spec in Hx; auto|]. apply in_map_iff in Hx as (i & <- & _). apply (fs_choice s FS). }
  set (m := Z.of_nat (List.length F0)). set (cp := if sh_no_clauses s then range 0 m else sh_clauses s (range 0 m)).
  assert (PC : Permutation cp (range 0 m)) by (unfold cp; destruct (sh_no_clauses s); [reflexivity|apply (fs_clauses s FS)]).
  destruct (shuffle_numbers c (the_permutation s (decimals n)) cp (the_flips s (decimals n)) W PV LP PM PC) as (F' & E & W' & P & ID). cbn [c cn_names cn_clauses] in P, ID.
  set (sigma := moved (decimals n) (the_permutation s (decimals n)) (the_flips s (decimals n))) in *.
  assert (R : renaming n sigma). { pose proof (moved_renaming (decimals n) _ _ (decimals_NoDup n) PV LP PM) as R. replace n with (Z.of_nat (List.length (decimals n))) at 1 by tlia. exact R. }
  assert (MR : forall l, 1 <= Z.abs l <= n -> exists p x, nth_error (the_flips s (decimals n)) (Z.to_nat (Z.abs l - 1)) = Some x /\ (x = 1 \/ x = -1) /\ position (nth (Z.to_nat (Z.abs l - 1)) (decimals n) []) (the_permutation s (decimals n)) 1 = Some p /\ 1 <= p <= n /\ sigma l = Z.sgn l * (x * p)).
  { intros l B. destruct (moved_range (decimals n) _ _ l (decimals_NoDup n) PV LP PM) as (p & x & A1 & A2 & A3 & A4 & _ & A5); [tlia|]. exists p, x. split; [auto|]. split; [auto|]. split; [auto|]. split; [tlia|auto]. }
  exists F', sigma. split; [exact E|]. split; [exact W'|]. split; [rewrite (Permutation_length PV); auto|]. split; [exact R|]. split; [exact P|]. split; [apply (renamed_satisfiable n sigma); auto|]. split; [|split].
  - intros NF l B. destruct (MR l B) as (p & x & A1 & A2 & A3 & A4 & A5). assert (x = 1). { unfold the_flips in A1. rewrite NF in A1. apply nth_error_In in A1. apply repeat_spec in A1. auto. } subst x. assert (SG : Z.sgn l = 1 \/ Z.sgn l = -1) by lia. destruct SG as [S1|S1]; rewrite S1 in A5; lia.
  - intros NV l B. destruct (MR l B) as (p & x & A1 & A2 & A3 & A4 & A5). unfold the_permutation in A3. rewrite NV in A3. rewrite position_nth in A3; [|apply decimals_NoDup|tlia]. assert (Q : p = 1 + Z.of_nat (Z.to_nat (Z.abs l - 1))) by congruence.
    rewrite A5. assert (SG : Z.sgn l = 1 \/ Z.sgn l = -1) by lia. destruct SG as [S1|S1], A2 as [-> | ->]; rewrite S1; lia.
  - intros NC. apply ID. unfold cp. rewrite NC. reflexivity.
Qed.
(* headers *)
Lemma header_lines_of h ls : h = ended ls -> Forall one_line ls -> read_header true h None = ended (map rstrip ls).
Proof.
  intros -> O. unfold read_header, header_lines. rewrite <- (app_nil_r (ended ls)). rewrite split_ended by auto. cbn [split_on]. rewrite removelast_last, app_nil_r. reflexivity.
Qed.
Ltac plain_line := repeat (apply one_line_app; [apply one_line_txt; reflexivity|]); repeat (apply one_line_app; [first [apply one_line_str|apply one_line_txt; reflexivity]|]); first [apply one_line_str | apply one_line_txt; reflexivity].
Lemma titled t h : exists ls, Forall one_line ls /\ transform_header t h = ended ls ++ h /\ (t = T_none -> ls = []).
Proof.
  assert (K : forall x, one_line x -> transform_header t h = x ++ [newline; newline] ++ h -> t <> T_none -> exists ls, Forall one_line ls /\ transform_header t h = ended ls ++ h /\ (t = T_none -> ls = [])).
  { intros x O E NE. exists [x; []]. split; [constructor; [exact O|constructor; [intros []|constructor]]|]. split; [|contradiction].
    rewrite E. unfold ended. cbn [map concat app]. rewrite <- !app_assoc. reflexivity. }
  destruct t as [|k|k|k|k|k| |k|k| |b|b|s].
  - exists []. split; [constructor|]. split; reflexivity.
  - apply (K (txt "OR " ++ str_Z k ++ txt " substituted formula")); [plain_line|cbn [transform_header]; rewrite <- !app_assoc; reflexivity|discriminate].
  - apply (K (txt "XOR " ++ str_Z k ++ txt " substituted formula")); [plain_line|cbn [transform_header]; rewrite <- !app_assoc; reflexivity|discriminate].
  - apply (K (txt "EQ " ++ str_Z k ++ txt " substituted formula")); [plain_line|cbn [transform_header]; rewrite <- !app_assoc; reflexivity|discriminate].
  - apply (K (txt "NEQ " ++ str_Z k ++ txt " substituted formula")); [plain_line|cbn [transform_header]; rewrite <- !app_assoc; reflexivity|discriminate].
  - apply (K (txt "Majority " ++ str_Z k ++ txt " substituted formula")); [plain_line|cbn [transform_header]; rewrite <- !app_assoc; reflexivity|discriminate].
  - apply (K (txt "If-Then-Else substituted formula")); [plain_line|reflexivity|discriminate].
  - apply (K (txt "Formula transformed by ""exactly one"" substitution over " ++ str_Z k ++ txt " values")); [plain_line|cbn [transform_header]; rewrite <- !app_assoc; reflexivity|discriminate].
  - apply (K (txt "Formula with lifting with selectors over " ++ str_Z k ++ txt " values")); [plain_line|cbn [transform_header]; rewrite <- !app_assoc; reflexivity|discriminate].
  - apply (K (txt "Polarity variables has been flipped")); [plain_line|reflexivity|discriminate].
  - apply (K (txt "Variable xor-compression from " ++ str_Z (Z.of_nat (List.length (b_right b))) ++ txt " to " ++ str_Z (Z.of_nat (List.length (b_left b))) ++ txt " variables")); [plain_line|cbn [transform_header]; rewrite <- !app_assoc; reflexivity|discriminate].
  - apply (K (txt "Variable maj-compression from " ++ str_Z (Z.of_nat (List.length (b_right b))) ++ txt " to " ++ str_Z (Z.of_nat (List.length (b_left b))) ++ txt " variables")); [plain_line|cbn [transform_header]; rewrite <- !app_assoc; reflexivity|discriminate].
  - apply (K (txt "Reshuffling of:")); [plain_line|reflexivity|discriminate].
Qed.
Lemma comments_ok t verbose h : comments_kept t verbose h (read_header verbose (transform_header t h) None).
Proof.
  split; [intros ->; reflexivity|]. intros -> ls O ->. destruct (titled t (ended ls)) as (ts & OT & E & NT). exists (map rstrip ts). split; [intros K; rewrite (NT K); reflexivity|].
  rewrite E, <- ended_app. rewrite <- map_app. apply header_lines_of; auto. apply Forall_app. split; auto.
Qed.
(* an input that is read and coherent *)
Lemma read_input input h n F : dimacs2compressed_clauses input = Ok (h, n, F) -> over n F ->
  dimacs2cnf input = Ok (h, mkCnf (decimals (Z.max 0 n)) F, true) /\ over (Z.max 0 n) F.
Proof.
  intros E O. assert (O' : over (Z.max 0 n) F) by (intros cl l Hc Hl; specialize (O cl l Hc Hl); lia). split; auto. rewrite (dimacs2cnf_ok _ _ _ _ E), <- (decimals_max n).
  assert (C : coherent (Z.of_nat (List.length (decimals (Z.max 0 n)))) F = true) by (rewrite decimals_length by lia; apply coherent_spec; exact O'). rewrite C. reflexivity.
Qed.
Lemma read_incoherent input h n F : dimacs2compressed_clauses input = Ok (h, n, F) -> ~ over n F -> exists c, dimacs2cnf input = Ok (h, c, false).
Proof.
  intros E O. rewrite (dimacs2cnf_ok _ _ _ _ E). destruct (coherent _ F) eqn:C; [|eauto]. exfalso. apply O. pose proof (proj1 (coherent_spec _ _) C) as C'. clear C. rename C' into C. rewrite <- (decimals_max n), decimals_length in C by lia.
  intros cl l Hc Hl. specialize (C cl l Hc Hl). lia.
Qed.
Lemma read_error input e : dimacs2compressed_clauses input = Err e -> dimacs2cnf input = Err e.
Proof. intros E. unfold dimacs2cnf. rewrite E. reflexivity. Qed.
