(* PSabry.v -- proofs about MSabry.v. *)
From Coq Require Import String Ascii ZArith List Bool Lia.
From Verif Require Import Spec SpecInput PyBase MText MSet MCnf MGen MSabry SpecGen SpecRun SpecSabry PLib PText PReader PGen4 PP12 PCnf3 PFile2 PLatex PFam1 PFam4.
Import ListNotations.
Open Scope Z_scope.

(* ---- numbers ---- *)
Lemma digit_val_is c : is_digit c = true -> exists d, digit_val c = Some d.
Proof. unfold is_digit, digit_val. intros H. destruct ((48 <=? code c)%N && (code c <=? 57)%N) eqn:E; [eexists; reflexivity|]. congruence. Qed.
Lemma digits_only_N n : digits_only (digits_N n) = true.
Proof.
  unfold digits_only. destruct (digits_N n) as [|c t] eqn:E; [exfalso; exact (digits_N_ne n E)|].
  apply forallb_forall. intros x H. rewrite <- E in H. pose proof (digits_N_digits n) as F. rewrite Forall_forall in F.
  destruct (digit_val_is x (F x H)) as (d & ->). reflexivity.
Qed.
Lemma hs_read_str other z : hs_read other (str_Z z) = Some z.
Proof.
  unfold hs_read. replace (digits_only (str_Z z) || _) with true; [apply py_int_str|]. symmetry. unfold str_Z. destruct (z <? 0).
  - rewrite Ascii.eqb_refl, digits_only_N. apply orb_true_r.
  - rewrite digits_only_N. reflexivity.
Qed.
Lemma shell_number_str other z : shell_sized z -> shell_number other (str_Z z) = Some z.
Proof.
  intros (A & B). unfold shell_number. rewrite py_int_str. replace (text_eqb (str_Z z) (str_Z z)) with true by (symmetry; apply text_eqb_eq; reflexivity).
  rewrite (proj2 (Z.leb_le _ _) A), (proj2 (Z.ltb_lt _ _) B). reflexivity.
Qed.

(* ---- names ---- *)
Lemma named a m xs ys : multiplier_named (multiplier_name m) (adder_name a) xs ys = multiplier_of sym_circuit a m xs ys.
Proof. destruct a, m; reflexivity. Qed.
Lemma sym_multiplier_ext f g bs v : (forall xs ys w, f xs ys w = g xs ys w) -> sym_multiplier f bs v = sym_multiplier g bs v.
Proof.
  intros H. unfold sym_multiplier, sym_bind. 
  match goal with |- context [mapM sym_circuit ?f ?l] => destruct (mapM sym_circuit f l v) as [xs w ds|e] end; auto.
  match goal with |- context [mapM sym_circuit ?f ?l] => destruct (mapM sym_circuit f l w) as [ys w' ds'|e] end; auto. rewrite H. reflexivity.
Qed.

(* ---- a circuit that fails ---- *)
Definition fails {A} (m : sym A) : Prop := forall v, exists e, m v = Fails e.
Lemma fails_bind_l {A B} (m : sym A) (f : A -> sym B) : fails m -> fails (sym_bind m f).
Proof. intros H v. unfold sym_bind. destruct (H v) as (e & ->). exists e. reflexivity. Qed.
Lemma fails_bind {A B} (m : sym A) (f : A -> sym B) : (forall a, fails (f a)) -> fails (sym_bind m f).
Proof. intros H v. unfold sym_bind. destruct (m v) as [a w ds|e]; [|exists e; reflexivity]. destruct (H a w) as (e & ->). exists e. reflexivity. Qed.
Lemma mapM_length {A B} (f : A -> sym B) l : forall v ys w ds, mapM sym_circuit f l v = Done ys w ds -> List.length ys = List.length l.
Proof.
  induction l as [|x l IH]; intros v ys w ds H; cbn [mapM ret sym_circuit] in H.
  - unfold sym_ret in H. injection H as <- _ _. reflexivity.
  - change (sym_bind (f x) (fun b => sym_bind (mapM sym_circuit f l) (fun bs => sym_ret (b :: bs))) v = Done ys w ds) in H.
    unfold sym_bind in H. destruct (f x v) as [b w1 d1|]; [|discriminate]. destruct (mapM sym_circuit f l w1) as [bs w2 d2|] eqn:E; [|discriminate].
    unfold sym_ret in H. injection H as <- _ _. cbn [List.length]. f_equal. exact (IH _ _ _ _ E).
Qed.
Section NoAdder.
  Variable adder : list bit -> list bit -> sym (list bit).
  Hypothesis none : forall xs ys, fails (adder xs ys).
  Lemma no_rounds : forall rounds xss, (2 <= List.length xss)%nat -> fails (w_adder_rounds sym_circuit rounds adder xss).
  Proof.
    induction rounds as [|r IH]; intros [|x [|y [|z t]]] L; cbn [List.length] in L; try lia; cbn [w_adder_rounds].
    - apply none.
    - intros v. eexists. reflexivity.
    - apply none.
    - cbn [listby3]. destruct (listby3 t) as [g rest]. intros v.
      cbn [bindM sym_circuit]. unfold sym_bind.
      destruct (mapM sym_circuit (w3_unit sym_circuit) ((x, y, z) :: g) v) as [ng w ds|e] eqn:E; [|exists e; reflexivity].
      pose proof (mapM_length _ _ _ _ _ _ E) as Ln. destruct (split ng) as [cs ss] eqn:Sp.
      assert (List.length cs = List.length ng /\ List.length ss = List.length ng) as (Lc & Ls).
      { pose proof (split_length_l ng) as A. pose proof (split_length_r ng) as B. rewrite Sp in A, B. auto. }
      destruct (IH (map (cons low) cs ++ ss ++ rest)) with (v := w) as (e & ->); [|exists e; reflexivity].
      rewrite !app_length, map_length. cbn [List.length] in Ln. lia.
  Qed.
  Lemma shift_rows_length rows : forall n, List.length (shift_rows n rows) = List.length rows.
  Proof. induction rows as [|r rows IH]; intros n; cbn [shift_rows List.length]; auto. Qed.
  Lemma no_wallace xs ys : (2 <= List.length ys)%nat -> fails (wallace_multiplier sym_circuit adder xs ys).
  Proof.
    intros L v. unfold wallace_multiplier. cbn [bindM sym_circuit]. unfold sym_bind.
    match goal with |- context [mapM sym_circuit ?f ?l v] => destruct (mapM sym_circuit f l v) as [rows w ds|e] eqn:E end; [|exists e; reflexivity].
    apply mapM_length in E. unfold w_adder.
    destruct (no_rounds (List.length (shift_rows 0 rows)) (shift_rows 0 rows)) with (v := w) as (e & ->); [|exists e; reflexivity].
    rewrite shift_rows_length. lia.
  Qed.
  Lemma no_carry_save xs ys : fails (carry_save_multiplier sym_circuit adder xs ys).
  Proof.
    unfold carry_save_multiplier. destruct ys as [|y yt]; [intros v; eexists; reflexivity|].
    cbn [bindM sym_circuit]. apply fails_bind. intros fr. apply fails_bind. intros (cs & lr). destruct (split lr) as [lc ls].
    destruct ls as [|s0 st]; [intros v; eexists; reflexivity|]. apply fails_bind_l, none.
  Qed.
  Lemma no_recursive depth xs ys : (2 <= List.length ys)%nat -> fails (recursive_multiplier sym_circuit depth bound adder xs ys).
  Proof.
    intros L. destruct depth as [|d]; cbn [recursive_multiplier]; cbn [bindM sym_circuit];
      (destruct (max (List.length xs) (List.length ys) <=? bound)%nat; [apply no_wallace; exact L|]).
    - intros v. eexists. reflexivity.
    - match goal with |- context [if ?b then _ else _] => destruct b end.
      + repeat (apply fails_bind; intros). apply none.
      + apply fails_bind; intros. apply fails_bind; intros. apply fails_bind_l, none.
  Qed.
End NoAdder.

Lemma unknown_adder ad : (forall a, ad <> adder_name a) -> forall xs ys, fails (adder_named ad xs ys).
Proof.
  intros N xs ys. unfold adder_named.
  destruct (text_eqb_spec ad (txt "n-bit")) as [E|_]; [exfalso; exact (N NBit E)|].
  destruct (text_eqb_spec ad (txt "fast")) as [E|_]; [exfalso; exact (N Fast E)|]. intros v. eexists. reflexivity.
Qed.
Lemma unknown_multiplier mu ad xs ys : (forall m, mu <> multiplier_name m) -> fails (multiplier_named mu ad xs ys).
Proof.
  intros N. unfold multiplier_named.
  destruct (text_eqb_spec mu (txt "carry-save")) as [E|_]; [exfalso; exact (N CarrySave E)|].
  destruct (text_eqb_spec mu (txt "wallace")) as [E|_]; [exfalso; exact (N Wallace E)|].
  destruct (text_eqb_spec mu (txt "recursive")) as [E|_]; [exfalso; exact (N Recursive E)|]. intros v. eexists. reflexivity.
Qed.
Lemma sym_multiplier_fails f bs v :
  (forall xs ys, List.length ys = Nat.div2 (List.length bs + 1) -> fails (f xs ys)) -> exists e, sym_multiplier f bs v = Fails e.
Proof.
  intros H. unfold sym_multiplier, sym_bind.
  match goal with |- context [mapM sym_circuit ?f ?l v] => destruct (mapM sym_circuit f l v) as [xs w ds|e] end; [|exists e; reflexivity].
  match goal with |- context [mapM sym_circuit ?f ?l w] => destruct (mapM sym_circuit f l w) as [ys w' ds'|e] eqn:E end; [|exists e; reflexivity].
  apply mapM_length in E. rewrite seq_length in E. destruct (H xs ys E w') as (e & ->). exists e. reflexivity.
Qed.

(* ---- the text ---- *)
Lemma join_lines ls : join [newline] (ls ++ [[]]) = concat (map ln ls).
Proof.
  induction ls as [|l ls IH]; [reflexivity|]. cbn [app map concat]. rewrite <- IH. unfold ln.
  destruct (ls ++ [[]]) as [|x t] eqn:E; [destruct ls; discriminate E|]. cbn [join]. rewrite <- app_assoc. reflexivity.
Qed.
Lemma ln_join ls : ls <> [] -> ln (join [newline] ls) = concat (map ln ls).
Proof.
  induction ls as [|l ls IH]; [congruence|]. intros _. destruct ls as [|x t]; [cbn [map concat join]; rewrite app_nil_r; reflexivity|].
  cbn [map concat] in *. rewrite <- IH by discriminate. cbn [join]. unfold ln. rewrite <- !app_assoc. reflexivity.
Qed.
Lemma cnf_nonempty a m n g : 1 < n -> generate a m n = Some g -> g_cnf g <> [].
Proof.
  intros H G E. destruct (Z_lt_le_dec n 4) as [L|L].
  - assert (n = 2 \/ n = 3) as [-> | ->] by lia; destruct a, m; vm_compute in G; injection G as <-; discriminate E.
  - destruct (p_C52_factoring_formula a m n L) as (g' & F & G' & GF & _ & _ & _ & _ & M & _). rewrite G in G'. injection G' as <-. rewrite E in GF.
    destruct F; [|discriminate]. specialize (M (fun _ => false) ltac:(intros c [])).
    assert (Z : forall vs, value_of (fun _ => false) vs = 0).
    { induction vs as [|v vs IHv]; [reflexivity|]. unfold value_of in *. cbn [map bits_value]. rewrite IHv. reflexivity. }
    cbv zeta in M. rewrite !Z in M. lia.
Qed.
Lemma Some_inj {A} (a b : A) : Some a = Some b -> a = b.
Proof. congruence. Qed.
Lemma sabry_valid other kept a m n t : gen_main a m n = Some t ->
  sabry other kept [str_Z n; adder_name a; multiplier_name m] = (t, true).
Proof.
  unfold gen_main, sabry. rewrite hs_read_str. cbv zeta. destruct (Z.leb_spec n 1) as [|H]; [discriminate|].
  destruct (generate a m n) as [g|] eqn:G; [|discriminate]. intros T. pose proof (cnf_nonempty _ _ _ _ H G) as NE.
  unfold generate in G. rewrite (sym_multiplier_ext _ (multiplier_of sym_circuit a m)) by (intros; rewrite named; reflexivity).
  destruct (sym_multiplier _ _ _) as [((xs & ys) & cs) next ds|]; [|discriminate]. injection G as <-. cbn [g_cnf] in NE.
  apply Some_inj in T. subst t. f_equal.
  change (txt "
") with [newline]. rewrite join_lines. unfold gen_lines. rewrite map_app, concat_app.
  cbn [g_output g_first g_second g_last g_cnf]. rewrite ln_join by (destruct (clauses_of ds); [congruence|discriminate]).
  rewrite <- (app_nil_r (concat (map ln (map show_clause (clauses_of ds))))) at 1. cbn [map concat]. unfold ln. rewrite ?app_nil_r. rewrite <- !app_assoc. reflexivity.
Qed.

(* ---- which calls succeed ---- *)
Lemma adder_known ad : (exists a, ad = adder_name a) \/ (forall a, ad <> adder_name a).
Proof.
  destruct (text_eqb_spec ad (adder_name NBit)) as [->|A]; [left; eexists; reflexivity|].
  destruct (text_eqb_spec ad (adder_name Fast)) as [->|B]; [left; eexists; reflexivity|]. right. intros []; auto.
Qed.
Lemma multiplier_known mu : (exists m, mu = multiplier_name m) \/ (forall m, mu <> multiplier_name m).
Proof.
  destruct (text_eqb_spec mu (multiplier_name CarrySave)) as [->|A]; [left; eexists; reflexivity|].
  destruct (text_eqb_spec mu (multiplier_name Wallace)) as [->|B]; [left; eexists; reflexivity|].
  destruct (text_eqb_spec mu (multiplier_name Recursive)) as [->|C]; [left; eexists; reflexivity|]. right. intros []; auto.
Qed.
Lemma unknown_adder_fails ad m n v : (forall a, ad <> adder_name a) -> 4 <= n \/ (0 < n /\ m = CarrySave) ->
  exists e, sym_multiplier (multiplier_named (multiplier_name m) ad) (int2bits n) v = Fails e.
Proof.
  intros N C. apply sym_multiplier_fails. intros xs ys L. pose proof (unknown_adder ad N) as U.
  assert (L2 : m = CarrySave \/ (2 <= List.length ys)%nat).
  { destruct C as [C|(_ & ->)]; [right|left; reflexivity]. rewrite L. destruct (sizes n ltac:(lia)) as (_ & ->).
    destruct (size_facts n C) as (_ & S2 & _). unfold n2. lia. }
  destruct m.
  - exact (no_carry_save _ U xs ys).
  - destruct L2 as [|L2]; [discriminate|]. exact (no_wallace _ U xs ys L2).
  - destruct L2 as [|L2]; [discriminate|]. exact (no_recursive _ U _ xs ys L2).
Qed.
Lemma small_any ad m n : m <> CarrySave -> n = 2 \/ n = 3 ->
  exists xs ys cs next ds, sym_multiplier (multiplier_named (multiplier_name m) ad) (int2bits n) 1 = Done (xs, ys, cs) next ds.
Proof. intros M [-> | ->]; destruct m; try congruence; do 5 eexists; reflexivity. Qed.
Lemma succeeds other kept n ad mu :
  snd (sabry other kept [str_Z n; ad; mu]) = true <->
  1 < n /\ exists m, mu = multiplier_name m /\ ((exists a, ad = adder_name a) \/ (n <= 3 /\ m <> CarrySave)).
Proof.
  split.
  - unfold sabry. rewrite hs_read_str. cbv zeta. destruct (Z.leb_spec n 1) as [|H]; [discriminate|]. intros E. split; [exact H|].
    destruct (multiplier_known mu) as [(m & ->)|U].
    + exists m. split; [reflexivity|]. destruct (adder_known ad) as [K|U]; [left; exact K|]. right.
      assert (X : ~ (4 <= n \/ (0 < n /\ m = CarrySave))).
      { intros X. destruct (unknown_adder_fails ad m n 1 U X) as (e & Y). rewrite Y in E. discriminate E. }
      split; [lia|]. intros ->. apply X. right. split; [lia|reflexivity].
    + exfalso. destruct (sym_multiplier_fails (multiplier_named mu ad) (int2bits n) 1) as (e & Y); [intros; apply unknown_multiplier; exact U|].
      rewrite Y in E. discriminate E.
  - intros (H & m & -> & [(a & ->)|(H3 & M)]).
    + destruct (gen_main a m n) as [t|] eqn:G; [rewrite (sabry_valid _ _ _ _ _ _ G); reflexivity|].
      apply (proj1 (p_C53_generated_file a m n)) in G. lia.
    + unfold sabry. rewrite hs_read_str. cbv zeta. destruct (Z.leb_spec n 1); [lia|].
      destruct (small_any ad m n M ltac:(lia)) as (xs & ys & cs & next & ds & ->). reflexivity.
Qed.

(* ---- what a failed call leaves ---- *)
Lemma comments_nil : only_comments [].
Proof. constructor; [left; reflexivity|constructor]. Qed.
Lemma comments_line l t : lacks newline ("c"%char :: l) -> only_comments t -> only_comments (ln ("c"%char :: l) ++ t).
Proof.
  intros L C. unfold only_comments, ln in *. rewrite <- app_assoc. cbn [app]. change ("c"%char :: l ++ newline :: t) with (("c"%char :: l) ++ newline :: t).
  rewrite split_on_app by exact L. constructor; [right; eexists; reflexivity|exact C].
Qed.
Lemma comments_last l : lacks newline ("c"%char :: l) -> only_comments ("c"%char :: l).
Proof. intros L. unfold only_comments. rewrite split_on_lacks by exact L. constructor; [right; eexists; reflexivity|constructor]. Qed.
Lemma show_bits_line bs : lacks newline (show_bits bs).
Proof.
  unfold show_bits. apply lacks_app; [lit|]. apply lacks_app; [|lit]. apply join_lacks; [lit|]. apply Forall_forall. intros w W.
  apply in_map_iff in W as (b & <- & _). destruct b as [[|]|v|v]; cbn [show_bit]; [lit|lit|apply str_line|apply lacks_app; [lit|apply str_line]].
Qed.
Lemma failed_comments other kept args t : sabry other kept args = (t, false) -> (forall w, In w args -> ~ In newline w) -> only_comments t.
Proof.
  intros H N. unfold sabry in H. destruct args as [|w [|ad [|mu [|? ?]]]]; try (injection H as <-; exact comments_nil). cbv zeta in H.
  assert (Na : lacks newline ad) by (apply N; right; left; reflexivity). assert (Nm : lacks newline mu) by (apply N; right; right; left; reflexivity).
  set (l1 := txt "c Problem generated from " ++ mu ++ txt "[" ++ ad ++ txt "] multiplication circuit") in *.
  assert (L1 : lacks newline l1) by (unfold l1; repeat (apply lacks_app; [first [assumption|lit]|]); lit).
  assert (St : forall u, only_comments u -> only_comments ((ln l1 ++ ln (txt "c by Paul Purdom and Amr Sabry") ++ ln (txt "c")) ++ u)).
  { intros u U. rewrite <- !app_assoc. refine (comments_line (tl l1) _ L1 _). refine (comments_line _ _ _ _); [lit|]. refine (comments_line _ _ _ U). lit. }
  assert (Torn : only_comments ((ln l1 ++ ln (txt "c by Paul Purdom and Amr Sabry") ++ ln (txt "c")) ++ (if kept then txt "c Circuit for product = " else []))).
  { apply St. destruct kept; [|exact comments_nil]. apply comments_last. lit. }
  destruct (hs_read other w) as [n|]; [|apply (f_equal fst) in H; cbn [fst] in H; subst t; exact Torn].
  destruct (n <=? 1); [apply (f_equal fst) in H; cbn [fst] in H; subst t; exact Torn|].
  destruct (sym_multiplier _ _ _) as [((xs & ys) & cs) next ds|e]; [apply (f_equal snd) in H; discriminate H|].
  apply (f_equal fst) in H. cbn [fst] in H. subst t. rewrite <- ?app_assoc.
  refine (comments_line (tl l1) _ L1 _). refine (comments_line _ _ _ _); [lit|]. refine (comments_line _ _ _ _); [lit|].
  refine (comments_line (tl (txt "c Circuit for product = " ++ str_Z n ++ txt " " ++ show_bits (rev (int2bits n)))) _ _ _).
  - change (lacks newline (txt "c Circuit for product = " ++ str_Z n ++ txt " " ++ show_bits (rev (int2bits n)))).
    apply lacks_app; [lit|]. apply lacks_app; [apply str_line|]. apply lacks_app; [lit|]. apply show_bits_line.
  - apply comments_last. lit.
Qed.
Lemma comments_read t : only_comments t -> get_cnf_set (InDimacs t) = Ok empty_set.
Proof.
  intros H. unfold get_cnf_set, parse_dimacs.
  assert (F : Forall (fun l => l = [] \/ exists r, l = "c"%char :: r) (tl (split_on newline t))).
  { unfold only_comments in H. destruct (split_on newline t); [constructor|]. inversion H; subst; assumption. }
  replace (dimacs_lines (tl (split_on newline t)) [] []) with (Ok ([] : list Z, [] : list (list Z))); [reflexivity|]. symmetry.
  induction F as [|l ls [-> |(r & ->)] F IH]; [reflexivity|reflexivity|]. rewrite comment_skipped; [exact IH|].
  exists [], r. split; [reflexivity|]. constructor.
Qed.

(* ---- the script ---- *)
Lemma wrap_small z : shell_sized z -> wrap z = z.
Proof. unfold shell_sized, wrap. intros H. rewrite Z.mod_small; lia. Qed.
Lemma loop_ends last : last < 2 ^ 63 - 1 -> forall k i, (Z.to_nat (last + 1 - i) <= k)%nat -> - 2 ^ 63 <= i ->
  loop_numbers k i last = Some (range i (last + 1)).
Proof.
  intros HL. induction k as [|k IH]; intros i K Hi; cbn [loop_numbers]; destruct (Z.leb_spec i last) as [L|L].
  - lia.
  - rewrite range_nil by lia. reflexivity.
  - rewrite wrap_small by (unfold shell_sized; lia). rewrite IH by lia. cbn [option_map]. rewrite (range_cons i) by lia. reflexivity.
  - rewrite range_nil by lia. reflexivity.
Qed.
Lemma loop_endless : forall k i, i <= 2 ^ 63 - 1 -> loop_numbers k i (2 ^ 63 - 1) = None.
Proof.
  induction k as [|k IH]; intros i H; cbn [loop_numbers]; rewrite (proj2 (Z.leb_le _ _) H); [reflexivity|].
  rewrite IH; [reflexivity|]. unfold wrap. pose proof (Z.mod_pos_bound (i + 1 + 2 ^ 63) (2 ^ 64) eq_refl). lia.
Qed.
Lemma str_not_empty z : text_eqb (str_Z z) [] = false.
Proof. destruct (text_eqb_spec (str_Z z) []) as [E|]; [exfalso; exact (str_Z_ne z E)|reflexivity]. Qed.
Lemma benchmark_inj a b : benchmark_file a = benchmark_file b -> a = b.
Proof. unfold benchmark_file. intros H. apply app_inv_head in H. apply app_inv_tail in H. exact H. Qed.
(* files named after words, each with a content that depends on the word alone *)
Lemma content_map (f : text -> text) ws w :
  content (map (fun i => (benchmark_file i, f i)) ws) (benchmark_file w) = if existsb (text_eqb w) ws then Some (f w) else None.
Proof.
  induction ws as [|x ws IH]; [reflexivity|]. cbn [map content existsb]. rewrite IH.
  destruct (existsb (text_eqb w) ws); [rewrite orb_true_r; reflexivity|]. rewrite orb_false_r.
  destruct (text_eqb_spec (benchmark_file x) (benchmark_file w)) as [E|E], (text_eqb_spec w x) as [->|E']; try reflexivity.
  - apply benchmark_inj in E. congruence.
  - congruence.
Qed.
Lemma content_other (f : text -> text) ws name : (forall w, In w ws -> name <> benchmark_file w) ->
  content (map (fun i => (benchmark_file i, f i)) ws) name = None.
Proof.
  induction ws as [|x ws IH]; intros H; [reflexivity|]. cbn [map content]. rewrite IH by (intros; apply H; right; auto).
  destruct (text_eqb_spec (benchmark_file x) name) as [E|]; [|reflexivity]. exfalso. apply (H x (or_introl eq_refl)). congruence.
Qed.
Lemma existsb_In w ws : existsb (text_eqb w) ws = true <-> In w ws.
Proof.
  rewrite existsb_exists. split; [intros (x & I & E); apply text_eqb_eq in E; subst; exact I|]. intros I. exists w. split; [exact I|apply text_eqb_eq; reflexivity].
Qed.
