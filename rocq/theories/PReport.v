(* PReport.v -- proofs about the printed report *)
From Coq Require Import String Ascii ZArith List Bool Lia.
From Verif Require Import Spec PyBase MSet MText MQueue MDb MSolver MMain MProc MShare MCli MReport SpecReport PLib PText PReader.
Import ListNotations.
Open Scope Z_scope.

(* ---- plain texts: neither the end of a line nor a backslash ---- *)
Definition plain_char (a : ascii) : bool := negb (Ascii.eqb a newline) && negb (Ascii.eqb a backslash).
Definition plain (t : text) : Prop := forallb plain_char t = true.
Lemma plain_app a b : plain a -> plain b -> plain (a ++ b).
Proof. unfold plain. rewrite forallb_app. intros -> ->. reflexivity. Qed.
Lemma plain_In t : (forall a, In a t -> plain_char a = true) -> plain t.
Proof. intros H. unfold plain. apply forallb_forall. exact H. Qed.
Lemma plain_lacks t : plain t -> lacks newline t /\ lacks backslash t.
Proof.
  unfold plain, lacks. rewrite forallb_forall. intros H. split; intros I; apply H in I; vm_compute in I; discriminate.
Qed.
Lemma numchar_plain a : numchar a = true -> plain_char a = true.
Proof.
  intros H. unfold plain_char. apply andb_true_iff. split; apply negb_true_iff; apply Ascii.eqb_neq; apply numchar_neq; auto;
  vm_compute; auto.
Qed.
Lemma str_Z_plain z : plain (str_Z z).
Proof. apply plain_In. intros a I. apply numchar_plain. exact (proj1 (Forall_forall _ _) (str_Z_numchar z) a I). Qed.
Lemma join_plain sep l : plain sep -> Forall plain l -> plain (join sep l).
Proof.
  intros S H. apply plain_In. intros a I. apply join_In in I as [I|(p & I & J)].
  - unfold plain in S. rewrite forallb_forall in S. auto.
  - rewrite Forall_forall in H. specialize (H p I). unfold plain in H. rewrite forallb_forall in H. auto.
Qed.
Lemma hex_digit_cases n : (n < 16)%N -> In (hex_digit n) (list_ascii_of_string "0123456789abcdef").
Proof.
  intros H. assert (K : In n [0;1;2;3;4;5;6;7;8;9;10;11;12;13;14;15]%N) by (cbn [In]; lia).
  repeat (destruct K as [<-|K]; [vm_compute; tauto|]). destruct K.
Qed.
Lemma hex_plain t : plain (hex t).
Proof.
  apply plain_In. intros a I. unfold hex in I. apply in_flat_map in I as (x & _ & I).
  assert (C : (code x < 256)%N) by (unfold code; apply N_ascii_bounded).
  assert (J : In a (list_ascii_of_string "0123456789abcdef")).
  { destruct I as [<-|[<-|[]]]; apply hex_digit_cases; [apply N.div_lt_upper_bound; lia|apply N.mod_lt; lia]. }
  assert (E : forallb plain_char (list_ascii_of_string "0123456789abcdef") = true) by reflexivity. rewrite forallb_forall in E. auto.
Qed.
Lemma hex_digit_inj n m : (n < 16)%N -> (m < 16)%N -> hex_digit n = hex_digit m -> n = m.
Proof.
  intros A B E. apply (f_equal N_of_ascii) in E. unfold hex_digit in E.
  destruct (N.ltb_spec n 10), (N.ltb_spec m 10); rewrite !N_ascii_embedding in E by lia; lia.
Qed.
Lemma hex_inj t u : hex t = hex u -> t = u.
Proof.
  revert u. induction t as [|a t IH]; intros [|b u] E; try discriminate; [reflexivity|]. unfold hex in E. cbn [flat_map app] in E.
  injection E as E1 E2 E3. assert (Ca : (code a < 256)%N) by (unfold code; apply N_ascii_bounded). assert (Cb : (code b < 256)%N) by (unfold code; apply N_ascii_bounded).
  apply hex_digit_inj in E1; [|apply N.div_lt_upper_bound; lia|apply N.div_lt_upper_bound; lia].
  apply hex_digit_inj in E2; [|apply N.mod_lt; lia|apply N.mod_lt; lia].
  f_equal; [|apply IH; exact E3]. pose proof (N.div_mod' (code a) 16) as D1. pose proof (N.div_mod' (code b) 16) as D2.
  assert (E : code a = code b) by (rewrite D1, D2, E1, E2; reflexivity). unfold code in E.
  rewrite <- (ascii_N_embedding a), <- (ascii_N_embedding b), E. reflexivity.
Qed.
Lemma hex_spec t : in_hex t (hex t).
Proof.
  unfold in_hex, hex. induction t as [|a t IH]; [reflexivity|]. cbn [flat_map]. rewrite IH. f_equal.
  clear. destruct a as [[] [] [] [] [] [] [] []]; vm_compute; reflexivity.
Qed.
Lemma hex_length t : List.length (hex t) = (2 * List.length t)%nat.
Proof. induction t as [|a t IH]; [reflexivity|]. unfold hex in *. cbn [flat_map app List.length]. lia. Qed.

(* ---- commas ---- *)
Lemma three_ind (P : list ascii -> Prop) : P [] -> (forall a, P [a]) -> (forall a b, P [a; b]) -> (forall a b c t, P t -> P (a :: b :: c :: t)) -> forall t, P t.
Proof.
  intros H0 H1 H2 H3. assert (G : forall n t, (List.length t <= n)%nat -> P t).
  { induction n as [|n IH]; intros t L; [destruct t; [exact H0|cbn in L; lia]|].
    destruct t as [|a [|b [|c t]]]; auto. apply H3. apply IH. cbn [List.length] in L. lia. }
  intros t. apply (G (List.length t) t). lia.
Qed.
Lemma join_app sep (l : list text) g : l <> [] -> join sep (l ++ [g]) = join sep l ++ sep ++ g.
Proof.
  induction l as [|x l IH]; [congruence|]. intros _. destruct l as [|y l]; [reflexivity|].
  change (join sep ((x :: y :: l) ++ [g])) with (x ++ sep ++ join sep ((y :: l) ++ [g])). rewrite IH by discriminate.
  change (join sep (x :: y :: l)) with (x ++ sep ++ join sep (y :: l)). rewrite <- !app_assoc. reflexivity.
Qed.
Lemma commas_groups (t : list ascii) : t <> [] -> exists g gs, rev (commas t) = join (txt ",") (g :: gs) /\ (1 <= List.length g <= 3)%nat /\
  Forall (fun x => List.length x = 3%nat) gs /\ concat (g :: gs) = rev t.
Proof.
  revert t; refine (three_ind _ _ _ _ _); [|intros a|intros a b|intros a b c t IH]; intros N; [congruence| | |].
  - exists [a], []. cbn [commas rev app join concat List.length]. repeat split; try lia; constructor.
  - exists [b; a], []. cbn [commas rev app join concat List.length]. repeat split; try lia; constructor.
  - destruct t as [|d t].
    + exists [c; b; a], []. cbn [commas rev app join concat List.length]. repeat split; try lia; constructor.
    + destruct IH as (g & gs & E & L & F & C); [discriminate|]. exists g, (gs ++ [[c; b; a]]).
      change (commas (a :: b :: c :: d :: t)) with (a :: b :: c :: ","%char :: commas (d :: t)).
      split; [|split; [exact L|split]].
      * change (g :: gs ++ [[c; b; a]]) with ((g :: gs) ++ [[c; b; a]]). rewrite join_app by discriminate. rewrite <- E.
        cbn [rev]. rewrite <- !app_assoc. reflexivity.
      * apply Forall_app. split; [exact F|]. constructor; [reflexivity|constructor].
      * change (g :: gs ++ [[c; b; a]]) with ((g :: gs) ++ [[c; b; a]]). rewrite concat_app, C. cbn [concat rev app]. rewrite <- !app_assoc. reflexivity.
Qed.
Lemma with_commas_grouped n : grouped n (with_commas n).
Proof.
  destruct (commas_groups (rev (str_Z n))) as (g & gs & E & L & F & C).
  - intros K. apply (f_equal (@rev ascii)) in K. rewrite rev_involutive in K. exact (str_Z_ne n K).
  - exists g, gs. rewrite rev_involutive in C. auto.
Qed.
Definition no_comma (a : ascii) : bool := negb (Ascii.eqb a ","%char).
Lemma grouped_reads n t : grouped n t -> filter no_comma t = str_Z n.
Proof.
  intros (g & gs & -> & _ & _ & C). rewrite <- C.
  assert (N : forall a, In a (concat (g :: gs)) -> no_comma a = true).
  { rewrite C. intros a I. unfold no_comma. apply negb_true_iff, Ascii.eqb_neq. intros ->. revert I. apply str_Z_lacks. left. reflexivity. }
  clear C. revert g N. induction gs as [|h gs IH]; intros g N.
  - cbn [join concat] in *. rewrite app_nil_r in *. induction g as [|a g IHg]; [reflexivity|]. cbn [filter]. rewrite (N a (or_introl eq_refl)).
    rewrite IHg; [reflexivity|]. intros x I. apply N. right; exact I.
  - change (join (txt ",") (g :: h :: gs)) with (g ++ txt "," ++ join (txt ",") (h :: gs)). rewrite !filter_app. rewrite IH.
    + change (filter no_comma (txt ",")) with (@nil ascii). cbn [app concat]. f_equal.
      clear IH. induction g as [|a g IHg]; [reflexivity|]. cbn [filter]. rewrite (N a (or_introl eq_refl)). rewrite IHg; [reflexivity|]. intros x I. apply N. right; exact I.
    + intros a I. apply N. cbn [concat] in *. apply in_app_iff. right. exact I.
Qed.
Lemma grouped_inj n m t : grouped n t -> grouped m t -> n = m.
Proof. intros A B. apply str_Z_inj. rewrite <- (grouped_reads _ _ A), <- (grouped_reads _ _ B). reflexivity. Qed.
(* one way to write a number *)
Lemma commas_plain n : plain (with_commas n).
Proof.
  destruct (with_commas_grouped n) as (g & gs & -> & _ & _ & C). apply join_plain; [reflexivity|].
  apply Forall_forall. intros x I. apply plain_In. intros a J. pose proof (str_Z_plain n) as P. rewrite <- C in P. unfold plain in P. rewrite forallb_forall in P.
  apply P. apply in_concat. exists x. auto.
Qed.

(* ---- decimals ---- *)
Lemma padded3_reads f : 0 <= f < 1000 -> List.length (padded3 f) = 3%nat /\ py_int (padded3 f) = Some f.
Proof.
  intros H. assert (K : forallb (fun f => Nat.eqb (List.length (padded3 f)) 3 && match py_int (padded3 f) with Some x => x =? f | None => false end) (map Z.of_nat (seq 0 1000)) = true) by (vm_compute; reflexivity).
  rewrite forallb_forall in K. specialize (K f). assert (I : In f (map Z.of_nat (seq 0 1000))).
  { apply in_map_iff. exists (Z.to_nat f). split; [lia|]. apply in_seq. lia. }
  specialize (K I). apply andb_true_iff in K as [K1 K2]. apply Nat.eqb_eq in K1. destruct (py_int (padded3 f)); [|discriminate]. apply Z.eqb_eq in K2. subst. auto.
Qed.
Lemma thousandths_spec m : three_decimals m (thousandths m).
Proof.
  assert (B : 0 <= Z.abs m mod 1000 < 1000) by (apply Z.mod_pos_bound; lia). destruct (padded3_reads _ B) as [L P].
  exists (Z.abs m / 1000), (padded3 (Z.abs m mod 1000)), (Z.abs m mod 1000). split; [reflexivity|]. split; [apply Z.div_pos; lia|].
  split; [exact L|]. split; [exact P|]. split; [exact B|]. pose proof (Z.div_mod (Z.abs m) 1000 ltac:(lia)). lia.
Qed.
(* a number followed by something else can be read in one way *)
Lemma number_then a b x y u v : numchar x = false -> numchar y = false -> str_Z a ++ x :: u = str_Z b ++ y :: v -> a = b /\ x = y /\ u = v.
Proof.
  intros X Y E.
  assert (G : forall s t, Forall (fun c => numchar c = true) s -> Forall (fun c => numchar c = true) t -> s ++ x :: u = t ++ y :: v -> s = t /\ x = y /\ u = v).
  { induction s as [|c s IH]; intros [|d t] Fs Ft K; cbn [app] in K.
    - injection K as -> ->. auto.
    - injection K as -> ->. inversion Ft. congruence.
    - injection K as -> K. inversion Fs. congruence.
    - injection K as -> K. inversion Fs; inversion Ft; subst. destruct (IH t) as (-> & A & B); auto. }
  destruct (G _ _ (str_Z_numchar a) (str_Z_numchar b) E) as (A & B & C). apply str_Z_inj in A. auto.
Qed.
Lemma padded3_plain f : plain (padded3 f).
Proof. unfold padded3. apply plain_app; [destruct (f <? 100); reflexivity|]. apply plain_app; [destruct (f <? 10); reflexivity|]. apply str_Z_plain. Qed.
Lemma thousandths_plain m : plain (thousandths m).
Proof.
  unfold thousandths. apply plain_app; [destruct (m <? 0); reflexivity|]. apply plain_app; [apply str_Z_plain|]. apply plain_app; [reflexivity|apply padded3_plain].
Qed.
Lemma thousandths_inj m m' u v x y : numchar x = false -> numchar y = false -> x <> "."%char -> thousandths m ++ x :: u = thousandths m' ++ y :: v -> m = m'.
Proof.
  intros X Y ND E. unfold thousandths in E. rewrite <- !app_assoc in E. cbn [txt list_ascii_of_string app] in E.
  assert (P : forall k l a b, 0 <= k < 1000 -> 0 <= l < 1000 -> padded3 k ++ a = padded3 l ++ b -> k = l).
  { intros k l a b K L Q. destruct (padded3_reads k K) as [L1 P1]. destruct (padded3_reads l L) as [L2 P2].
    assert (padded3 k = padded3 l).
    { apply (f_equal (firstn 3)) in Q. rewrite !firstn_app, L1, L2 in Q. change (3 - 3)%nat with 0%nat in Q. rewrite !firstn_O, !app_nil_r in Q.
      rewrite (firstn_all2 (padded3 k)) in Q by (unfold text in *; lia). rewrite (firstn_all2 (padded3 l)) in Q by (unfold text in *; lia). exact Q. }
    congruence. }
  assert (D : numchar "."%char = false) by reflexivity.
  assert (B : forall z, 0 <= Z.abs z mod 1000 < 1000) by (intros z; apply Z.mod_pos_bound; lia).
  assert (G : forall p q, Z.abs p / 1000 = Z.abs q / 1000 -> Z.abs p mod 1000 = Z.abs q mod 1000 -> Z.abs p = Z.abs q).
  { intros p q E1 E2. rewrite (Z.div_mod (Z.abs p) 1000), (Z.div_mod (Z.abs q) 1000) by lia. rewrite E1, E2. reflexivity. }
  assert (M : forall z t w, 0 <= z -> "-"%char :: t <> str_Z z ++ w).
  { intros z t w Z0 K. pose proof (str_Z_digits z Z0) as F. pose proof (str_Z_ne z) as NE. destruct (str_Z z) as [|c s]; [congruence|]. cbn [app] in K. injection K as <- _. inversion F. discriminate. }
  destruct (Z.ltb_spec m 0) as [L|L], (Z.ltb_spec m' 0) as [L'|L']; cbn [app] in E.
  - injection E as E. apply number_then in E as (E1 & _ & E2); auto. apply P in E2; auto. specialize (G _ _ E1 E2). lia.
  - exfalso. symmetry in E. symmetry in E. exact (M (Z.abs m' / 1000) _ _ ltac:(apply Z.div_pos; lia) E).
  - exfalso. symmetry in E. exact (M (Z.abs m / 1000) _ _ ltac:(apply Z.div_pos; lia) E).
  - apply number_then in E as (E1 & _ & E2); auto. apply P in E2; auto. specialize (G _ _ E1 E2). lia.
Qed.

(* ---- sizes ---- *)
Lemma tenths_near p q : 0 <= p -> 0 < q -> 0 <= tenths p q /\ 2 * Z.abs (tenths p q * q - 10 * p) <= q /\
  (2 * Z.abs (tenths p q * q - 10 * p) = q -> Z.even (tenths p q) = true).
Proof.
  intros P Q. unfold tenths. pose proof (Z.div_mod (10 * p) q ltac:(lia)) as D. pose proof (Z.mod_pos_bound (10 * p) q Q) as B.
  set (m := 10 * p / q) in *. set (r := 10 * p mod q) in *. assert (M : 0 <= m) by (apply Z.div_pos; lia).
  destruct (Z.ltb_spec (2 * r) q); cbn [orb]; [split; [lia|split; [nia|intros K; nia]]|].
  destruct (Z.eqb_spec (2 * r) q); cbn [andb].
  - destruct (Z.even m) eqn:E; (split; [lia|split; [nia|]]); [intros _; exact E|]. intros _. rewrite Z.even_add, E. reflexivity.
  - split; [lia|split; [nia|intros K; nia]].
Qed.
Lemma one_decimal_spec p q : 0 <= p -> 0 < q -> exists whole tenth, one_decimal p q = str_Z whole ++ txt "." ++ str_Z tenth /\ 0 <= whole /\ 0 <= tenth < 10 /\
  2 * Z.abs ((10 * whole + tenth) * q - 10 * p) <= q /\ (2 * Z.abs ((10 * whole + tenth) * q - 10 * p) = q -> Z.even tenth = true).
Proof.
  intros P Q. destruct (tenths_near p q P Q) as (A & B & C). exists (tenths p q / 10), (tenths p q mod 10). split; [reflexivity|].
  split; [apply Z.div_pos; lia|]. split; [apply Z.mod_pos_bound; lia|]. rewrite <- (Z.div_mod (tenths p q) 10) by lia. split; [exact B|]. intros K. specialize (C K).
  rewrite (Z.div_mod (tenths p q) 10) in C by lia. rewrite Z.even_add, Z.even_mul in C. cbn in C. destruct (Z.even (tenths p q mod 10)); [reflexivity|discriminate].
Qed.
Lemma sizeof_spec n : 0 <= n -> SpecReport.size n (sizeof_fmt n).
Proof.
  intros N. unfold sizeof_fmt.
  assert (G : forall us k, (k <= 8)%nat -> us = skipn k (map txt [""; "Ki"; "Mi"; "Gi"; "Ti"; "Pi"; "Ei"; "Zi"]%string) -> (k = 0%nat \/ 1024 ^ Z.of_nat k <= n) ->
    SpecReport.size n (sizeof us n (1024 ^ Z.of_nat k))).
  { induction us as [|u us IH]; intros k K E L.
    - assert (k = 8)%nat by (do 8 (destruct k as [|k]; [discriminate E|]); lia). subst k. cbn [sizeof].
      destruct (one_decimal_spec n (1024 ^ Z.of_nat 8) N ltac:(reflexivity)) as (w & d & -> & W & D & M).
      exists 8%nat, (txt "YiB"), w, d. split; [reflexivity|]. split; [rewrite <- !app_assoc; reflexivity|]. auto 10.
    - cbn [sizeof]. assert (Q : 0 < 1024 ^ Z.of_nat k) by (apply Z.pow_pos_nonneg; lia).
      assert (X : 1024 * 1024 ^ Z.of_nat k = 1024 ^ (Z.of_nat k + 1)) by (rewrite Z.pow_add_r by lia; lia).
      destruct (Z.ltb_spec n (1024 * 1024 ^ Z.of_nat k)) as [H|H].
      + destruct (one_decimal_spec n (1024 ^ Z.of_nat k) N Q) as (w & d & -> & W & D & M).
        exists k, (u ++ txt "B"), w, d. split.
        { do 8 (destruct k as [|k]; [injection E as -> _; reflexivity|]). destruct k; [discriminate E|lia]. }
        split; [rewrite <- !app_assoc; reflexivity|]. split; [exact W|]. split; [exact D|]. split; [exact L|]. split; [right; lia|exact M].
      + replace (1024 ^ Z.of_nat k * 1024) with (1024 ^ Z.of_nat (S k)) by (rewrite Nat2Z.inj_succ, <- Z.add_1_r, <- X; lia). apply IH.
        * do 8 (destruct k as [|k]; [lia|]). destruct k; [discriminate E|lia].
        * do 8 (destruct k as [|k]; [injection E as _ ->; reflexivity|]). destruct k; [discriminate E|lia].
        * right. rewrite Nat2Z.inj_succ, <- Z.add_1_r, <- X. lia. }
  exact (G _ 0%nat ltac:(lia) eq_refl (or_introl eq_refl)).
Qed.
Lemma sizeof_plain n : plain (sizeof_fmt n).
Proof.
  assert (O : forall p q, plain (one_decimal p q)) by (intros; unfold one_decimal; apply plain_app; [apply str_Z_plain|apply plain_app; [reflexivity|apply str_Z_plain]]).
  unfold sizeof_fmt. generalize 1. assert (F : Forall plain (map txt [""; "Ki"; "Mi"; "Gi"; "Ti"; "Pi"; "Ei"; "Zi"]%string)) by (repeat constructor).
  induction F as [|u us H F IH]; intros q; cbn [sizeof].
  - apply plain_app; [apply O|reflexivity].
  - destruct (n <? 1024 * q); [apply plain_app; [apply O|apply plain_app; [exact H|reflexivity]]|apply IH].
Qed.

(* ---- lines ---- *)
Lemma split_ne c t : split_on c t <> [].
Proof. destruct t as [|a t]; cbn [split_on]; [discriminate|]. destruct (Ascii.eqb a c); [discriminate|]. destruct (split_on c t); discriminate. Qed.
Lemma join_split c t : join [c] (split_on c t) = t /\ Forall (lacks c) (split_on c t).
Proof.
  induction t as [|a t [IH F]]; [split; [reflexivity|constructor; [intros []|constructor]]|]. cbn [split_on]. destruct (Ascii.eqb_spec a c) as [-> |N].
  - pose proof (split_ne c t) as NE. destruct (split_on c t) as [|p ps]; [congruence|]. split; [|constructor; [intros []|exact F]].
    change (join [c] ([] :: p :: ps)) with (c :: join [c] (p :: ps)). rewrite IH. reflexivity.
  - pose proof (split_ne c t) as NE. destruct (split_on c t) as [|p ps]; [congruence|]. inversion F; subst. split; [|constructor; [intros [K|K]; [congruence|auto]|assumption]].
    destruct ps; reflexivity.
Qed.
Lemma shows_split t l : shows_line t l <-> In l (split_on newline t).
Proof.
  split.
  - intros (N & a & b & -> & A & B).
    assert (T : In l (split_on newline (l ++ b))).
    { destruct B as [-> |(b' & ->)]; [rewrite app_nil_r, split_on_lacks by exact N; left; reflexivity|]. rewrite split_on_app by exact N. left. reflexivity. }
    destruct A as [-> |(a' & ->)]; [exact T|]. rewrite <- app_assoc. cbn [app]. rewrite split_on_app2. apply in_app_iff. right. exact T.
  - intros I. destruct (join_split newline t) as [E F]. rewrite Forall_forall in F. split; [exact (F l I)|].
    apply in_split in I as (p & q & S). rewrite S in E.
    assert (Q : exists b, join [newline] (l :: q) = l ++ b /\ (b = [] \/ exists b', b = newline :: b')).
    { destruct q as [|x q]; [exists []; cbn [join]; rewrite app_nil_r; auto|]. exists (newline :: join [newline] (x :: q)). split; [reflexivity|right; eauto]. }
    destruct Q as (b & Q & B).
    assert (P : exists a, join [newline] (p ++ l :: q) = a ++ join [newline] (l :: q) /\ (a = [] \/ exists a', a = a' ++ [newline])).
    { clear. induction p as [|x p (a & IH & A)]; [exists []; auto|]. exists (x ++ newline :: a). split.
      - change ((x :: p) ++ l :: q) with (x :: (p ++ l :: q)). assert (NE : p ++ l :: q <> []) by (destruct p; discriminate).
        destruct (p ++ l :: q) as [|y r]; [congruence|]. change (join [newline] (x :: y :: r)) with (x ++ newline :: join [newline] (y :: r)). rewrite IH, <- app_assoc. reflexivity.
      - right. destruct A as [-> |(a' & ->)]; [exists x; reflexivity|exists (x ++ newline :: a'); rewrite <- app_assoc; reflexivity]. }
    destruct P as (a & P & A). exists a, b. split; [|auto]. rewrite <- E, P, Q. reflexivity.
Qed.

(* ---- the report as a list of lines ---- *)
Definition pieces (r : circumstances) (c : cli) (out : outcome) (lines : list line) : list text :=
  [txt "Input set processed in " ++ thousandths (r_time r) ++ txt " seconds";
   txt "Problem ID: " ++ hex (r_id r);
   txt "Solution mode: " ++ mode_upper (c_mode c);
   txt "The input set is " ++ (if out_sat out then txt "SATISFIABLE!" else txt "Not satisfiable.")] ++
  (if out_sat out then [txt "The solution is " ++ str_solution (out_solution out)] else []) ++
  [txt "Number of unique nodes: " ++ with_commas (Z.of_nat (List.length (out_children out)))] ++
  (if c_no_stats c then []
   else [txt "Number of redundant subtrees: " ++ str_Z (out_redundants out); txt "Number of redundant hits: " ++ str_Z (out_hits out);
         txt "Number of nodes found in gdb: " ++ str_Z (out_found out)]) ++
  map line_text lines ++ [txt "Current memory usage: " ++ sizeof_fmt (r_memory r)].
Lemma join_marks sep p ps : join sep (p :: ps) = p ++ flat_map (fun q => sep ++ q) ps.
Proof.
  revert p. induction ps as [|q ps IH]; intros p; [cbn; rewrite app_nil_r; reflexivity|].
  change (join sep (p :: q :: ps)) with (p ++ sep ++ join sep (q :: ps)). rewrite IH. cbn [flat_map]. rewrite <- !app_assoc. reflexivity.
Qed.
Lemma stats_pieces r c out lines : stats r c out lines = join mark (pieces r c out lines).
Proof.
  unfold stats, pieces. cbn [app]. rewrite join_marks. cbn [flat_map].
  assert (L : flat_map (fun l => mark ++ line_text l) lines = flat_map (fun q => mark ++ q) (map line_text lines)).
  { induction lines as [|x l IH]; [reflexivity|]. cbn [flat_map map]. rewrite IH. reflexivity. }
  rewrite L. destruct (out_sat out), (c_no_stats c); cbn [flat_map app]; rewrite ?flat_map_app; cbn [flat_map]; rewrite ?app_nil_r; rewrite <- ?app_assoc; reflexivity.
Qed.
Lemma str_solution_plain s : plain (str_solution s).
Proof.
  destruct s as [d|]; [|reflexivity]. cbn [str_solution]. apply plain_app; [reflexivity|]. apply plain_app; [|reflexivity]. apply join_plain; [reflexivity|].
  apply Forall_forall. intros p I. apply in_map_iff in I as ([v b] & <- & _). apply plain_app; [apply str_Z_plain|]. destruct b; reflexivity.
Qed.
Lemma line_plain l : plain (line_text l).
Proof. destruct l; cbn [line_text]; repeat (apply plain_app; [first [apply str_Z_plain|reflexivity]|]); first [apply str_Z_plain|reflexivity]. Qed.
Lemma pieces_plain r c out lines : Forall plain (pieces r c out lines).
Proof.
  unfold pieces. rewrite !Forall_app. split; [|split; [|split; [|split; [|split]]]].
  - repeat (apply Forall_cons; [apply plain_app; [reflexivity|]|]); [|apply hex_plain|destruct (c_mode c); reflexivity|destruct (out_sat out); reflexivity|constructor].
    apply plain_app; [apply thousandths_plain|reflexivity].
  - destruct (out_sat out); [|constructor]. constructor; [|constructor]. apply plain_app; [reflexivity|apply str_solution_plain].
  - constructor; [|constructor]. apply plain_app; [reflexivity|apply commas_plain].
  - destruct (c_no_stats c); [constructor|]. repeat (apply Forall_cons; [apply plain_app; [reflexivity|apply str_Z_plain]|]). constructor.
  - apply Forall_forall. intros p I. apply in_map_iff in I as (l & <- & _). apply line_plain.
  - constructor; [|constructor]. apply plain_app; [reflexivity|apply sizeof_plain].
Qed.
Lemma unmark_plain t u : lacks backslash t -> unmark (t ++ mark ++ u) = t ++ newline :: unmark u.
Proof.
  induction t as [|a t IH]; intros L; [reflexivity|]. assert (La : lacks backslash t) by (intros I; apply L; right; exact I).
  assert (Na : Ascii.eqb a backslash = false) by (apply Ascii.eqb_neq; intros ->; apply L; left; reflexivity).
  specialize (IH La). cbn [app]. rewrite <- IH. destruct (t ++ mark ++ u) as [|b w]; [reflexivity|]. cbn [unmark]. rewrite Na. reflexivity.
Qed.
Lemma unmark_end t : lacks backslash t -> unmark t = t.
Proof.
  induction t as [|a t IH]; intros L; [reflexivity|]. assert (La : lacks backslash t) by (intros I; apply L; right; exact I).
  assert (Na : Ascii.eqb a backslash = false) by (apply Ascii.eqb_neq; intros ->; apply L; left; reflexivity).
  specialize (IH La). destruct t as [|b w]; [reflexivity|]. change (unmark (a :: b :: w)) with
    (if Ascii.eqb a backslash && Ascii.eqb b "n" then newline :: unmark w else a :: unmark (b :: w)). rewrite Na, IH. reflexivity.
Qed.
Lemma unmark_join ps : Forall plain ps -> unmark (join mark ps) = join [newline] ps.
Proof.
  induction 1 as [|p ps P F IH]; [reflexivity|]. apply plain_lacks in P as [_ P]. destruct ps as [|q ps]; [apply unmark_end; exact P|].
  change (join mark (p :: q :: ps)) with (p ++ mark ++ join mark (q :: ps)). rewrite unmark_plain by exact P. rewrite IH. reflexivity.
Qed.
Lemma report_pieces r c out lines : report r c out lines = join [newline] (pieces r c out lines).
Proof. unfold report. rewrite stats_pieces. apply unmark_join, pieces_plain. Qed.
Lemma report_lines r c out lines : split_on newline (report r c out lines) = pieces r c out lines.
Proof.
  rewrite report_pieces. apply split_on_join; [discriminate|]. eapply Forall_impl; [|apply pieces_plain]. intros p H. apply plain_lacks in H. tauto.
Qed.
Lemma report_shows r c out lines l : shows_line (report r c out lines) l <-> In l (pieces r c out lines).
Proof. rewrite shows_split, report_lines. reflexivity. Qed.

(* ---- one reading ---- *)
Lemma cons_eq {A} (x y : A) l m : x :: l = y :: m -> x = y /\ l = m.
Proof. intros E. split; [exact (f_equal (hd x) E)|exact (f_equal (@tl A) E)]. Qed.
Ltac chars H := cbn [txt list_ascii_of_string app] in H.
Ltac strip H := chars H; repeat match type of H with _ :: _ = _ :: _ => apply cons_eq in H as [_ H] end.
Ltac next H := strip H; let K := fresh "K" in apply number_then in H as (K & _ & H); [subst|reflexivity|reflexivity].
Lemma line_inj l l' : line_text l = line_text l' -> l = l'.
Proof.
  destruct l, l'; cbn [line_text]; intros H; try (chars H; discriminate H); apply app_inv_head in H.
  - next H. next H. strip H. apply str_Z_inj in H. subst. reflexivity.
  - next H. next H. strip H. apply str_Z_inj in H. subst. reflexivity.
  - next H. reflexivity.
  - next H. next H. strip H. apply str_Z_inj in H. subst. reflexivity.
  - next H. next H. next H. reflexivity.
  - next H. next H. reflexivity.
Qed.
Definition entry (kv : Z * bool) : text := str_Z (fst kv) ++ txt ": " ++ str_bool (snd kv).
Lemma entry_inj k k' u v : entry k ++ u = entry k' ++ v -> (forall x w, u = x :: w -> numchar x = false) -> (forall x w, v = x :: w -> numchar x = false) -> k = k' /\ u = v.
Proof.
  destruct k as [a b], k' as [a' b']. unfold entry. cbn [fst snd]. intros H _ _. rewrite <- !app_assoc in H. next H.
  destruct b, b'; cbn [str_bool] in H; chars H; try discriminate H; injection H as ->; auto.
Qed.
Lemma solution_inj s s' : str_solution s = str_solution s' -> s = s'.
Proof.
  assert (G : forall d d', flat_map (fun q => txt ", " ++ q) (map entry d) ++ txt "}" = flat_map (fun q => txt ", " ++ q) (map entry d') ++ txt "}" -> d = d').
  { assert (T : forall d x w, flat_map (fun q => txt ", " ++ q) (map entry d) ++ txt "}" = x :: w -> numchar x = false).
    { intros [|k d] x w H; [injection H as <- _; reflexivity|]. cbn [map flat_map] in H. rewrite <- !app_assoc in H. chars H. injection H as <- _. reflexivity. }
    induction d as [|k d IH]; intros [|k' d'] H; [reflexivity| | |]; cbn [map flat_map] in H; rewrite <- ?app_assoc in H.
    - chars H. discriminate H.
    - chars H. discriminate H.
    - apply app_inv_head in H. apply entry_inj in H as (-> & H); [|apply T|apply T]. apply IH in H. subst. reflexivity. }
  assert (T : forall d x w, flat_map (fun q => txt ", " ++ q) (map entry d) ++ txt "}" = x :: w -> numchar x = false).
  { intros [|k d] x w H; [injection H as <- _; reflexivity|]. cbn [map flat_map] in H. rewrite <- !app_assoc in H. chars H. injection H as <- _. reflexivity. }
  assert (N : forall k t, "}"%char :: [] <> entry k ++ t).
  { intros [a b] t H. unfold entry in H. cbn [fst] in H. pose proof (str_Z_numchar a) as F. pose proof (str_Z_ne a) as NE. destruct (str_Z a) as [|c l]; [congruence|].
    cbn [app] in H. injection H as <- _. inversion F. discriminate. }
  destruct s as [d|], s' as [d'|]; cbn [str_solution]; intros H; try (chars H; discriminate H); [|reflexivity]. f_equal.
  apply app_inv_head in H. change (fun kv : Z * bool => str_Z (fst kv) ++ txt ": " ++ str_bool (snd kv)) with entry in H.
  destruct d as [|k d], d' as [|k' d']; [reflexivity| | |].
  - exfalso. cbn [map] in H. rewrite join_marks, <- app_assoc in H. exact (N _ _ H).
  - exfalso. cbn [map] in H. rewrite join_marks, <- app_assoc in H. symmetry in H. exact (N _ _ H).
  - cbn [map] in H. rewrite !join_marks, <- !app_assoc in H. apply entry_inj in H as (-> & H); [|apply T|apply T]. apply G in H. subst. reflexivity.
Qed.
Lemma entry_shown kv : entry kv = shown_value kv.
Proof. destruct kv as [v []]; reflexivity. Qed.
Lemma solution_shown d : str_solution (Some d) = shown_solution d.
Proof. unfold shown_solution. cbn [str_solution]. do 3 f_equal. apply map_ext. intros kv. apply entry_shown. Qed.
Lemma mode_upper_inj m m' : mode_upper m = mode_upper m' -> m = m'.
Proof. destruct m, m'; intros H; try reflexivity; discriminate H. Qed.
Lemma same_report r c out lines r' c' out' lines' : report r c out lines = report r' c' out' lines' ->
  r_time r = r_time r' /\ r_id r = r_id r' /\ c_mode c = c_mode c' /\ out_sat out = out_sat out' /\
  (out_sat out = true -> out_solution out = out_solution out') /\ List.length (out_children out) = List.length (out_children out') /\
  c_no_stats c = c_no_stats c' /\
  (c_no_stats c = false -> out_redundants out = out_redundants out' /\ out_hits out = out_hits out' /\ out_found out = out_found out') /\
  lines = lines' /\ sizeof_fmt (r_memory r) = sizeof_fmt (r_memory r').
Proof.
  intros E. apply (f_equal (split_on newline)) in E. rewrite !report_lines in E. unfold pieces in E. cbn [app] in E.
  apply cons_eq in E as [E1 E]. apply cons_eq in E as [E2 E]. apply cons_eq in E as [E3 E]. apply cons_eq in E as [E4 E].
  apply app_inv_head in E1, E2, E3, E4.
  split; [eapply thousandths_inj with (x := " "%char) (y := " "%char); [reflexivity|reflexivity|discriminate|exact E1]|].
  split; [apply hex_inj; exact E2|]. split; [apply mode_upper_inj; exact E3|].
  assert (S : out_sat out = out_sat out') by (destruct (out_sat out), (out_sat out'); try reflexivity; discriminate E4). split; [exact S|].
  rewrite <- S in E. assert (E' : (out_sat out = true -> out_solution out = out_solution out') /\
    (txt "Number of unique nodes: " ++ with_commas (Z.of_nat (List.length (out_children out)))) ::
    (if c_no_stats c then [] else [txt "Number of redundant subtrees: " ++ str_Z (out_redundants out); txt "Number of redundant hits: " ++ str_Z (out_hits out);
         txt "Number of nodes found in gdb: " ++ str_Z (out_found out)]) ++
    map line_text lines ++ [txt "Current memory usage: " ++ sizeof_fmt (r_memory r)] =
    (txt "Number of unique nodes: " ++ with_commas (Z.of_nat (List.length (out_children out')))) ::
    (if c_no_stats c' then [] else [txt "Number of redundant subtrees: " ++ str_Z (out_redundants out'); txt "Number of redundant hits: " ++ str_Z (out_hits out');
         txt "Number of nodes found in gdb: " ++ str_Z (out_found out')]) ++
    map line_text lines' ++ [txt "Current memory usage: " ++ sizeof_fmt (r_memory r')]).
  { destruct (out_sat out); cbn [app] in E; [|split; [discriminate|exact E]]. apply cons_eq in E as [E5 E]. apply app_inv_head in E5. apply solution_inj in E5. split; [auto|exact E]. }
  clear E. destruct E' as [E5 E]. split; [exact E5|]. apply cons_eq in E as [E6 E]. apply app_inv_head in E6.
  split; [pose proof (with_commas_grouped (Z.of_nat (List.length (out_children out)))) as G1; rewrite E6 in G1;
    pose proof (grouped_inj _ _ _ G1 (with_commas_grouped _)) as K; lia|].
  assert (X : forall z l rm t, (txt "Number of redundant subtrees: " ++ str_Z z) :: t = map line_text l ++ [txt "Current memory usage: " ++ sizeof_fmt rm] -> False).
  { intros z l rm t K. destruct l as [|[] l]; cbn [map app line_text] in K; apply cons_eq in K as [K _]; chars K; discriminate K. }
  assert (Y : map line_text lines ++ [txt "Current memory usage: " ++ sizeof_fmt (r_memory r)] = map line_text lines' ++ [txt "Current memory usage: " ++ sizeof_fmt (r_memory r')] ->
    lines = lines' /\ sizeof_fmt (r_memory r) = sizeof_fmt (r_memory r')).
  { intros K. apply app_inj_tail in K as [K1 K2]. apply app_inv_head in K2. split; [|exact K2]. clear -K1. revert lines' K1. induction lines as [|l ls IH]; intros [|l' ls'] K; try discriminate K; [reflexivity|].
    cbn [map] in K. apply cons_eq in K as [K1 K2]. apply line_inj in K1. apply IH in K2. subst. reflexivity. }
  destruct (c_no_stats c), (c_no_stats c'); cbn [app] in E.
  - split; [reflexivity|]. split; [discriminate|]. exact (Y E).
  - exfalso. symmetry in E. exact (X _ _ _ _ E).
  - exfalso. exact (X _ _ _ _ E).
  - apply cons_eq in E as [A1 E]. apply cons_eq in E as [A2 E]. apply cons_eq in E as [A3 E]. apply app_inv_head in A1, A2, A3. apply str_Z_inj in A1, A2, A3.
    split; [reflexivity|]. split; [auto|]. exact (Y E).
Qed.
