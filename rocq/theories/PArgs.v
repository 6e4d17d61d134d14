(* PArgs.v -- lemmas on the words of the command line *)
From Coq Require Import String Ascii ZArith List Bool Lia.
From Verif Require Import PyBase MSet MText MQueue MDb MSolver MMain MProc MShare MCli SpecCli MArgs SpecArgs PLib.
Import ListNotations.
Open Scope Z_scope.

Lemma opt_eqb_eq a b : opt_eqb a b = true <-> a = b.
Proof. split; [|intros ->; destruct b; reflexivity]. destruct a, b; intros H; try discriminate H; reflexivity. Qed.
Lemma opt_eqb_refl a : opt_eqb a a = true.
Proof. apply opt_eqb_eq. reflexivity. Qed.
Lemma opt_dec (a b : opt) : {a = b} + {a <> b}.
Proof. decide equality. Qed.

(** the table *)
Definition flat_doc : list (text * opt) := flat_map (fun d => map (fun nm => (txt nm, fst (fst d))) (snd (fst d))) documented.
Lemma flat_doc_table : flat_doc = option_table.
Proof. reflexivity. Qed.
Lemma written_In s o : written s o <-> In (s, o) option_table.
Proof.
  rewrite <- flat_doc_table. unfold written, flat_doc. rewrite in_flat_map. split.
  - intros (names & n & D & nm & N & ->). exists (o, names, n). split; [exact D|]. cbn [fst snd]. apply in_map_iff. exists nm. split; [reflexivity|exact N].
  - intros ([[o' names] n] & D & I). cbn [fst snd] in I. apply in_map_iff in I as (nm & E & N).
    assert (o' = o) by (apply (f_equal snd) in E; exact E). apply (f_equal fst) in E. cbn [fst] in E. subst. exists names, n. split; [exact D|]. exists nm. auto.
Qed.
Lemma takes_arity o n : takes o n <-> n = arity o.
Proof.
  split.
  - intros (names & D).
    assert (A : forallb (fun d => Nat.eqb (snd d) (arity (fst (fst d)))) documented = true) by (vm_compute; reflexivity).
    rewrite forallb_forall in A. specialize (A _ D). apply Nat.eqb_eq in A. exact A.
  - intros ->.
    assert (A : existsb (fun d => opt_eqb (fst (fst d)) o && Nat.eqb (snd d) (arity o)) documented = true) by (destruct o; vm_compute; reflexivity).
    apply existsb_exists in A as ([[o' names] n] & D & A). apply andb_true_iff in A as (A & B). apply opt_eqb_eq in A. apply Nat.eqb_eq in B.
    cbn [fst snd] in A, B. subst. exists names. exact D.
Qed.
Fixpoint nodupb (l : list text) : bool :=
  match l with [] => true | x :: t => negb (existsb (text_eqb x) t) && nodupb t end.
Lemma nodupb_NoDup l : nodupb l = true -> NoDup l.
Proof.
  induction l as [|x t IH]; intros H; [constructor|]. cbn [nodupb] in H. apply andb_true_iff in H as (A & B). constructor; [|auto].
  intros I. apply negb_true_iff in A. assert (existsb (text_eqb x) t = true); [|congruence]. apply existsb_exists. exists x. split; [exact I|]. apply text_eqb_eq. reflexivity.
Qed.
Lemma table_names : NoDup (map fst option_table).
Proof. apply nodupb_NoDup. vm_compute. reflexivity. Qed.
Lemma NoDup_fst {A B} (l : list (A * B)) : NoDup (map fst l) -> NoDup l.
Proof. induction l as [|x t IH]; intros H; [constructor|]. inversion H; subst. constructor; [|auto]. intros I. apply H2. apply in_map. exact I. Qed.
Lemma table_NoDup : NoDup option_table.
Proof. apply NoDup_fst, table_names. Qed.
Lemma find_option_In w l o : NoDup (map fst l) -> (find_option w l = Some o <-> In (w, o) l).
Proof.
  induction l as [|[s o'] t IH]; cbn [find_option map fst In]; intros N.
  - split; [discriminate|tauto].
  - inversion N as [|? ? N1 N2]; subst. destruct (text_eqb s w) eqn:E.
    + apply text_eqb_eq in E. subst. split.
      * intros E. apply (f_equal (fun x => match x with Some y => y | None => o end)) in E. left. subst. reflexivity.
      * intros [E|I]; [apply (f_equal snd) in E; cbn [snd] in E; subst; reflexivity|]. exfalso. apply N1. apply (in_map fst) in I. exact I.
    + rewrite IH by exact N2. split; [auto|]. intros [K|I]; [|exact I]. apply (f_equal fst) in K. cbn [fst] in K. subst.
      assert (text_eqb w w = true) by (apply text_eqb_eq; reflexivity). congruence.
Qed.
Lemma lookup_written w o : lookup w = Some o <-> written w o.
Proof. rewrite written_In. apply find_option_In. exact table_names. Qed.
Lemma lookup_none w : lookup w = None <-> ~ an_option w.
Proof.
  split.
  - intros H (o & K). apply lookup_written in K. congruence.
  - intros H. destruct (lookup w) as [o|] eqn:E; [|reflexivity]. exfalso. apply H. exists o. apply lookup_written. exact E.
Qed.
Lemma written_fun s o o' : written s o -> written s o' -> o = o'.
Proof. intros A B. apply lookup_written in A, B. congruence. Qed.

(* forms of the option strings *)
Definition wellformed (s : text) : bool :=
  match s with
  | c :: d :: r => is_dash c && negb (Ascii.eqb d "="%char) && (negb (is_dash d) || match r with [] => false | _ => true end)
                   && forallb (fun x => negb (Ascii.eqb x "="%char)) r
  | _ => false
  end.
Lemma option_form s : an_option s ->
  exists d r, s = "-"%char :: d :: r /\ ~ In "="%char s /\ (d = "-"%char -> r <> []).
Proof.
  intros (o & W). apply written_In in W.
  assert (A : forallb (fun so => wellformed (fst so)) option_table = true) by (vm_compute; reflexivity).
  rewrite forallb_forall in A. specialize (A _ W). cbn [fst] in A. destruct s as [|c [|d r]]; try discriminate. unfold wellformed in A.
  apply andb_true_iff in A as (A & D). apply andb_true_iff in A as (A & C). apply andb_true_iff in A as (A & B).
  apply Ascii.eqb_eq in A. subst. exists d, r. split; [reflexivity|]. split.
  - intros [K|[K|K]]; [discriminate K|subst; discriminate B|]. rewrite forallb_forall in D. specialize (D _ K). discriminate D.
  - intros -> ->. discriminate C.
Qed.
Lemma letter_arity c o : written ["-"%char; c] o -> arity o <> 2%nat.
Proof.
  intros W. apply written_In in W.
  assert (A : forallb (fun so => negb (Nat.eqb (List.length (fst so)) 2 && Nat.eqb (arity (snd so)) 2)) option_table = true) by (vm_compute; reflexivity).
  rewrite forallb_forall in A. specialize (A _ W). cbn [fst snd List.length Nat.eqb andb] in A. intros E. rewrite E in A. discriminate A.
Qed.
Lemma arity_cases o : arity o = 0%nat \/ arity o = 1%nat \/ arity o = 2%nat.
Proof. destruct o; cbn; auto. Qed.

(** texts *)
Lemma starts_begins p s : starts_with p s = true <-> begins p s.
Proof.
  split.
  - revert s. induction p as [|x p IH]; intros s H; [exists s; reflexivity|]. destruct s as [|y s]; [discriminate|]. cbn [starts_with] in H.
    apply andb_true_iff in H as (A & B). apply Ascii.eqb_eq in A. subst. apply IH in B as (r & ->). exists r. reflexivity.
  - intros (r & ->). induction p as [|x p IH]; [reflexivity|]. cbn [app starts_with]. rewrite Ascii.eqb_refl. exact IH.
Qed.
Lemma partition_some w a b : partition_eq w = Some (a, b) <-> w = a ++ "="%char :: b /\ ~ In "="%char a.
Proof.
  split.
  - revert a b. induction w as [|c t IH]; intros a b H; [discriminate|]. cbn [partition_eq] in H. destruct (Ascii.eqb c "="%char) eqn:E.
    + apply Ascii.eqb_eq in E. injection H as <- <-. subst. split; [reflexivity|intros []].
    + destruct (partition_eq t) as [[a' b']|]; [|discriminate]. injection H as <- <-. destruct (IH _ _ eq_refl) as (-> & N).
      split; [reflexivity|]. intros [K|K]; [|auto]. subst. discriminate E.
  - intros (-> & N). induction a as [|c t IH]; [reflexivity|]. cbn [app partition_eq]. destruct (Ascii.eqb c "="%char) eqn:E.
    + apply Ascii.eqb_eq in E. subst. exfalso. apply N. left. reflexivity.
    + rewrite IH; [reflexivity|]. intros K. apply N. right. exact K.
Qed.
Lemma partition_none w : partition_eq w = None <-> ~ In "="%char w.
Proof.
  induction w as [|c t IH]; [split; [intros _ []|reflexivity]|]. cbn [partition_eq]. destruct (Ascii.eqb c "="%char) eqn:E.
  - apply Ascii.eqb_eq in E. subst. split; [discriminate|]. intros K. exfalso. apply K. left. reflexivity.
  - destruct (partition_eq t) as [[a b]|].
    + split; [discriminate|]. intros K. destruct IH as (_ & IH). assert (~ In "="%char t) by (intros I; apply K; right; exact I). specialize (IH H). discriminate IH.
    + split; [|reflexivity]. intros _ [K|K]; [subst; discriminate E|]. apply IH in K; auto.
Qed.
Lemma begins_no_eq p s : an_option s -> begins p s -> ~ In "="%char p.
Proof. intros A (r & E). apply option_form in A as (d & r' & _ & N & _). intros I. apply N. rewrite E. apply in_or_app. auto. Qed.
Lemma filter_single {A} (f : A -> bool) (l : list A) x : NoDup l ->
  (filter f l = [x] <-> In x l /\ f x = true /\ forall y, In y l -> f y = true -> y = x).
Proof.
  intros N. split.
  - intros E. assert (I : In x (filter f l)) by (rewrite E; left; reflexivity). apply filter_In in I as (I & F). split; [exact I|]. split; [exact F|].
    intros y J G. assert (K : In y (filter f l)) by (apply filter_In; auto). rewrite E in K. destruct K as [K|[]]. auto.
  - intros (I & F & U). assert (K : In x (filter f l)) by (apply filter_In; auto). pose proof (NoDup_filter f N) as M.
    destruct (filter f l) as [|y t] eqn:E; [destruct K|].
    assert (V : forall z, In z (y :: t) -> z = x) by (intros z J; rewrite <- E in J; apply filter_In in J as (J & G); auto).
    assert (y = x) by (apply V; left; reflexivity). subst. destruct t as [|z t]; [reflexivity|]. exfalso.
    assert (z = x) by (apply V; right; left; reflexivity). subst. inversion M; subst. apply H1. left. reflexivity.
Qed.
Lemma filter_none {A} (f : A -> bool) (l : list A) : filter f l = [] <-> forall y, In y l -> f y = false.
Proof.
  split.
  - intros E y I. destruct (f y) eqn:F; [|reflexivity]. assert (K : In y (filter f l)) by (apply filter_In; auto). rewrite E in K. destruct K.
  - intros H. induction l as [|x t IH]; [reflexivity|]. cbn [filter]. rewrite (H x) by (left; reflexivity). apply IH. intros y I. apply H. right. exact I.
Qed.
Lemma an_option_In s : an_option s <-> exists o, In (s, o) option_table.
Proof. split; intros (o & H); exists o; apply written_In; exact H. Qed.

(** letters *)
Lemma letter_char c o : written ["-"%char; c] o -> c <> "-"%char /\ c <> "="%char.
Proof.
  intros W. destruct (option_form _ (ex_intro _ _ W)) as (d & r & E & N & M). injection E as <- <-. split.
  - intros K. exact (M K eq_refl).
  - intros ->. apply N. right. left. reflexivity.
Qed.
Lemma letters_head t fs o e : letters t fs o e -> exists c t', t = c :: t' /\ c <> "-"%char /\ c <> "="%char.
Proof. intros H. destruct H as [c o W|c o x v W T X|c o v W T|c o t fs o' e W T L]; destruct (letter_char _ _ W); eauto. Qed.
Definition outcome_of (fs : list opt) (o : opt) (e : option text) : consumed := match e with None => CNext fs o | Some v => CValue fs o v end.
Lemma letters_cluster t gs o' e : letters t gs o' e -> forall fs o, cluster fs o t = outcome_of (fs ++ o :: gs) o' e.
Proof.
  induction 1 as [c o W|c o x v W T X|c o v W T|c o t fs o' e W T L IH]; intros fs0 o0; cbn [cluster].
  all: destruct (letter_char _ _ W) as (N1 & N2).
  all: assert (D : is_dash c = false) by (unfold is_dash; destruct (Ascii.eqb_spec c "-"%char); congruence); rewrite D.
  all: pose proof (proj2 (lookup_written _ _) W) as LW; rewrite LW.
  - reflexivity.
  - apply takes_arity in T. rewrite <- T. destruct (Ascii.eqb_spec x "="%char); [congruence|]. reflexivity.
  - apply takes_arity in T. rewrite <- T. reflexivity.
  - destruct (letters_head _ _ _ _ L) as (c' & t' & -> & N3 & N4). apply takes_arity in T. rewrite <- T.
    destruct (Ascii.eqb_spec c' "="%char); [congruence|]. rewrite IH, <- app_assoc. reflexivity.
Qed.
Lemma cluster_letters t : forall fs o fs' o' e, cluster fs o t = outcome_of fs' o' e -> exists gs, fs' = fs ++ o :: gs /\ letters t gs o' e.
Proof.
  induction t as [|c t IH]; intros fs o fs' o' e H; [destruct e; discriminate H|]. cbn [cluster] in H.
  destruct (is_dash c); [destruct e; discriminate H|]. destruct (lookup ["-"%char; c]) as [o1|] eqn:L; [|destruct e; discriminate H].
  apply lookup_written in L. destruct t as [|e0 t].
  - destruct e as [v|]; [discriminate H|]. injection H as <- <-. exists []. split; [reflexivity|]. constructor. exact L.
  - destruct (arity_cases o1) as [A|[A|A]]; rewrite A in H.
    + destruct (Ascii.eqb e0 "="%char) eqn:Q; [destruct e; discriminate H|]. apply IH in H as (gs & -> & G). exists (o1 :: gs).
      split; [rewrite <- app_assoc; reflexivity|]. constructor; [exact L|apply takes_arity; auto|exact G].
    + destruct e as [v|]; [|discriminate H]. injection H as <- <- <-. exists []. split; [reflexivity|].
      destruct (Ascii.eqb_spec e0 "="%char) as [->|Q].
      * constructor; [exact L|apply takes_arity; auto].
      * constructor; [exact L|apply takes_arity; auto|exact Q].
    + exfalso. exact (letter_arity _ _ L A).
Qed.

(** one word *)
Definition split_word (w : text) : text * option (bool * text) :=
  match partition_eq w with Some (p, v) => (p, Some (true, v)) | None => (w, None) end.
Lemma tuples_two w : second_dash w = true ->
  option_tuples w = map (fun so => (so, snd (split_word w))) (filter (fun so => starts_with (fst (split_word w)) (fst so)) option_table).
Proof. intros H. unfold option_tuples, split_word. rewrite H. destruct (partition_eq w) as [[p v]|]; reflexivity. Qed.
Lemma map_single {A B} (f : A -> B) l y : map f l = [y] -> exists x, l = [x] /\ y = f x.
Proof. destruct l as [|x [|z t]]; intros H; try discriminate H. injection H as <-. exists x. auto. Qed.
Lemma second_dash_begins w : second_dash w = true -> begins (txt "-") w -> begins (txt "--") w.
Proof.
  intros H (r & ->). change (txt "-" ++ r) with ("-"%char :: r) in *. destruct r as [|c r]; [discriminate|]. unfold second_dash in H. apply Ascii.eqb_eq in H. subst.
  exists r. reflexivity.
Qed.
Lemma begins_second w : begins (txt "--") w -> second_dash w = true.
Proof. intros (r & ->). reflexivity. Qed.
Lemma no_two_dashes : ~ an_option (txt "--").
Proof. apply lookup_none. vm_compute. reflexivity. Qed.

Lemma consume_joined o two v fs o' ev : consume_word o two (Some (true, v)) = outcome_of fs o' ev -> arity o = 1%nat /\ fs = [] /\ o' = o /\ ev = Some v.
Proof.
  unfold consume_word. destruct (arity_cases o) as [A|[A|A]]; rewrite A.
  - rewrite orb_true_r. destruct ev; discriminate.
  - destruct ev as [u|]; [|discriminate]. intros E. injection E as <- <- <-. auto.
  - destruct ev; discriminate.
Qed.
Lemma consume_plain o two fs o' ev : consume_word o two None = outcome_of fs o' ev -> fs = [] /\ o' = o /\ ev = None.
Proof. unfold consume_word. destruct ev as [u|]; [discriminate|]. intros E. injection E as <- <-. auto. Qed.
Lemma unique_string p s o : In (s, o) option_table ->
  (forall y, In y option_table -> starts_with p (fst y) = true -> y = (s, o)) ->
  forall s', an_option s' -> begins p s' -> s' = s.
Proof. intros I U s' A B. apply an_option_In in A as (o1 & A). apply starts_begins in B. specialize (U _ A B). apply (f_equal fst) in U. exact U. Qed.

Lemma says_sound w o two e fs o' ev : classify w = Opt o two e -> consume_word o two e = outcome_of fs o' ev -> says w fs o' ev.
Proof.
  unfold classify. destruct w as [|c t]; [discriminate|]. destruct (is_dash c) eqn:Dc; cbn [negb]; [|discriminate].
  apply Ascii.eqb_eq in Dc. subst c. destruct (lookup ("-"%char :: t)) as [o0|] eqn:L0.
  { intros E C. injection E as <- <- <-. apply consume_plain in C as (-> & -> & ->). constructor. apply lookup_written. exact L0. }
  destruct t as [|d t]; [discriminate|].
  set (w := "-"%char :: d :: t) in *.
  destruct (match partition_eq w with Some (s, v) => option_map (fun o => Opt o (second_dash s) (Some (true, v))) (lookup s) | None => None end) as [cl|] eqn:P.
  { destruct (partition_eq w) as [[s v]|] eqn:Q; [|discriminate]. destruct (lookup s) as [o0|] eqn:L; [|discriminate]. cbn [option_map] in P. intros E C.
    assert (E' : Opt o0 (second_dash s) (Some (true, v)) = Opt o two e) by congruence. injection E' as <- <- <-. clear E P.
    apply consume_joined in C as (A & -> & -> & ->). apply partition_some in Q as (-> & _). constructor; [apply lookup_written; exact L|apply takes_arity; auto]. }
  destruct (option_tuples w) as [|[[s o1] e1] [|? ?]] eqn:T; [destruct (negative_number w); [discriminate|]; destruct (existsb _ w); discriminate| |discriminate].
  intros E C. injection E as <- <- <-. assert (NW : ~ an_option w) by (apply lookup_none; exact L0).
  destruct (second_dash w) eqn:SD.
  - rewrite tuples_two in T by exact SD. apply map_single in T as ([s' o''] & T & E). injection E as <- <- ->.
    apply filter_single in T as (I & F & U); [|exact table_NoDup]. cbn [fst snd] in *. unfold split_word in *.
    assert (BW : begins (txt "--") w) by (apply second_dash_begins; [exact SD|exists (d :: t); reflexivity]).
    destruct (partition_eq w) as [[p v]|] eqn:Q; cbn [fst snd] in *.
    + apply consume_joined in C as (A & -> & -> & ->). apply partition_some in Q as (EW & NE). 
      assert (BP : begins (txt "--") p).
      { destruct BW as (r & BW). rewrite EW in BW. destruct p as [|x [|y p]]; [discriminate BW|discriminate BW|]. injection BW as -> -> _. exists p. reflexivity. }
      rewrite EW. apply says_abbreviated_equals; [exact BP| |apply takes_arity; auto].
      exists s. split; [apply written_In; exact I|]. split; [apply starts_begins; exact F|]. split; [eapply unique_string; eauto|].
      destruct BP as (r & ->). exists "-"%char, "-"%char, r. split; [reflexivity|exact no_two_dashes].
    + apply consume_plain in C as (-> & -> & ->). apply says_abbreviated.
      exists s. split; [apply written_In; exact I|]. split; [apply starts_begins; exact F|]. split; [eapply unique_string; eauto|].
      destruct BW as (r & ->). exists "-"%char, "-"%char, r. split; [reflexivity|exact no_two_dashes].
  - unfold option_tuples in T. rewrite SD in T. apply map_single in T as ([s' o''] & T & E). cbn [fst snd] in E.
    assert (ES : s = s' /\ o1 = o'' /\ e1 = if text_eqb s' (firstn 2 w) then Some (false, skipn 2 w) else None).
    { split; [|split]; [exact (f_equal (fun x => fst (fst x)) E)|exact (f_equal (fun x => snd (fst x)) E)|exact (f_equal snd E)]. }
    destruct ES as (-> & -> & ->). clear E.
    apply filter_single in T as (I & F & U); [|exact table_NoDup]. cbn [fst] in F. change (firstn 2 w) with ["-"%char; d] in *. change (skipn 2 w) with t in *.
    destruct (text_eqb s' ["-"%char; d]) eqn:X.
    + apply text_eqb_eq in X. subst s'. change (second_dash ["-"%char; d]) with (is_dash d) in C. change (second_dash w) with (is_dash d) in SD. rewrite SD in C.
      assert (W : written ["-"%char; d] o'') by (apply written_In; exact I).
      assert (NB : forall s, an_option s -> ~ begins w s).
      { intros s A B. apply an_option_In in A as (o1 & A). apply starts_begins in B. assert (K : (s, o1) = (["-"%char; d], o'')).
        { apply U; [exact A|]. cbn [fst]. rewrite B. apply orb_true_r. }
        apply (f_equal fst) in K. cbn [fst] in K. subst s. apply starts_begins in B as (r & B). unfold w in B. destruct t; [|discriminate B].
        apply NW. exists o''. exact W. }
      assert (NE : forall s v, an_option s -> w <> s ++ "="%char :: v).
      { intros s v A EW. destruct (option_form _ A) as (_ & _ & _ & N & _). assert (Q : partition_eq w = Some (s, v)) by (apply partition_some; auto).
        rewrite Q in P. destruct A as (o1 & A). apply lookup_written in A. rewrite A in P. discriminate P. }
      assert (G : forall fs o' ev, letters (d :: t) fs o' ev -> says w fs o' ev).
      { intros fs0 o0 ev0 K. apply says_letters; [exact K|exact NB|]. intros s v A _. apply NE. exact A. }
      unfold consume_word in C. destruct (arity_cases o'') as [A|[A|A]]; rewrite A in C.
      * cbn [orb] in C. apply cluster_letters in C as (gs & -> & K). apply G. constructor; [exact W|apply takes_arity; auto|exact K].
      * destruct ev as [u|]; [|discriminate C]. injection C as <- <- <-. apply G. destruct t as [|x t].
        { exfalso. apply NW. exists o''. exact W. }
        constructor; [exact W|apply takes_arity; auto|]. intros ->. apply (NE ["-"%char; d] t); [exists o''; exact W|reflexivity].
      * exfalso. exact (letter_arity _ _ W A).
    + cbn [orb] in F. apply consume_plain in C as (-> & -> & ->). apply says_abbreviated. exists s'. split; [apply written_In; exact I|].
      split; [apply starts_begins; exact F|]. split.
      * eapply unique_string; [exact I|]. intros y J S. apply U; [exact J|]. rewrite S. apply orb_true_r.
      * exists "-"%char, d, t. split; [reflexivity|]. intros A. apply an_option_In in A as (o1 & A). assert (K : (["-"%char; d], o1) = (s', o'')).
        { apply U; [exact A|]. cbn [fst]. assert (Z : text_eqb ["-"%char; d] ["-"%char; d] = true) by (apply text_eqb_eq; reflexivity). rewrite Z. reflexivity. }
        apply (f_equal fst) in K. cbn [fst] in K. subst s'. assert (Z : text_eqb ["-"%char; d] ["-"%char; d] = true) by (apply text_eqb_eq; reflexivity). congruence.
Qed.

Lemma classify_exact w o : written w o -> classify w = Opt o (second_dash w) None.
Proof.
  intros W. destruct (option_form _ (ex_intro _ _ W)) as (d & r & E & _). apply lookup_written in W. unfold classify. rewrite E. change (is_dash "-"%char) with true. cbn [negb].
  rewrite <- E, W. reflexivity.
Qed.
Lemma lookup_eq s v : lookup (s ++ "="%char :: v) = None.
Proof. apply lookup_none. intros A. destruct (option_form _ A) as (_ & _ & _ & N & _). apply N. apply in_or_app. right. left. reflexivity. Qed.
Lemma classify_equals s o v : written s o -> classify (s ++ "="%char :: v) = Opt o (second_dash s) (Some (true, v)).
Proof.
  intros W. destruct (option_form _ (ex_intro _ _ W)) as (d & r & E & N & _). assert (Q : partition_eq (s ++ "="%char :: v) = Some (s, v)) by (apply partition_some; auto).
  pose proof (lookup_eq s v) as L. apply lookup_written in W. unfold classify. rewrite E in *. cbn [app] in *. change (is_dash "-"%char) with true. cbn [negb].
  rewrite L, Q, W. reflexivity.
Qed.
Lemma classify_tuples d t : ~ an_option ("-"%char :: d :: t) -> (forall s v, an_option s -> "-"%char :: d :: t <> s ++ "="%char :: v) ->
  classify ("-"%char :: d :: t) =
  match option_tuples ("-"%char :: d :: t) with
  | [(s, o, e)] => Opt o (second_dash s) e
  | _ :: _ => Ambiguous
  | [] => if negative_number ("-"%char :: d :: t) then Arg else if existsb (Ascii.eqb " "%char) ("-"%char :: d :: t) then Arg else NoOpt
  end.
Proof.
  intros A B. apply lookup_none in A. unfold classify. change (is_dash "-"%char) with true. cbn [negb]. rewrite A.
  destruct (partition_eq ("-"%char :: d :: t)) as [[s v]|] eqn:Q; [|reflexivity]. destruct (lookup s) as [o|] eqn:L; [|reflexivity]. exfalso.
  apply partition_some in Q as (Q & _). apply (B s v); [exists o; apply lookup_written; exact L|exact Q].
Qed.
Lemma option_begins s : an_option s -> exists d r, s = "-"%char :: d :: r.
Proof. intros A. destruct (option_form _ A) as (d & r & E & _). eauto. Qed.
Lemma an_option_dec s : an_option s \/ ~ an_option s.
Proof. destruct (lookup s) as [o|] eqn:L; [left; exists o; apply lookup_written; exact L|right; apply lookup_none; exact L]. Qed.
Lemma text_eqb_refl (s : text) : text_eqb s s = true.
Proof. apply text_eqb_eq. reflexivity. Qed.
Lemma unique_entry p s o : written s o -> (forall s', an_option s' -> begins p s' -> s' = s) ->
  forall y, In y option_table -> starts_with p (fst y) = true -> y = (s, o).
Proof.
  intros W U [s' o'] I B. cbn [fst] in B. apply starts_begins in B. assert (s' = s) by (apply U; [apply an_option_In; eauto|exact B]). subst s'.
  f_equal. apply written_In in I. exact (written_fun _ _ _ I W).
Qed.

Lemma says_complete w fs o' ev : says w fs o' ev ->
  w <> txt "--" /\ exists o two e, classify w = Opt o two e /\ consume_word o two e = outcome_of fs o' ev.
Proof.
  intros H. destruct H as [s o W|s o v W T|p o AB|p o v BD AB T|t fs o e L NB NE].
  - split; [intros ->; apply no_two_dashes; exists o; exact W|]. exists o, (second_dash s), None. split; [apply classify_exact; exact W|reflexivity].
  - split.
    { intros E. destruct (option_begins _ (ex_intro _ _ W)) as (d & r & ->). discriminate E || (cbn [app] in E; injection E as -> E; destruct r; discriminate E). }
    exists o, (second_dash s), (Some (true, v)). split; [apply classify_equals; exact W|]. apply takes_arity in T. unfold consume_word. rewrite <- T. reflexivity.
  - destruct AB as (s & W & B & U & c & d & r & E & ND). assert (A : an_option s) by (exists o; exact W).
    assert (NP : ~ In "="%char p) by (eapply begins_no_eq; eauto).
    assert (c = "-"%char). { destruct (option_begins _ A) as (d' & r' & ->). destruct B as (q & B). rewrite E in B. injection B as -> _. reflexivity. } subst c.
    assert (ND2 : p <> txt "--").
    { intros ->. assert (K : txt "--help" = txt "--quiet"); [|discriminate K]. rewrite (U (txt "--help")), (U (txt "--quiet")); [reflexivity| | | |].
      all: try (exists (txt "quiet"); reflexivity); try (exists (txt "help"); reflexivity).
      - exists Oq. apply lookup_written. vm_compute. reflexivity.
      - exists Ohelp. apply lookup_written. vm_compute. reflexivity. }
    split; [exact ND2|]. destruct (an_option_dec p) as [AP|AP].
    { assert (K : p = s) by (apply U; [exact AP|exists []; rewrite app_nil_r; reflexivity]). rewrite K. exists o, (second_dash s), None. split; [apply classify_exact; exact W|reflexivity]. }
    exists o, (second_dash s), None. split; [|reflexivity]. subst p. rewrite classify_tuples; [|exact AP|].
    2:{ intros s1 v _ K. apply NP. rewrite K. apply in_or_app. right. left. reflexivity. }
    assert (TU : option_tuples ("-"%char :: d :: r) = [(s, o, None)]).
    { destruct (second_dash ("-"%char :: d :: r)) eqn:SD.
      - rewrite tuples_two by exact SD. unfold split_word. apply partition_none in NP. rewrite NP. cbn [fst snd].
        assert (F : filter (fun so => starts_with ("-"%char :: d :: r) (fst so)) option_table = [(s, o)]).
        { apply filter_single; [exact table_NoDup|]. split; [apply written_In; exact W|]. split; [apply starts_begins; exact B|]. apply unique_entry; assumption. }
        rewrite F. reflexivity.
      - unfold option_tuples. rewrite SD. change (firstn 2 ("-"%char :: d :: r)) with ["-"%char; d].
        assert (NT : forall s' o', In (s', o') option_table -> text_eqb s' ["-"%char; d] = false).
        { intros s' o' I. destruct (text_eqb s' ["-"%char; d]) eqn:X; [|reflexivity]. apply text_eqb_eq in X. subst s'. exfalso. apply ND. apply an_option_In. eauto. }
        assert (F : filter (fun so => text_eqb (fst so) ["-"%char; d] || starts_with ("-"%char :: d :: r) (fst so)) option_table = [(s, o)]).
        { apply filter_single; [exact table_NoDup|]. split; [apply written_In; exact W|]. split.
          - cbn [fst]. apply starts_begins in B. rewrite B. apply orb_true_r.
          - intros [s' o'] I G. cbn [fst] in G. rewrite (NT _ _ I) in G. cbn [orb] in G. revert G. apply (unique_entry _ _ _ W U (s', o')). exact I. }
        rewrite F. cbn [map fst]. rewrite (NT s o) by (apply written_In; exact W). reflexivity. }
    rewrite TU. reflexivity.
  - destruct AB as (s & W & B & U & c & d & r & E & ND). assert (A : an_option s) by (exists o; exact W).
    assert (NP : ~ In "="%char p) by (eapply begins_no_eq; eauto). destruct BD as (q & ->).
    apply takes_arity in T. split.
    { change (txt "--" ++ q) with ("-"%char :: "-"%char :: q). intros K. cbn [app] in K. injection K as K. destruct q; discriminate K. }
    assert (CW : forall two, consume_word o two (Some (true, v)) = outcome_of [] o (Some v)) by (intros two; unfold consume_word; rewrite <- T; reflexivity).
    destruct (an_option_dec (txt "--" ++ q)) as [AP|AP].
    { assert (K : txt "--" ++ q = s) by (apply U; [exact AP|exists []; rewrite app_nil_r; reflexivity]). rewrite K. exists o, (second_dash s), (Some (true, v)).
      split; [apply classify_equals; exact W|apply CW]. }
    exists o, (second_dash s), (Some (true, v)). split; [|apply CW].
    assert (Q : partition_eq ((txt "--" ++ q) ++ "="%char :: v) = Some (txt "--" ++ q, v)) by (apply partition_some; auto).
    assert (NW : ~ an_option ((txt "--" ++ q) ++ "="%char :: v)) by (apply lookup_none, lookup_eq).
    assert (NE : forall s1 v1, an_option s1 -> (txt "--" ++ q) ++ "="%char :: v <> s1 ++ "="%char :: v1).
    { intros s1 v1 A1 K. destruct (option_form _ A1) as (_ & _ & _ & N1 & _). rewrite K in Q. assert (Q1 : partition_eq (s1 ++ "="%char :: v1) = Some (s1, v1)) by (apply partition_some; auto).
      rewrite Q1 in Q. apply (f_equal (fun x => match x with Some y => fst y | None => [] end)) in Q. cbn [fst] in Q. subst s1. contradiction. }
    change ((txt "--" ++ q) ++ "="%char :: v) with ("-"%char :: "-"%char :: q ++ "="%char :: v) in *. rewrite classify_tuples; [|exact NW|exact NE].
    rewrite tuples_two by reflexivity. unfold split_word. rewrite Q. cbn [fst snd].
    assert (F : filter (fun so => starts_with (txt "--" ++ q) (fst so)) option_table = [(s, o)]).
    { apply filter_single; [exact table_NoDup|]. split; [apply written_In; exact W|]. split; [apply starts_begins; exact B|]. apply unique_entry; assumption. }
    rewrite F. reflexivity.
  - destruct (letters_head _ _ _ _ L) as (d & t' & -> & N1 & N2).
    assert (ND2 : "-"%char :: d :: t' <> txt "--") by (intros K; injection K as -> _; congruence). split; [exact ND2|].
    assert (NW : ~ an_option ("-"%char :: d :: t')) by (intros A; apply (NB _ A); exists []; rewrite app_nil_r; reflexivity).
    assert (HD : exists o1, written ["-"%char; d] o1 /\ (exists x y, t' = x :: y) /\
       consume_word o1 false (Some (false, t')) = outcome_of fs o e /\ (forall v, t' <> "="%char :: v) \/
       (written ["-"%char; d] o1 /\ exists v, t' = "="%char :: v /\ arity o1 = 1%nat /\ fs = [] /\ o = o1 /\ e = Some v)).
    { inversion L as [c o1 W|c o1 x v W T X|c o1 v W T|c o1 t1 fs1 o2 e1 W T L1]; subst.
      - exfalso. apply NW. exists o. exact W.
      - exists o. left. split; [exact W|]. split; [eauto|]. apply takes_arity in T. split; [unfold consume_word; rewrite <- T; reflexivity|].
        intros v0 K. injection K as -> ->. congruence.
      - exists o. right. apply takes_arity in T. split; [exact W|]. exists v. auto.
      - exists o1. left. destruct (letters_head _ _ _ _ L1) as (c1 & t1 & -> & N3 & N4). apply takes_arity in T. split; [exact W|]. split; [eauto|].
        split; [unfold consume_word; rewrite <- T; cbn [orb]; rewrite (letters_cluster _ _ _ _ L1 [] o1); reflexivity|]. intros v K. injection K as -> ->. congruence. }
    destruct HD as (o1 & [(W & (x & y & ->) & CW & NQ)|(W & v & -> & A1 & -> & -> & ->)]).
    + exists o1, false, (Some (false, x :: y)). split; [|exact CW].
      assert (NE2 : forall s v, an_option s -> "-"%char :: d :: x :: y <> s ++ "="%char :: v).
      { intros s v A K. destruct (option_begins _ A) as (d1 & r1 & ->). destruct r1 as [|z r1].
        - apply (NQ v). injection K as _ K1 K2. subst. reflexivity.
        - apply (NE _ v A); [cbn [List.length]; lia|exact K]. }
      rewrite classify_tuples; [|exact NW|exact NE2].
      assert (SD : second_dash ("-"%char :: d :: x :: y) = false) by (unfold second_dash, is_dash; destruct (Ascii.eqb_spec d "-"%char); congruence).
      unfold option_tuples. rewrite SD. change (firstn 2 ("-"%char :: d :: x :: y)) with ["-"%char; d]. change (skipn 2 ("-"%char :: d :: x :: y)) with (x :: y).
      assert (F : filter (fun so => text_eqb (fst so) ["-"%char; d] || starts_with ("-"%char :: d :: x :: y) (fst so)) option_table = [(["-"%char; d], o1)]).
      { apply filter_single; [exact table_NoDup|]. split; [apply written_In; exact W|]. split; [cbn [fst]; rewrite text_eqb_refl; reflexivity|].
        intros [s' o'] I G. cbn [fst] in G. apply orb_true_iff in G as [G|G].
        - apply text_eqb_eq in G. subst s'. f_equal. apply written_In in I. exact (written_fun _ _ _ I W).
        - exfalso. apply (NB s'); [apply an_option_In; eauto|apply starts_begins; exact G]. }
      rewrite F. cbn [map fst]. rewrite text_eqb_refl. unfold second_dash, is_dash. destruct (Ascii.eqb_spec d "-"%char); [congruence|]. reflexivity.
    + exists o1, (second_dash ["-"%char; d]), (Some (true, v)). split; [exact (classify_equals _ _ v W)|]. unfold consume_word. rewrite A1. reflexivity.
Qed.

(** values *)
Lemma dec_digit_In c : dec_digit c = true <-> In c (txt "0123456789").
Proof.
  unfold dec_digit. split.
  - destruct (digit_val c) as [n|] eqn:E; [|discriminate]. intros _. destruct c as [[] [] [] [] [] [] [] []]; vm_compute in E; try discriminate E; vm_compute; tauto.
  - intros H. change (txt "0123456789") with ["0"; "1"; "2"; "3"; "4"; "5"; "6"; "7"; "8"; "9"]%char in H.
    repeat (destruct H as [<-|H]; [reflexivity|]). destruct H.
Qed.
Lemma forallb_digits t : forallb dec_digit t = true <-> digits t.
Proof.
  rewrite forallb_forall. unfold digits. rewrite Forall_forall. split; intros H c I.
  - apply dec_digit_In. auto.
  - apply dec_digit_In. apply H. exact I.
Qed.
Lemma some_digits_spec t : some_digits t = true <-> digits t /\ t <> [].
Proof.
  destruct t as [|c t]; cbn [some_digits].
  - split; [discriminate|intros (_ & H); congruence].
  - pose proof (forallb_digits (c :: t)) as F. split; [intros H; split; [apply F; exact H|discriminate]|intros (H & _); apply F; exact H].
Qed.
Lemma skip_digits_spec t d b : skip_digits t = d :: b -> exists a, t = a ++ d :: b /\ digits a.
Proof.
  induction t as [|c t IH]; cbn [skip_digits]; [discriminate|]. destruct (dec_digit c) eqn:D.
  - intros H. apply IH in H as (a & -> & F). exists (c :: a). split; [reflexivity|]. constructor; [apply dec_digit_In; exact D|exact F].
  - intros H. exists []. split; [exact H|constructor].
Qed.
Lemma skip_digits_app a d b : digits a -> dec_digit d = false -> skip_digits (a ++ d :: b) = d :: b.
Proof. induction 1 as [|c a C F IH]; intros D; cbn [app skip_digits]; [rewrite D; reflexivity|]. apply dec_digit_In in C. rewrite C. auto. Qed.
Lemma chop_split w : exists nl, w = chop_newline w ++ nl /\ (nl = [] \/ nl = [newline]).
Proof.
  unfold chop_newline. destruct (rev w) as [|c r] eqn:E; [exists []; rewrite app_nil_r; auto|].
  destruct (Ascii.eqb_spec c newline) as [->|N]; [|exists []; rewrite app_nil_r; auto].
  exists [newline]. split; [|auto]. rewrite <- (rev_involutive w), E. reflexivity.
Qed.
Lemma chop_last w c : c <> newline -> chop_newline (w ++ [c]) = w ++ [c] /\ chop_newline ((w ++ [c]) ++ [newline]) = w ++ [c].
Proof.
  intros N. unfold chop_newline. rewrite !rev_app_distr. cbn [rev app]. split.
  - destruct (Ascii.eqb_spec c newline); [congruence|reflexivity].
  - rewrite Ascii.eqb_refl. cbn [rev]. rewrite rev_involutive. reflexivity.
Qed.
Lemma digits_last t : digits t -> t <> [] -> exists u c, t = u ++ [c] /\ c <> newline.
Proof.
  intros D N. destruct (exists_last N) as (u & c & ->). exists u, c. split; [reflexivity|]. intros ->. apply Forall_app in D as (_ & D). inversion D as [|? ? I _]. 
  apply dec_digit_In in I. discriminate I.
Qed.
Lemma negative_spec w : negative_number w = true <-> negative w.
Proof.
  split.
  - unfold negative_number. destruct (chop_split w) as (nl & E & NL). destruct (chop_newline w) as [|c t] eqn:C; [discriminate|]. intros H. apply andb_true_iff in H as (D & H).
    apply Ascii.eqb_eq in D. subst c. exists t, nl. split; [exact E|]. split; [exact NL|]. apply orb_true_iff in H as [H|H]; [left; apply some_digits_spec; exact H|].
    right. destruct (skip_digits t) as [|d b] eqn:S; [discriminate|]. apply andb_true_iff in H as (D & H). apply Ascii.eqb_eq in D. subst d.
    apply skip_digits_spec in S as (a & -> & F). apply some_digits_spec in H as (G & N). exists a, b. auto.
  - intros (t & nl & -> & NL & H).
    assert (L : exists u c, "-"%char :: t = u ++ [c] /\ c <> newline).
    { destruct H as [(D & N)|(a & b & -> & _ & D & N)]; destruct (digits_last _ D N) as (u & c & -> & M).
      - exists ("-"%char :: u), c. auto.
      - exists ("-"%char :: a ++ "."%char :: u), c. split; [|exact M]. cbn [app]. rewrite <- app_assoc. reflexivity. }
    assert (C : chop_newline ("-"%char :: t ++ nl) = "-"%char :: t).
    { destruct L as (u & c & E & M). change ("-"%char :: t ++ nl) with (("-"%char :: t) ++ nl). rewrite E. destruct (chop_last u c M) as (A & B).
      destruct NL as [-> | ->]; [rewrite app_nil_r; exact A|exact B]. }
    unfold negative_number. rewrite C. change (is_dash "-"%char) with true. cbn [andb]. apply orb_true_iff. destruct H as [H|(a & b & -> & Fa & Fb & N)].
    + left. apply some_digits_spec. exact H.
    + right. rewrite skip_digits_app by (exact Fa || reflexivity). rewrite Ascii.eqb_refl. cbn [andb]. apply some_digits_spec. auto.
Qed.
Lemma tuples_none d t : (forall s v, an_option s -> "-"%char :: d :: t <> s ++ "="%char :: v) ->
  (option_tuples ("-"%char :: d :: t) = [] <-> forall s, an_option s -> ~ resembles ("-"%char :: d :: t) s).
Proof.
  intros NE. destruct (second_dash ("-"%char :: d :: t)) eqn:SD.
  - assert (d = "-"%char) by (apply Ascii.eqb_eq in SD; exact SD). subst d. rewrite tuples_two by reflexivity. unfold split_word. split.
    + intros H s A R. destruct (partition_eq ("-"%char :: "-"%char :: t)) as [[p v]|] eqn:Q; cbn [fst snd] in H; apply map_eq_nil in H; rewrite filter_none in H;
        apply an_option_In in A as (o & A); specialize (H _ A); cbn [fst] in H; assert (AO : an_option s) by (apply an_option_In; eauto); destruct R as [R|[(v1 & R)|[(c1 & d1 & r1 & R & ->)|(p1 & v1 & R & R1 & R2)]]].
      * apply partition_some in Q as (Q & _). exfalso. apply (begins_no_eq _ _ AO R). rewrite Q. apply in_or_app. right. left. reflexivity.
      * exact (NE _ _ AO R).
      * injection R as <- <- <-. exact (no_two_dashes AO).
      * assert (Q1 : partition_eq ("-"%char :: "-"%char :: t) = Some (p1, v1)) by (apply partition_some; split; [exact R|exact (begins_no_eq _ _ AO R2)]).
        rewrite Q in Q1. apply (f_equal (fun x => match x with Some y => fst y | None => [] end)) in Q1. cbn [fst] in Q1. subst p1. apply starts_begins in R2. congruence.
      * apply starts_begins in R. congruence.
      * exact (NE _ _ AO R).
      * injection R as <- <- <-. exact (no_two_dashes AO).
      * apply partition_none in Q. apply Q. rewrite R. apply in_or_app. right. left. reflexivity.
    + intros H. destruct (partition_eq ("-"%char :: "-"%char :: t)) as [[p v]|] eqn:Q; cbn [fst snd].
      * assert (F : filter (fun so => starts_with p (fst so)) option_table = []); [|rewrite F; reflexivity]. apply filter_none. intros [s o] I. cbn [fst].
        destruct (starts_with p s) eqn:S; [|reflexivity]. exfalso. apply starts_begins in S. apply partition_some in Q as (Q & N).
        apply (H s); [apply an_option_In; eauto|]. right. right. right. exists p, v. split; [exact Q|]. split; [|exact S].
        destruct p as [|x [|y p]]; [discriminate Q|discriminate Q|]. injection Q as <- <- _. exists p. reflexivity.
      * assert (F : filter (fun so => starts_with ("-"%char :: "-"%char :: t) (fst so)) option_table = []); [|rewrite F; reflexivity]. apply filter_none. intros [s o] I. cbn [fst].
        destruct (starts_with ("-"%char :: "-"%char :: t) s) eqn:S; [|reflexivity]. exfalso. apply starts_begins in S. apply (H s); [apply an_option_In; eauto|left; exact S].
  - unfold option_tuples. rewrite SD. change (firstn 2 ("-"%char :: d :: t)) with ["-"%char; d]. split.
    + intros H s A R. apply map_eq_nil in H. rewrite filter_none in H. assert (AO := A). apply an_option_In in A as (o & A). specialize (H _ A). cbn [fst] in H.
      apply orb_false_iff in H as (H1 & H2). destruct R as [R|[(v1 & R)|[(c1 & d1 & r1 & R & ->)|(p1 & v1 & R & (q & ->) & R2)]]].
      * apply starts_begins in R. congruence.
      * exact (NE _ _ AO R).
      * injection R as <- <- <-. rewrite text_eqb_refl in H1. discriminate H1.
      * injection R as -> _. discriminate SD.
    + intros H. match goal with |- map _ ?f = _ => assert (F : f = []); [|rewrite F; reflexivity] end. apply filter_none. intros [s o] I. cbn [fst].
      assert (AO : an_option s) by (apply an_option_In; eauto). apply orb_false_iff. split.
      * destruct (text_eqb s ["-"%char; d]) eqn:X; [|reflexivity]. apply text_eqb_eq in X. exfalso. apply (H s AO). right. right. left. exists "-"%char, d, t. auto.
      * destruct (starts_with ("-"%char :: d :: t) s) eqn:X; [|reflexivity]. exfalso. apply (H s AO). left. apply starts_begins. exact X.
Qed.
Lemma arg_value w : w <> txt "--" -> (classify w = Arg <-> value_word w).
Proof.
  intros ND. destruct w as [|c t].
  { split; [|reflexivity]. intros _. left. intros (r & E). discriminate E. }
  destruct (Ascii.eqb_spec c "-"%char) as [->|N].
  2:{ split; [|intros _; unfold classify, is_dash; destruct (Ascii.eqb_spec c "-"%char); [congruence|reflexivity]]. intros _. left. intros (r & E). injection E as E _. congruence. }
  destruct t as [|d t]; [split; [right; left; reflexivity|reflexivity]|].
  assert (B : begins (txt "-") ("-"%char :: d :: t)) by (exists (d :: t); reflexivity).
  assert (V : value_word ("-"%char :: d :: t) <-> (forall s, an_option s -> ~ resembles ("-"%char :: d :: t) s) /\ (negative ("-"%char :: d :: t) \/ In " "%char ("-"%char :: d :: t))).
  { split; [|intros H; right; right; exact H]. intros [H|[H|H]]; [contradiction|discriminate H|exact H]. }
  rewrite V. clear V. destruct (an_option_dec ("-"%char :: d :: t)) as [A|A].
  { split.
    - intros H. destruct A as (o & W). rewrite (classify_exact _ _ W) in H. discriminate H.
    - intros (H & _). exfalso. apply (H _ A). left. exists []. rewrite app_nil_r. reflexivity. }
  destruct (partition_eq ("-"%char :: d :: t)) as [[s v]|] eqn:Q; [destruct (an_option_dec s) as [AS|AS]|].
  { apply partition_some in Q as (Q & _). split.
    - intros H. destruct AS as (o & W). rewrite Q, (classify_equals _ _ v W) in H. discriminate H.
    - intros (H & _). exfalso. apply (H _ AS). right. left. exists v. exact Q. }
  all: assert (NE : forall s v, an_option s -> "-"%char :: d :: t <> s ++ "="%char :: v)
    by (intros s1 v1 A1 K; destruct (option_form _ A1) as (_ & _ & _ & N1 & _);
        assert (Q1 : partition_eq ("-"%char :: d :: t) = Some (s1, v1)) by (apply partition_some; auto);
        rewrite Q1 in Q; first [discriminate Q | apply (f_equal (fun x => match x with Some y => fst y | None => [] end)) in Q; cbn [fst] in Q; subst s1; contradiction]).
  all: rewrite (classify_tuples _ _ A NE), <- (tuples_none _ _ NE), <- negative_spec.
  all: destruct (option_tuples ("-"%char :: d :: t)) as [|[[s0 o0] e0] [|? ?]];
    [|split; [discriminate|intros (H & _); discriminate H]|split; [discriminate|intros (H & _); discriminate H]].
  all: destruct (negative_number ("-"%char :: d :: t)); [split; auto|].
  all: destruct (existsb (Ascii.eqb " "%char) ("-"%char :: d :: t)) eqn:X;
    [apply existsb_exists in X as (y & I & Y); apply Ascii.eqb_eq in Y; subst y; split; [intros _; split; [reflexivity|right; exact I]|reflexivity]|].
  all: split; [discriminate|]; intros (_ & [H|H]); [discriminate H|]; exfalso;
    assert (Z : existsb (Ascii.eqb " "%char) ("-"%char :: d :: t) = true) by (apply existsb_exists; exists " "%char; split; [exact H|reflexivity]); congruence.
Qed.
Lemma value_not_dashes : ~ value_word (txt "--").
Proof.
  intros [H|[H|(H & _)]]; [apply H; exists (txt "-"); reflexivity|discriminate H|].
  apply (H (txt "--help")); [exists Ohelp; apply lookup_written; vm_compute; reflexivity|]. left. exists (txt "help"). reflexivity.
Qed.

(** the whole line *)
Fixpoint settings_of (items : list (text * class)) : option (list setting) :=
  match items with
  | [] => Some []
  | (w, Opt o two e) :: rest =>
      match consume_word o two e with
      | CValue fs o' v => option_map (fun ss => flags fs ++ (o', [v]) :: ss) (settings_of rest)
      | CNext fs o' =>
          match arity o' with
          | 0%nat => option_map (fun ss => flags fs ++ (o', []) :: ss) (settings_of rest)
          | 1%nat => match rest with
                     | (v, Arg) :: rest' => option_map (fun ss => flags fs ++ (o', [v]) :: ss) (settings_of rest')
                     | _ => None
                     end
          | _ => match rest with
                 | (v1, Arg) :: (v2, Arg) :: rest' => option_map (fun ss => flags fs ++ (o', [v1; v2]) :: ss) (settings_of rest')
                 | _ => None
                 end
          end
      | _ => None
      end
  | _ => None
  end.
Lemma take_actions_app s a : forall ns b, take_actions s ns (a ++ b) = match take_actions s ns a with Go ns' => take_actions s ns' b | Stop k => Stop k end.
Proof. induction a as [|x a IH]; intros ns b; cbn [app take_actions]; [reflexivity|]. destruct (take_action s ns x); auto. Qed.
Lemma finish_extras s ns c : finish s ns true <> Parsed c.
Proof. unfold finish. destruct (negb _); discriminate. Qed.
Lemma consume_extras s items : forall ns c, consume s items ns true <> Parsed c.
Proof.
  assert (G : forall n items ns c, (List.length items <= n)%nat -> consume s items ns true <> Parsed c); [|eauto]. clear items.
  induction n as [|n IH]; intros items ns c L; (destruct items as [|[w cl] rest]; [apply finish_extras|]); cbn [List.length] in L; [lia|].
  assert (R : forall ns c, consume s rest ns true <> Parsed c) by (intros; apply IH; lia).
  cbn [consume]. destruct cl as [| | |o two e]; try apply R. destruct (consume_word o two e) as [|fs|fs o' v|fs o']; [discriminate| | |].
  - destruct (take_actions _ _ _); [apply R|discriminate].
  - destruct (take_actions _ _ _); [apply R|discriminate].
  - destruct (arity o') as [|[|k]].
    + destruct (take_actions _ _ _); [apply R|discriminate].
    + destruct rest as [|[v [| | |]] rest']; try discriminate. destruct (take_actions _ _ _); [apply IH; cbn [List.length] in L; lia|discriminate].
    + destruct rest as [|[v [| | |]] [|[v2 [| | |]] rest']]; try discriminate. destruct (take_actions _ _ _); [apply IH; cbn [List.length] in L; lia|discriminate].
Qed.
Lemma consume_parsed s items ns c :
  consume s items ns false = Parsed c <-> exists ss ns', settings_of items = Some ss /\ take_actions s ns ss = Go ns' /\ finish s ns' false = Parsed c.
Proof.
  assert (G : forall n items ns, (List.length items <= n)%nat ->
    (consume s items ns false = Parsed c <-> exists ss ns', settings_of items = Some ss /\ take_actions s ns ss = Go ns' /\ finish s ns' false = Parsed c)); [|eauto]. clear.
  assert (S1 : forall pre rest ns,
    (forall ns, consume s rest ns false = Parsed c <-> exists ss ns', settings_of rest = Some ss /\ take_actions s ns ss = Go ns' /\ finish s ns' false = Parsed c) ->
    match take_actions s ns pre with Go ns' => consume s rest ns' false | Stop k => Exits k end = Parsed c <->
    exists ss ns', option_map (fun ss => pre ++ ss) (settings_of rest) = Some ss /\ take_actions s ns ss = Go ns' /\ finish s ns' false = Parsed c).
  { intros pre rest ns R. split.
    - intros H. destruct (take_actions s ns pre) as [ns1|k] eqn:T; [|discriminate H]. apply R in H as (ss & ns' & A & B & C). exists (pre ++ ss), ns'. rewrite A.
      split; [reflexivity|]. rewrite take_actions_app, T. auto.
    - intros (ss & ns' & A & B & C). destruct (settings_of rest) as [ss1|] eqn:E; [|discriminate A]. injection A as <-. rewrite take_actions_app in B.
      destruct (take_actions s ns pre) as [ns1|k]; [|discriminate B]. apply R. exists ss1, ns'. auto. }
  assert (S2 : forall fs x rest, option_map (fun ss => flags fs ++ x :: ss) (settings_of rest) = option_map (fun ss => (flags fs ++ [x]) ++ ss) (settings_of rest)).
  { intros fs x rest. destruct (settings_of rest); [|reflexivity]. cbn [option_map]. rewrite <- app_assoc. reflexivity. }
  induction n as [|n IH]; intros items ns L.
  - destruct items as [|? ?]; [|cbn [List.length] in L; lia]. cbn [consume settings_of]. split.
    + intros H. exists [], ns. auto.
    + intros (ss & ns' & A & B & C). injection A as <-. injection B as <-. exact C.
  - destruct items as [|[w cl] rest]; [apply IH; cbn; lia|]. cbn [List.length] in L.
    assert (F : forall (P : Prop), ~ P -> (P <-> exists ss ns', @None (list setting) = Some ss /\ take_actions s ns ss = Go ns' /\ finish s ns' false = Parsed c)).
    { intros P N. split; [intros p; contradiction|]. intros (ss & ns' & A & _). discriminate A. }
    assert (R : forall ns, consume s rest ns false = Parsed c <-> exists ss ns', settings_of rest = Some ss /\ take_actions s ns ss = Go ns' /\ finish s ns' false = Parsed c)
      by (intros; apply IH; lia).
    cbn [consume settings_of]. destruct cl as [| | |o two e]; try (apply F; apply consume_extras).
    destruct (consume_word o two e) as [|fs|fs o' v|fs o'].
    + apply F. discriminate.
    + apply F. destruct (take_actions _ _ _); [apply consume_extras|discriminate].
    + rewrite S2. apply S1. exact R.
    + destruct (arity o') as [|[|k]].
      * rewrite S2. apply S1. exact R.
      * destruct rest as [|[v [| | |]] rest']; try (apply F; discriminate). rewrite S2. apply S1. intros. apply IH. cbn [List.length] in L. lia.
      * destruct rest as [|[v [| | |]] [|[v2 [| | |]] rest']]; try (apply F; discriminate). rewrite S2. apply S1. intros. apply IH. cbn [List.length] in L. lia.
Qed.

(* reading the line *)
Lemma classes_opt w ws o two e : w <> txt "--" -> classify w = Opt o two e -> classes (w :: ws) = option_map (cons (w, Opt o two e)) (classes ws).
Proof. intros N C. cbn [classes]. destruct (text_eqb w (txt "--")) eqn:E; [apply text_eqb_eq in E; contradiction|]. rewrite C. reflexivity. Qed.
Lemma classes_arg w ws : value_word w -> classes (w :: ws) = option_map (cons (w, Arg)) (classes ws).
Proof.
  intros V. assert (N : w <> txt "--") by (intros ->; exact (value_not_dashes V)). apply (arg_value _ N) in V.
  cbn [classes]. destruct (text_eqb w (txt "--")) eqn:E; [apply text_eqb_eq in E; contradiction|]. rewrite V. reflexivity.
Qed.
Lemma reads_settings ws ss : line_reads ws ss -> exists items, classes ws = Some items /\ settings_of items = Some ss.
Proof.
  induction 1 as [|w fs o v ws ss S R (items & A & B)|w fs o vs ws ss S T V R (items & A & B)].
  - exists []. auto.
  - apply says_complete in S as (N & o0 & two & e & C & K). rewrite (classes_opt _ _ _ _ _ N C), A. cbn [option_map]. exists ((w, Opt o0 two e) :: items).
    split; [reflexivity|]. cbn [settings_of]. rewrite K. cbn [outcome_of]. rewrite B. reflexivity.
  - apply says_complete in S as (N & o0 & two & e & C & K). apply takes_arity in T. rewrite (classes_opt _ _ _ _ _ N C).
    destruct vs as [|v1 [|v2 [|v3 vs]]]; cbn [List.length] in T.
    + cbn [app]. rewrite A. cbn [option_map]. exists ((w, Opt o0 two e) :: items). split; [reflexivity|]. cbn [settings_of]. rewrite K. cbn [outcome_of]. rewrite <- T, B. reflexivity.
    + inversion V as [|? ? V1 _]; subst. cbn [app]. rewrite (classes_arg _ _ V1), A. cbn [option_map]. exists ((w, Opt o0 two e) :: (v1, Arg) :: items).
      split; [reflexivity|]. cbn [settings_of]. rewrite K. cbn [outcome_of]. rewrite <- T, B. reflexivity.
    + inversion V as [|? ? V1 V']; subst. inversion V' as [|? ? V2 _]; subst. cbn [app]. rewrite (classes_arg _ _ V1), (classes_arg _ _ V2), A. cbn [option_map].
      exists ((w, Opt o0 two e) :: (v1, Arg) :: (v2, Arg) :: items). split; [reflexivity|]. cbn [settings_of]. rewrite K. cbn [outcome_of]. rewrite <- T, B. reflexivity.
    + destruct (arity_cases o) as [Y|[Y|Y]]; rewrite Y in T; discriminate T.
Qed.
Lemma classes_cons w ws items : classes (w :: ws) = Some items ->
  (w = txt "--" /\ exists r, items = (w, NoOpt) :: r) \/
  (w <> txt "--" /\ exists r, items = (w, classify w) :: r /\ classes ws = Some r).
Proof.
  cbn [classes]. destruct (text_eqb w (txt "--")) eqn:E.
  - apply text_eqb_eq in E. intros H. left. split; [exact E|]. injection H as <-. eauto.
  - intros H. right. split; [intros ->; rewrite text_eqb_refl in E; discriminate E|].
    destruct (classify w); try discriminate H; destruct (classes ws) as [r|]; try discriminate H; injection H as <-; eauto.
Qed.
Lemma settings_reads ws : forall items ss, classes ws = Some items -> settings_of items = Some ss -> line_reads ws ss.
Proof.
  assert (G : forall n ws items ss, (List.length ws <= n)%nat -> classes ws = Some items -> settings_of items = Some ss -> line_reads ws ss); [|eauto]. clear.
  induction n as [|n IH]; intros ws items ss L A B; (destruct ws as [|w ws]; [injection A as <-; injection B as <-; constructor|]); cbn [List.length] in L; [lia|].
  apply classes_cons in A as [(-> & r & ->)|(N & r & -> & A)]; [discriminate B|]. cbn [settings_of] in B.
  destruct (classify w) as [| | |o two e] eqn:C; try discriminate B.
  destruct (consume_word o two e) as [|fs|fs o' v|fs o'] eqn:K; try discriminate B.
  - destruct (settings_of r) as [ss1|] eqn:S; [|discriminate B]. injection B as <-. apply reads_joined; [exact (says_sound _ _ _ _ _ _ (Some v) C K)|].
    apply (IH ws r); [lia|exact A|exact S].
  - pose proof (says_sound _ _ _ _ _ _ None C K) as SS. destruct (arity o') as [|[|k]] eqn:AR.
    + destruct (settings_of r) as [ss1|] eqn:S; [|discriminate B]. injection B as <-. apply (reads_separate w fs o' [] ws ss1); [exact SS|apply takes_arity; auto|constructor|].
      apply (IH ws r); [lia|exact A|exact S].
    + destruct r as [|[v [| | |]] r]; try discriminate B. destruct (settings_of r) as [ss1|] eqn:S; [|discriminate B]. injection B as <-.
      destruct ws as [|v' ws]; [discriminate A|]. apply classes_cons in A as [(-> & r' & A)|(N1 & r' & A & A1)]; [discriminate A|]. injection A as -> CA <-.
      apply (reads_separate w fs o' [v'] ws ss1); [exact SS|apply takes_arity; auto| |].
      * constructor; [|constructor]. apply arg_value; auto.
      * apply (IH ws r); [cbn [List.length] in L; lia|exact A1|exact S].
    + destruct r as [|[v [| | |]] [|[v2 [| | |]] r]]; try discriminate B. destruct (settings_of r) as [ss1|] eqn:S; [|discriminate B]. injection B as <-.
      destruct ws as [|v' ws]; [discriminate A|]. apply classes_cons in A as [(-> & r' & A)|(N1 & r' & A & A1)]; [discriminate A|]. injection A as -> CA <-.
      destruct ws as [|v'' ws]; [discriminate A1|]. apply classes_cons in A1 as [(-> & r' & A)|(N2 & r' & A & A1)]; [discriminate A|]. injection A as -> CA2 <-.
      apply (reads_separate w fs o' [v'; v''] ws ss1); [exact SS| | |].
      * destruct (arity_cases o') as [Y|[Y|Y]]; rewrite Y in AR; try discriminate AR. apply takes_arity. auto.
      * constructor; [apply arg_value; auto|]. constructor; [|constructor]. apply arg_value; auto.
      * apply (IH ws r); [cbn [List.length] in L; lia|exact A1|exact S].
Qed.

(** the settings *)
Lemma letters_flags t fs o e : letters t fs o e -> Forall (fun f => arity f = 0%nat) fs /\ (forall v, e = Some v -> arity o = 1%nat).
Proof.
  induction 1 as [c o W|c o x v W T X|c o v W T|c o t fs o' e W T L (F & IH)].
  - split; [constructor|discriminate].
  - split; [constructor|]. intros _ _. apply takes_arity in T. auto.
  - split; [constructor|]. intros _ _. apply takes_arity in T. auto.
  - split; [|exact IH]. constructor; [apply takes_arity in T; auto|exact F].
Qed.
Lemma says_flags w fs o e : says w fs o e -> Forall (fun f => arity f = 0%nat) fs /\ (forall v, e = Some v -> arity o = 1%nat).
Proof.
  intros H. destruct H as [s o W|s o v W T|p o AB|p o v BD AB T|t fs o e L NB NE].
  - split; [constructor|discriminate].
  - split; [constructor|]. intros _ _. apply takes_arity in T. auto.
  - split; [constructor|discriminate].
  - split; [constructor|]. intros _ _. apply takes_arity in T. auto.
  - exact (letters_flags _ _ _ _ L).
Qed.
Lemma reads_arity ws ss : line_reads ws ss -> Forall (fun x => List.length (snd x) = arity (fst x)) ss.
Proof.
  assert (M : forall fs, Forall (fun f => arity f = 0%nat) fs -> Forall (fun x : opt * list text => List.length (snd x) = arity (fst x)) (map (fun f => (f, [])) fs)).
  { intros fs F. induction F as [|f fs A F IH]; cbn [map]; constructor; [cbn; auto|exact IH]. }
  induction 1 as [|w fs o v ws ss S R IH|w fs o vs ws ss S T V R IH].
  - constructor.
  - destruct (says_flags _ _ _ _ S) as (F & K). apply Forall_app. split; [auto|]. constructor; [cbn [fst snd List.length]; symmetry; exact (K _ eq_refl)|exact IH].
  - destruct (says_flags _ _ _ _ S) as (F & K). apply Forall_app. split; [auto|]. constructor; [apply takes_arity in T; exact T|exact IH].
Qed.

Lemma values_ok_valid s o vs : List.length vs = arity o -> (values_ok s (o, vs) = true <-> valid s o vs).
Proof.
  assert (FO : forall w, given (open_file s w) = true <-> exists name content, opens s w name content).
  { intros w. unfold open_file, opens. destruct (text_eqb w (txt "-")) eqn:E.
    - apply text_eqb_eq in E. subst. split; [|reflexivity]. intros _. exists (txt "<stdin>"), (stdin s). right. auto.
    - assert (N : w <> txt "-") by (intros ->; rewrite text_eqb_refl in E; discriminate E). destruct (files s w) as [t|] eqn:F; cbn [option_map given].
      + split; [|reflexivity]. intros _. exists w, t. left. auto.
      + split; [discriminate|]. intros (n & c & [(_ & _ & K)|(K & _)]); [congruence|contradiction]. }
  assert (IO : forall w, given (py_int w) = true <-> exists z, py_int w = Some z).
  { intros w. destruct (py_int w) as [z|]; cbn [given]; split; try discriminate; eauto. intros (z & K). discriminate K. }
  assert (MO : forall w, given (mode_of w) = true <-> In w [txt "flo"; txt "flop"; txt "lo"; txt "lou"; txt "normal"]).
  { intros w. unfold mode_of. split.
    - destruct (text_eqb w (txt "flo")) eqn:E1; [apply text_eqb_eq in E1; subst; intros _; left; reflexivity|].
      destruct (text_eqb w (txt "flop")) eqn:E2; [apply text_eqb_eq in E2; subst; intros _; right; left; reflexivity|].
      destruct (text_eqb w (txt "lo")) eqn:E3; [apply text_eqb_eq in E3; subst; intros _; right; right; left; reflexivity|].
      destruct (text_eqb w (txt "lou")) eqn:E4; [apply text_eqb_eq in E4; subst; intros _; do 3 right; left; reflexivity|].
      destruct (text_eqb w (txt "normal")) eqn:E5; [apply text_eqb_eq in E5; subst; intros _; do 4 right; left; reflexivity|]. discriminate.
    - intros [<-|[<-|[<-|[<-|[<-|[]]]]]]; reflexivity. }
  assert (ONE : forall (P : text -> Prop) w, (forall u, In u [w] -> P u) <-> P w).
  { intros P w. split; [intros H; apply H; left; reflexivity|]. intros H u [<-|[]]. exact H. }
  intros L. destruct o; cbn [arity] in L; try (split; [intros _; exact I|intros _; destruct vs; reflexivity]).
  all: destruct vs as [|w1 [|w2 [|? ?]]]; try discriminate L; unfold valid, values_ok.
  - rewrite ONE. apply FO.
  - rewrite ONE. apply FO.
  - rewrite ONE. apply IO.
  - rewrite andb_true_iff, !IO. split; [intros (A & B) u [<-|[<-|[]]]; assumption|]. intros H. split; apply H; [left|right; left]; reflexivity.
  - rewrite ONE. apply MO.
Qed.
Lemma uses_rev o ss : uses o (rev ss) <-> uses o ss.
Proof. unfold uses. split; intros (vs & I); exists vs; [apply in_rev in I; exact I|apply in_rev; rewrite rev_involutive; exact I]. Qed.
Lemma existsb_uses o ns : existsb (fun x : setting => opt_eqb (fst x) o) ns = true <-> uses o ns.
Proof.
  rewrite existsb_exists. split.
  - intros ([o' vs] & I & E). apply opt_eqb_eq in E. cbn [fst] in E. subst. exists vs. exact I.
  - intros (vs & I). exists (o, vs). split; [exact I|apply opt_eqb_refl].
Qed.
Lemma conflict_spec ns o : conflict ns o = false <-> forall o', In o' (group o) -> uses o' ns -> o' = o.
Proof.
  unfold conflict. split.
  - intros H o' G U. destruct (opt_dec o' o) as [E|N]; [exact E|]. exfalso.
    assert (K : existsb (fun o' => negb (opt_eqb o' o) && existsb (fun x => opt_eqb (fst x) o') ns) (group o) = true); [|congruence].
    apply existsb_exists. exists o'. split; [exact G|]. apply existsb_uses in U. apply andb_true_iff. split; [|exact U].
    destruct (opt_eqb o' o) eqn:E; [apply opt_eqb_eq in E; contradiction|reflexivity].
  - intros H. destruct (existsb _ (group o)) eqn:E; [|reflexivity]. apply existsb_exists in E as (o' & G & E). apply andb_true_iff in E as (A & B).
    apply existsb_uses in B. rewrite (H o' G B), opt_eqb_refl in A. discriminate A.
Qed.
Lemma group_sym o o' : In o' (group o) -> In o (group o').
Proof. destruct o; cbn [group In]; intros H; repeat (destruct H as [<-|H]; [cbn [group In]; tauto|]); destruct H. Qed.
Definition no_stop (o : opt) : Prop := o <> Ohelp /\ o <> Oversion.
Lemma take_actions_spec s ss : forall ns ns', take_actions s ns ss = Go ns' <->
  ns' = rev ss ++ ns /\ (forall x, In x ss -> no_stop (fst x) /\ values_ok s x = true) /\
  (forall a x b, ss = a ++ x :: b -> conflict (rev a ++ ns) (fst x) = false).
Proof.
  induction ss as [|x ss IH]; intros ns ns'; cbn [take_actions].
  - split.
    + intros H. injection H as <-. split; [reflexivity|]. split; [intros x []|]. intros a x b E. destruct a; discriminate E.
    + intros (-> & _). reflexivity.
  - assert (T : take_action s ns x = Go (x :: ns) /\ no_stop (fst x) /\ values_ok s x = true /\ conflict ns (fst x) = false \/
                (exists k, take_action s ns x = Stop k) /\ ~ (no_stop (fst x) /\ values_ok s x = true /\ conflict ns (fst x) = false)).
    { destruct x as [o vs]. cbn [fst].
      assert (TA : no_stop o -> take_action s ns (o, vs) = if negb (values_ok s (o, vs)) then Stop 2 else if conflict ns o then Stop 2 else Go ((o, vs) :: ns)).
      { intros (N1 & N2). unfold take_action. cbn [fst]. destruct o; try reflexivity; congruence. }
      assert (TB : ~ no_stop o -> exists k, take_action s ns (o, vs) = Stop k).
      { intros N. unfold no_stop in N. unfold take_action. cbn [fst]. destruct o; try (exfalso; apply N; split; discriminate); destruct (negb _); eauto. }
      assert (D : no_stop o \/ ~ no_stop o).
      { unfold no_stop. destruct (opt_dec o Ohelp), (opt_dec o Oversion); tauto. }
      destruct D as [D|D]; [|right; split; [exact (TB D)|tauto]]. rewrite (TA D). destruct (values_ok s (o, vs)); cbn [negb].
      - destruct (conflict ns o); [right; split; [eauto|]; intros (_ & _ & K); discriminate K|left; auto].
      - right. split; [eauto|]. intros (_ & K & _). discriminate K. }
    destruct T as [(E & NS & V & C)|((k & E) & N)]; rewrite E.
    + rewrite IH. cbn [rev]. rewrite <- app_assoc. cbn [app]. split.
      * intros (-> & A & B). split; [reflexivity|]. split; [intros y [<-|I]; auto|]. intros [|z a] y b K.
        { injection K as <- <-. exact C. }
        injection K as <- ->. cbn [rev]. rewrite <- app_assoc. exact (B a y b eq_refl).
      * intros (-> & A & B). split; [reflexivity|]. split; [intros y I; apply A; right; exact I|]. intros a y b ->.
        specialize (B (x :: a) y b eq_refl). cbn [rev] in B. rewrite <- app_assoc in B. exact B.
    + split; [discriminate|]. intros (_ & A & B). exfalso. apply N. destruct (A x (or_introl eq_refl)) as (A1 & A2). split; [exact A1|]. split; [exact A2|]. exact (B [] x ss eq_refl).
Qed.
Lemma conflicts_pairs ss : (forall a x b, ss = a ++ x :: b -> conflict (rev a ++ []) (fst x) = false) <->
  (forall o o', In o' (group o) -> uses o ss -> uses o' ss -> o' = o).
Proof.
  split.
  - intros H o o' G (vs & I) (vs' & J). destruct (opt_dec o' o) as [E|N]; [exact E|]. exfalso. apply in_split in I as (a & b & ->). apply in_app_or in J as [J|[J|J]].
    + specialize (H a (o, vs) b eq_refl). rewrite app_nil_r in H. apply N. refine (proj1 (conflict_spec _ _) H o' G _). apply uses_rev. exists vs'. exact J.
    + injection J as J _. congruence.
    + apply in_split in J as (b1 & b2 & ->). specialize (H (a ++ (o, vs) :: b1) (o', vs') b2). rewrite <- app_assoc in H. specialize (H eq_refl). rewrite app_nil_r in H.
      apply N. symmetry. refine (proj1 (conflict_spec _ _) H o (group_sym _ _ G) _). apply uses_rev. exists vs. apply in_or_app. right. left. reflexivity.
  - intros H a [o vs] b ->. rewrite app_nil_r. cbn [fst]. apply conflict_spec. intros o' G U. apply (proj1 (uses_rev _ _)) in U; destruct U as (vs' & I). apply (H o o' G).
    + exists vs. apply in_or_app. right. left. reflexivity.
    + exists vs'. apply in_or_app. left. exact I.
Qed.

Lemma newest_app o a b : newest o (a ++ b) = match newest o a with Some v => Some v | None => newest o b end.
Proof. induction a as [|[o' vs] a IH]; cbn [app newest]; [reflexivity|]. destruct (opt_eqb o' o); auto. Qed.
Lemma newest_none o ns : newest o ns = None <-> ~ uses o ns.
Proof.
  induction ns as [|[o' vs] ns IH]; cbn [newest].
  - split; [intros _ (v & [])|reflexivity].
  - destruct (opt_eqb o' o) eqn:E.
    + apply opt_eqb_eq in E. subst. split; [discriminate|]. intros H. exfalso. apply H. exists vs. left. reflexivity.
    + rewrite IH. split; intros H (v & K); apply H; [destruct K as [K|K]; [injection K as -> ->; rewrite opt_eqb_refl in E; discriminate E|exists v; exact K]|exists v; right; exact K].
Qed.
Lemma newest_last o vs ss : newest o (rev ss) = Some vs <-> last_use o vs ss.
Proof.
  split.
  - induction ss as [|x ss IH] using rev_ind; [discriminate|]. rewrite rev_app_distr. cbn [rev app]. destruct x as [o' vs']. cbn [newest]. destruct (opt_eqb o' o) eqn:E.
    + apply opt_eqb_eq in E. subst. intros H. injection H as ->. exists ss, []. split; [reflexivity|]. intros (v & []).
    + intros H. apply IH in H as (a & b & -> & N). exists a, (b ++ [(o', vs')]). split; [rewrite <- app_assoc; reflexivity|]. intros (v & I). apply in_app_or in I as [I|[I|[]]].
      * apply N. exists v. exact I.
      * injection I as -> ->. rewrite opt_eqb_refl in E. discriminate E.
  - intros (a & b & -> & N). rewrite rev_app_distr. cbn [rev]. rewrite newest_app, newest_app. rewrite <- uses_rev in N. apply newest_none in N. rewrite N. cbn [newest]. rewrite opt_eqb_refl. reflexivity.
Qed.
Lemma flag_uses o ss : flag o (rev ss) = true <-> uses o ss.
Proof.
  unfold flag. rewrite <- uses_rev. destruct (newest o (rev ss)) as [v|] eqn:E; cbn [given].
  - split; [|reflexivity]. intros _. apply newest_last in E as (a & b & -> & _). apply uses_rev. exists v. apply in_or_app. right. left. reflexivity.
  - split; [discriminate|]. apply newest_none in E. contradiction.
Qed.
Lemma value_last o w ss : value o (rev ss) = Some w <-> last_use o [w] ss.
Proof.
  rewrite <- newest_last. unfold value. destruct (newest o (rev ss)) as [[|a [|b l]]|]; split; intros H; try discriminate H.
  - injection H as ->. reflexivity.
  - injection H as ->. reflexivity.
Qed.
Lemma open_opens s w n c : open_file s w = Some (n, c) <-> opens s w n c.
Proof.
  unfold open_file, opens. destruct (text_eqb w (txt "-")) eqn:E.
  - apply text_eqb_eq in E. subst. split.
    + intros H. right. apply (f_equal (fun x => match x with Some y => y | None => ([], []) end)) in H. split; [reflexivity|].
      split; [symmetry; exact (f_equal fst H)|symmetry; exact (f_equal snd H)].
    + intros [(N & _)|(_ & -> & ->)]; [congruence|reflexivity].
  - assert (N : w <> txt "-") by (intros ->; rewrite text_eqb_refl in E; discriminate E). destruct (files s w) as [t|]; cbn [option_map].
    + split; [intros H; injection H as <- <-; left; auto|]. intros [(_ & -> & H)|(K & _)]; [injection H as ->; reflexivity|contradiction].
    + split; [discriminate|]. intros [(_ & _ & K)|(K & _)]; [discriminate K|contradiction].
Qed.
Lemma opened_last s o ss n c : opened s o (rev ss) = Some (n, c) <-> exists w, last_use o [w] ss /\ opens s w n c.
Proof.
  unfold opened. split.
  - destruct (value o (rev ss)) as [w|] eqn:V; [|discriminate]. intros H. exists w. split; [apply value_last; exact V|apply open_opens; exact H].
  - intros (w & L & O). apply value_last in L. rewrite L. apply open_opens. exact O.
Qed.

Definition arities (ss : list setting) : Prop := Forall (fun x => List.length (snd x) = arity (fst x)) ss.
Lemma last_In o vs ss : last_use o vs ss -> In (o, vs) ss.
Proof. intros (a & b & -> & _). apply in_or_app. right. left. reflexivity. Qed.
Lemma value_missing ss o : arities ss -> arity o = 1%nat -> value o (rev ss) = None -> ~ uses o ss.
Proof.
  intros F A V. unfold value in V. destruct (newest o (rev ss)) as [vs|] eqn:N.
  - exfalso. apply newest_last, last_In in N. pose proof (proj1 (Forall_forall _ _) F _ N) as L. cbn [fst snd] in L. rewrite A in L.
    destruct vs as [|w [|w2 vs]]; [discriminate L|discriminate V|discriminate L].
  - apply newest_none in N. intros U. apply N. apply uses_rev. exact U.
Qed.
Lemma mode_of_name w m : mode_of w = Some m <-> w = mode_name m.
Proof.
  split.
  - unfold mode_of.
    destruct (text_eqb w (txt "flo")) eqn:E1; [apply text_eqb_eq in E1; subst; intros H; injection H as <-; reflexivity|].
    destruct (text_eqb w (txt "flop")) eqn:E2; [apply text_eqb_eq in E2; subst; intros H; injection H as <-; reflexivity|].
    destruct (text_eqb w (txt "lo")) eqn:E3; [apply text_eqb_eq in E3; subst; intros H; injection H as <-; reflexivity|].
    destruct (text_eqb w (txt "lou")) eqn:E4; [apply text_eqb_eq in E4; subst; intros H; injection H as <-; reflexivity|].
    destruct (text_eqb w (txt "normal")) eqn:E5; [apply text_eqb_eq in E5; subst; intros H; injection H as <-; reflexivity|]. discriminate.
  - intros ->. destruct m; vm_compute; reflexivity.
Qed.
Lemma last_fun o vs vs' ss : last_use o vs ss -> last_use o vs' ss -> vs = vs'.
Proof. intros A B. apply newest_last in A, B. congruence. Qed.
Lemma last_uses o vs ss : last_use o vs ss -> uses o ss.
Proof. intros H. exists vs. apply last_In. exact H. Qed.

Lemma cli_configures s ss : arities ss -> (forall o vs, In (o, vs) ss -> valid s o vs) -> configures s ss (cli_of s (rev ss)).
Proof.
  intros AR V. constructor; cbn [cli_of c_line c_graph c_line_file c_dimacs c_threads c_multiply c_mode].
  - repeat (constructor; [cbn [fst snd]; apply flag_uses|]). constructor.
  - intros w. apply value_last.
  - intros w. apply value_last.
  - intros n c. apply opened_last.
  - intros n c. apply opened_last.
  - intros n. destruct (value Ot (rev ss)) as [w|] eqn:E.
    + apply value_last in E. destruct (V _ _ (last_In _ _ _ E) w (or_introl eq_refl)) as (z & P). rewrite P. split.
      * intros <-. left. exists w. auto.
      * intros [(w' & L & Q)|(N & _)].
        { pose proof (last_fun _ _ _ _ E L) as K. injection K as <-. congruence. }
        exfalso. apply N. exact (last_uses _ _ _ E).
    + apply (value_missing _ _ AR) in E; [|reflexivity]. split; [intros <-; right; auto|]. intros [(w & L & _)|(_ & ->)]; [exfalso; apply E; exact (last_uses _ _ _ L)|reflexivity].
  - intros x y. split.
    + destruct (newest Omult (rev ss)) as [[|a [|b [|c l]]]|] eqn:E; try discriminate. apply newest_last in E. intros H. exists a, b.
      destruct (py_int a) as [x'|]; [|discriminate H]. destruct (py_int b) as [y'|]; [|discriminate H]. injection H as -> ->. auto.
    + intros (a & b & L & A & B). apply newest_last in L. rewrite L, A, B. reflexivity.
  - intros m. destruct (value Om (rev ss)) as [w|] eqn:E.
    + apply value_last in E. pose proof (V _ _ (last_In _ _ _ E)) as K. unfold valid in K. specialize (K w (or_introl eq_refl)).
      assert (M : exists m', mode_of w = Some m') by (destruct K as [<-|[<-|[<-|[<-|[<-|[]]]]]]; vm_compute; eauto). destruct M as (m' & M). rewrite M. apply mode_of_name in M. split.
      * intros <-. left. rewrite <- M. exact E.
      * intros [L|(N & _)].
        { pose proof (last_fun _ _ _ _ E L) as Q. injection Q as Q. rewrite M in Q. apply (proj2 (mode_of_name _ _)) in Q. assert (Z : mode_of (mode_name m') = Some m') by (apply mode_of_name; reflexivity). congruence. }
        exfalso. apply N. exact (last_uses _ _ _ E).
    + apply (value_missing _ _ AR) in E; [|reflexivity]. split; [intros <-; right; auto|]. intros [L|(_ & ->)]; [exfalso; apply E; exact (last_uses _ _ _ L)|reflexivity].
Qed.
Lemma some_iff {A} (x y : option A) : (forall a, x = Some a <-> y = Some a) -> x = y.
Proof. intros H. destruct x as [a|]; [symmetry; apply H; reflexivity|]. destruct y as [b|]; [apply H; reflexivity|reflexivity]. Qed.
Lemma bool_iff (a b : bool) (P : Prop) : (a = true <-> P) -> (b = true <-> P) -> a = b.
Proof. intros H K. destruct a, b; try reflexivity; [symmetry; apply K, H; reflexivity|apply H, K; reflexivity]. Qed.
Lemma configures_fun s ss c c' : configures s ss c -> configures s ss c' -> c = c'.
Proof.
  intros [F1 L1 G1 LF1 D1 T1 M1 O1] [F2 L2 G2 LF2 D2 T2 M2 O2].
  repeat match goal with H : Forall _ (_ :: _) |- _ => apply Forall_cons_iff in H as (? & H) end. cbn [fst snd] in *.
  assert (c_line c = c_line c') by (apply some_iff; intros; rewrite L1, L2; tauto).
  assert (c_graph c = c_graph c') by (apply some_iff; intros; rewrite G1, G2; tauto).
  assert (c_line_file c = c_line_file c') by (apply some_iff; intros [? ?]; rewrite LF1, LF2; tauto).
  assert (c_dimacs c = c_dimacs c') by (apply some_iff; intros [? ?]; rewrite D1, D2; tauto).
  assert (c_threads c = c_threads c') by (apply T1, T2; reflexivity).
  assert (c_multiply c = c_multiply c') by (apply some_iff; intros [? ?]; rewrite M1, M2; tauto).
  assert (c_mode c = c_mode c') by (apply O1, O2; reflexivity).
  clear L1 L2 G1 G2 LF1 LF2 D1 D2 T1 T2 M1 M2 O1 O2.
  repeat match goal with H1 : ?f c = true <-> ?P, H2 : ?f c' = true <-> ?P |- _ => pose proof (bool_iff _ _ _ H1 H2); clear H1 H2 end.
  destruct c, c'; cbn [MCli.c_v MCli.c_vv MCli.c_q MCli.c_qn MCli.c_line MCli.c_line_file MCli.c_dimacs MCli.c_graph MCli.c_solution_file MCli.c_no_stats MCli.c_threads MCli.c_exit MCli.c_verify MCli.c_rdb MCli.c_gdb MCli.c_gnm MCli.c_sort_by_size MCli.c_thief MCli.c_factorize MCli.c_multiply MCli.c_mode] in *.
  subst. reflexivity.
Qed.

Lemma group_cases o o' : In o' (group o) ->
  (In o [Ov; Ovv; Oq; Oqn] /\ In o' [Ov; Ovv; Oq; Oqn]) \/ (In o [Ol; Olf; Od] /\ In o' [Ol; Olf; Od]).
Proof.
  destruct o; cbn [group]; intros H; try (destruct H; fail).
  all: first [left; split; [cbn [In]; tauto|exact H] | right; split; [cbn [In]; tauto|exact H]].
Qed.
Lemma settings_parsed s ss c : arities ss ->
  ((exists ns', take_actions s [] ss = Go ns' /\ finish s ns' false = Parsed c) <-> acceptable s ss /\ configures s ss c).
Proof.
  intros AR.
  assert (VO : forall o vs, In (o, vs) ss -> (values_ok s (o, vs) = true <-> valid s o vs)).
  { intros o vs I. apply values_ok_valid. exact (proj1 (Forall_forall _ _) AR _ I). }
  split.
  - intros (ns' & T & F). apply take_actions_spec in T as (-> & A & B). rewrite app_nil_r in F. rewrite conflicts_pairs in B.
    assert (V : forall o vs, In (o, vs) ss -> valid s o vs) by (intros o vs I; apply VO; [exact I|apply A; exact I]).
    unfold finish in F. destruct (flag Ol (rev ss) || flag Olf (rev ss) || flag Od (rev ss)) eqn:X; cbn [negb] in F; [|discriminate F]. injection F as <-.
    split; [|apply cli_configures; assumption]. constructor.
    + intros (vs & I). destruct (A _ I) as ((N & _) & _). apply N. reflexivity.
    + intros (vs & I). destruct (A _ I) as ((_ & N) & _). apply N. reflexivity.
    + exact V.
    + assert (E : exists o, In o [Ol; Olf; Od] /\ uses o ss).
      { apply orb_true_iff in X as [X|X]; [apply orb_true_iff in X as [X|X]|]; apply flag_uses in X; [exists Ol|exists Olf|exists Od]; split; cbn [In]; auto. }
      destruct E as (o & I & U). exists o. split; [exact I|]. split; [exact U|]. intros o' I' U'. apply B; [|exact U|exact U'].
      destruct I as [<-|[<-|[<-|[]]]]; exact I'.
    + intros o o' I I' U U'. apply B; [|exact U|exact U']. destruct I as [<-|[<-|[<-|[<-|[]]]]]; exact I'.
  - intros ([NH NV V (o & I & U & UI) VB] & C). exists (rev ss). split.
    + apply take_actions_spec. split; [rewrite app_nil_r; reflexivity|]. split.
      * intros [o1 vs] J. split; [|apply VO; auto]. split; cbn [fst]; intros ->; [apply NH|apply NV]; exists vs; exact J.
      * apply conflicts_pairs. intros o1 o2 G U1 U2. apply group_cases in G as [(G1 & G2)|(G1 & G2)]; [apply VB; assumption|].
        rewrite (UI o2 G2 U2), (UI o1 G1 U1). reflexivity.
    + unfold finish. replace (flag Ol (rev ss) || flag Olf (rev ss) || flag Od (rev ss)) with true.
      * cbn [negb]. f_equal. exact (configures_fun _ _ _ _ (cli_configures _ _ AR V) C).
      * symmetry. apply orb_true_iff. rewrite orb_true_iff, !flag_uses. destruct I as [<-|[<-|[<-|[]]]]; auto.
Qed.

Theorem parse_exact s ws c : parse_args s ws = Parsed c <-> exists ss, line_reads ws ss /\ acceptable s ss /\ configures s ss c.
Proof.
  unfold parse_args. split.
  - destruct (classes ws) as [items|] eqn:C; [|discriminate]. intros H. apply consume_parsed in H as (ss & ns' & A & B & F). exists ss.
    pose proof (settings_reads _ _ _ C A) as R. split; [exact R|]. apply settings_parsed; [exact (reads_arity _ _ R)|eauto].
  - intros (ss & R & A). pose proof (reads_arity _ _ R) as AR. apply reads_settings in R as (items & C & S). rewrite C. apply consume_parsed.
    apply settings_parsed in A as (ns' & T & F); [|exact AR]. eauto.
Qed.

(** consequences *)
Lemma reads_fun ws ss ss' : line_reads ws ss -> line_reads ws ss' -> ss = ss'.
Proof. intros A B. apply reads_settings in A as (i & C & D), B as (i' & C' & D'). congruence. Qed.

Lemma take_stop s ss : forall ns k, take_actions s ns ss = Stop k -> k = 2 \/ (k = 0 /\ (In Ohelp (map fst ss) \/ In Oversion (map fst ss))).
Proof.
  induction ss as [|[o vs] ss IH]; intros ns k; cbn [take_actions map fst]; [discriminate|].
  destruct (take_action s ns (o, vs)) as [ns'|k'] eqn:T.
  - intros H. apply IH in H as [H|(H & K)]; [auto|]. right. split; [exact H|]. cbn [In]. tauto.
  - intros H. injection H as <-. unfold take_action in T. cbn [fst] in T. destruct (negb _); destruct o; try (destruct (conflict _ _)); try discriminate T; injection T as <-; auto; right; split; auto; cbn [In]; auto.
Qed.
Lemma flags_fst fs : map fst (flags fs) = fs.
Proof. induction fs as [|f fs IH]; cbn; [reflexivity|]. f_equal. exact IH. Qed.
Definition letter_of (t : text) (g : opt) : Prop := exists c, In c t /\ written ["-"%char; c] g.
Lemma cluster_extra t : forall fs o fs', cluster fs o t = CExtra fs' -> exists gs, fs' = fs ++ o :: gs /\ forall g, In g gs -> letter_of t g.
Proof.
  induction t as [|c t IH]; intros fs o fs' H; [discriminate H|]. cbn [cluster] in H.
  destruct (is_dash c); [discriminate H|]. destruct (lookup ["-"%char; c]) as [o1|] eqn:L.
  - apply lookup_written in L. destruct t as [|e0 t]; [discriminate H|]. destruct (arity_cases o1) as [A|[A|A]]; rewrite A in H; try discriminate H.
    destruct (Ascii.eqb e0 "="%char); [discriminate H|]. apply IH in H as (gs & -> & G). exists (o1 :: gs). split; [rewrite <- app_assoc; reflexivity|].
    intros g [<-|I]; [exists c; split; [left; reflexivity|exact L]|]. destruct (G g I) as (c' & J & W). exists c'. split; [right; exact J|exact W].
  - injection H as <-. exists []. split; [reflexivity|]. intros g [].
Qed.
Lemma letters_letter t fs o e : letters t fs o e -> forall g, In g (fs ++ [o]) -> letter_of t g.
Proof.
  induction 1 as [c o W|c o x v W T X|c o v W T|c o t fs o' e W T L IH]; intros g I; cbn [app In] in I.
  - destruct I as [<-|[]]. exists c. split; [left; reflexivity|exact W].
  - destruct I as [<-|[]]. exists c. split; [left; reflexivity|exact W].
  - destruct I as [<-|[]]. exists c. split; [left; reflexivity|exact W].
  - destruct I as [<-|I]; [exists c; split; [left; reflexivity|exact W]|]. destruct (IH g I) as (c' & J & W'). exists c'. split; [right; exact J|exact W'].
Qed.
Definition stops (o : opt) : Prop := o = Ohelp \/ o = Oversion.
Lemma letter_stops t g : letter_of t g -> stops g -> In "h"%char t.
Proof.
  intros (c & I & W) S. apply written_In in W.
  assert (A : forallb (fun so => negb (Nat.eqb (List.length (fst so)) 2 && (opt_eqb (snd so) Ohelp || opt_eqb (snd so) Oversion)) || text_eqb (fst so) (txt "-h")) option_table = true) by (vm_compute; reflexivity).
  rewrite forallb_forall in A. specialize (A _ W). cbn [fst snd List.length Nat.eqb] in A.
  assert (E : text_eqb ["-"%char; c] (txt "-h") = true) by (destruct S as [-> | ->]; exact A).
  apply text_eqb_eq in E. injection E as ->. exact I.
Qed.
Lemma h_split t : In "h"%char t -> exists a b, "-"%char :: t = "-"%char :: a ++ "h"%char :: b.
Proof. intros I. apply in_split in I as (a & b & ->). eauto. Qed.
Lemma classify_letter w o two ex : classify w = Opt o two (Some (false, ex)) -> exists d, w = "-"%char :: d :: ex /\ written ["-"%char; d] o.
Proof.
  unfold classify. destruct w as [|c t]; [discriminate|]. destruct (is_dash c) eqn:Dc; cbn [negb]; [|discriminate].
  apply Ascii.eqb_eq in Dc. subst c. destruct (lookup ("-"%char :: t)) as [o0|] eqn:L0; [discriminate|]. destruct t as [|d t]; [discriminate|].
  set (w := "-"%char :: d :: t) in *.
  destruct (match partition_eq w with Some (s, v) => option_map (fun o => Opt o (second_dash s) (Some (true, v))) (lookup s) | None => None end) as [cl|] eqn:P.
  { destruct (partition_eq w) as [[s v]|] eqn:Q; [|discriminate]. destruct (lookup s) as [o0|] eqn:L; [|discriminate]. cbn [option_map] in P. intros E. congruence. }
  destruct (option_tuples w) as [|[[s o1] e1] [|? ?]] eqn:T; [destruct (negative_number w); [discriminate|]; destruct (existsb _ w); discriminate| |discriminate].
  intros E. injection E as <- <- ->. destruct (second_dash w) eqn:SD.
  - rewrite tuples_two in T by exact SD. apply map_single in T as (x & T & E). apply (f_equal snd) in E. cbn [snd] in E. unfold split_word in E. destruct (partition_eq w) as [[p v]|]; discriminate E.
  - unfold option_tuples in T. rewrite SD in T. apply map_single in T as ([s' o''] & T & E). cbn [fst snd] in E.
    pose proof (f_equal (fun x => fst (fst x)) E) as E1. pose proof (f_equal (fun x => snd (fst x)) E) as E2. apply (f_equal snd) in E. cbn [fst snd] in E, E1, E2. subst s' o''.
    apply filter_single in T as (I & _); [|exact table_NoDup]. change (firstn 2 w) with ["-"%char; d] in E. change (skipn 2 w) with t in E. 
    destruct (text_eqb s ["-"%char; d]) eqn:X; [|discriminate E]. injection E as <-. apply text_eqb_eq in X. subst s. exists d. split; [reflexivity|]. apply written_In. exact I.
Qed.
Lemma says_stops w fs o e g : says w fs o e -> In g (fs ++ [o]) -> stops g -> asks_for_help w.
Proof.
  intros H I S. assert (NA : arity g = 0%nat) by (destruct S as [-> | ->]; reflexivity).
  destruct H as [s o W|s o v W T|p o AB|p o v BD AB T|t fs o e L NB NE].
  - destruct I as [<-|[]]. destruct S as [-> | ->]; [left|right; left]; constructor; exact W.
  - destruct I as [<-|[]]. apply takes_arity in T. congruence.
  - destruct I as [<-|[]]. destruct S as [-> | ->]; [left|right; left]; apply says_abbreviated; exact AB.
  - destruct I as [<-|[]]. apply takes_arity in T. congruence.
  - right. right. apply h_split. exact (letter_stops _ _ (letters_letter _ _ _ _ L g I) S).
Qed.
Definition actions_of (w : text) (c : class) (fs : list opt) : Prop :=
  exists o two e, c = Opt o two e /\
    (consume_word o two e = CExtra fs \/ (exists gs o', consume_word o two e = CNext gs o' /\ fs = gs ++ [o']) \/ exists gs o' v, consume_word o two e = CValue gs o' v /\ fs = gs ++ [o']).
Lemma actions_stop w fs g : actions_of w (classify w) fs -> In g fs -> stops g -> asks_for_help w.
Proof.
  intros (o & two & e & C & [K|[(gs & o' & K & ->)|(gs & o' & v & K & ->)]]) I S.
  - unfold consume_word in K. destruct e as [[sep ex]|]; [|discriminate K]. destruct (arity_cases o) as [A|[A|A]]; rewrite A in K; try discriminate K.
    destruct two; [discriminate K|]. destruct sep; [discriminate K|]. cbn [orb] in K. apply cluster_extra in K as (gs & -> & G). apply classify_letter in C as (d & -> & W).
    right. right. apply h_split. refine (letter_stops _ g _ S). cbn [app In] in I. destruct I as [<-|I]; [exists d; split; [left; reflexivity|exact W]|].
    destruct (G g I) as (c & J & W'). exists c. split; [right; exact J|exact W'].
  - exact (says_stops w gs o' None g (says_sound _ _ _ _ gs o' None C K) I S).
  - exact (says_stops w gs o' (Some v) g (says_sound _ _ _ _ gs o' (Some v) C K) I S).
Qed.
Lemma consume_exits s items : forall ns ex k, consume s items ns ex = Exits k ->
  k = 2 \/ (k = 0 /\ exists w c fs g, In (w, c) items /\ actions_of w c fs /\ In g fs /\ stops g).
Proof.
  assert (G : forall n items ns ex k, (List.length items <= n)%nat -> consume s items ns ex = Exits k ->
    k = 2 \/ (k = 0 /\ exists w c fs g, In (w, c) items /\ actions_of w c fs /\ In g fs /\ stops g)); [|eauto]. clear items.
  assert (FIN : forall ns ex k, finish s ns ex = Exits k -> k = 2).
  { intros ns ex k. unfold finish. destruct (negb _); [intros H; injection H as <-; reflexivity|]. destruct ex; [intros H; injection H as <-; reflexivity|discriminate]. }
  assert (UP : forall (items rest : list (text * class)) k, (forall x, In x rest -> In x items) ->
    k = 2 \/ (k = 0 /\ exists w c fs g, In (w, c) rest /\ actions_of w c fs /\ In g fs /\ stops g) ->
    k = 2 \/ (k = 0 /\ exists w c fs g, In (w, c) items /\ actions_of w c fs /\ In g fs /\ stops g)).
  { intros items rest k U [H|(H & w & c & fs & g & A & B)]; [auto|]. right. split; [exact H|]. exists w, c, fs, g. auto. }
  assert (ST : forall ns ss k w c fs (items : list (text * class)), take_actions s ns ss = Stop k -> In (w, c) items -> actions_of w c fs -> map fst ss = fs ->
    k = 2 \/ (k = 0 /\ exists w c fs g, In (w, c) items /\ actions_of w c fs /\ In g fs /\ stops g)).
  { intros ns ss k w c fs items T I A E. apply take_stop in T as [T|(T & [K|K])]; [auto| |]; right; (split; [exact T|]); rewrite E in K; exists w, c, fs; eexists; (split; [exact I|]); (split; [exact A|]); (split; [exact K|]);
      [left|right]; reflexivity. }
  induction n as [|n IH]; intros items ns ex k L; (destruct items as [|[w cl] rest]; [intros H; left; exact (FIN _ _ _ H)|]); cbn [List.length] in L; [lia|].
  assert (R : forall ns ex, consume s rest ns ex = Exits k -> k = 2 \/ (k = 0 /\ exists w' c fs g, In (w', c) ((w, cl) :: rest) /\ actions_of w' c fs /\ In g fs /\ stops g)).
  { intros ns0 ex0 H. apply (UP _ rest); [intros x I; right; exact I|]. apply (IH rest ns0 ex0); [lia|exact H]. }
  assert (TWO : forall k, Exits 2 = Exits k -> k = 2) by (intros k0 H; injection H as <-; reflexivity).
  assert (MF : forall gs o' vs, map fst (flags gs ++ [(o', vs)] : list setting) = gs ++ [o']).
  { intros. rewrite map_app, flags_fst. reflexivity. }
  cbn [consume]. destruct cl as [| | |o two e]; try apply R. destruct (consume_word o two e) as [|fs|fs o' v|fs o'] eqn:K.
  - intros H. left. exact (TWO _ H).
  - destruct (take_actions s ns (flags fs)) as [ns'|k'] eqn:T; [apply R|]. intros H. injection H as <-. refine (ST _ _ _ w _ fs _ T (in_eq (w, Opt o two e) rest) _ (flags_fst fs)). exists o, two, e. auto.
  - destruct (take_actions s ns (flags fs ++ [(o', [v])])) as [ns'|k'] eqn:T; [apply R|]. intros H. injection H as <-.
    refine (ST _ _ _ w _ (fs ++ [o']) _ T (in_eq (w, Opt o two e) rest) _ (MF _ _ _)). exists o, two, e. split; [reflexivity|]. right. right. exists fs, o', v. auto.
  - assert (AC : actions_of w (Opt o two e) (fs ++ [o'])) by (exists o, two, e; split; [reflexivity|]; right; left; exists fs, o'; auto).
    destruct (arity o') as [|[|m]].
    + destruct (take_actions s ns (flags fs ++ [(o', [])])) as [ns'|k'] eqn:T; [apply R|]. intros H. injection H as <-. exact (ST _ _ _ w _ _ _ T (in_eq (w, Opt o two e) rest) AC (MF _ _ _)).
    + destruct rest as [|[v [| | |]] rest']; try (intros H; left; exact (TWO _ H)).
      destruct (take_actions s ns (flags fs ++ [(o', [v])])) as [ns'|k'] eqn:T; [|intros H; injection H as <-; exact (ST _ _ _ w _ _ _ T (in_eq _ _) AC (MF _ _ _))].
      intros H. apply (UP _ rest'); [intros x I; right; right; exact I|]. apply (IH rest' ns' ex); [cbn [List.length] in L; lia|exact H].
    + destruct rest as [|[v [| | |]] [|[v2 [| | |]] rest']]; try (intros H; left; exact (TWO _ H)).
      destruct (take_actions s ns (flags fs ++ [(o', [v; v2])])) as [ns'|k'] eqn:T; [|intros H; injection H as <-; exact (ST _ _ _ w _ _ _ T (in_eq _ _) AC (MF _ _ _))].
      intros H. apply (UP _ rest'); [intros x I; right; right; right; exact I|]. apply (IH rest' ns' ex); [cbn [List.length] in L; lia|exact H].
Qed.
Lemma classes_In ws : forall items w c, classes ws = Some items -> In (w, c) items -> In w ws /\ (c = classify w \/ c = NoOpt \/ c = Arg).
Proof.
  induction ws as [|v ws IH]; intros items w c H I; [injection H as <-; destruct I|]. cbn [classes] in H. destruct (text_eqb v (txt "--")).
  - injection H as <-. destruct I as [I|I]; [injection I as <- <-; split; [left; reflexivity|auto]|]. apply in_map_iff in I as (u & I & J). injection I as <- <-. split; [right; exact J|auto].
  - assert (E : exists r, items = (v, classify v) :: r /\ classes ws = Some r) by (destruct (classify v); try discriminate H; destruct (classes ws) as [r|]; try discriminate H; injection H as <-; eauto).
    destruct E as (r & -> & C). destruct I as [I|I]; [injection I as <- <-; split; [left; reflexivity|auto]|]. destruct (IH _ _ _ C I) as (A & B). split; [right; exact A|exact B].
Qed.
Lemma exits_status s ws k : parse_args s ws = Exits k -> k = 2 \/ (k = 0 /\ exists w, In w ws /\ asks_for_help w).
Proof.
  unfold parse_args. destruct (classes ws) as [items|] eqn:C; [|intros H; injection H as <-; auto]. intros H. apply consume_exits in H as [H|(H & w & c & fs & g & I & A & J & S)]; [auto|].
  right. split; [exact H|]. exists w. destruct (classes_In _ _ _ _ C I) as (W & [-> |[-> | ->]]).
  - split; [exact W|]. exact (actions_stop _ _ _ A J S).
  - destruct A as (o & two & e & E & _). discriminate E.
  - destruct A as (o & two & e & E & _). discriminate E.
Qed.

(* only the order among the uses of one option matters *)
Lemma newest_filter o (ns : list setting) : newest o ns = newest o (of_option o ns).
Proof.
  induction ns as [|[o' vs] ns IH]; [reflexivity|]. cbn [newest of_option filter fst]. destruct (opt_eqb o' o) eqn:E; cbn [newest]; [rewrite E; reflexivity|exact IH].
Qed.
Lemma filter_rev {A} (f : A -> bool) l : filter f (rev l) = rev (filter f l).
Proof.
  induction l as [|x l IH]; [reflexivity|]. cbn [rev filter]. rewrite filter_app, IH. cbn [filter]. destruct (f x); cbn [rev]; [reflexivity|]. rewrite app_nil_r. reflexivity.
Qed.
Lemma same_last ss ss' : (forall o, of_option o ss = of_option o ss') -> forall o vs, last_use o vs ss <-> last_use o vs ss'.
Proof.
  intros H o vs.
  assert (E : newest o (rev ss) = newest o (rev ss')); [|pose proof (newest_last o vs ss) as A; pose proof (newest_last o vs ss') as B; split; intros K; [apply B; exact (eq_trans (eq_sym E) (proj2 A K))|apply A; exact (eq_trans E (proj2 B K))]].
  rewrite newest_filter. etransitivity; [|symmetry; apply newest_filter]. f_equal. unfold of_option. rewrite !filter_rev. f_equal. apply H.
Qed.
Lemma same_In ss ss' : (forall o, of_option o ss = of_option o ss') -> forall o vs, In (o, vs) ss <-> In (o, vs) ss'.
Proof.
  assert (G : forall ss o vs, In (o, vs) ss <-> In (o, vs) (of_option o ss)).
  { intros l o vs. unfold of_option. rewrite filter_In. cbn [fst]. rewrite opt_eqb_refl. tauto. }
  intros H o vs. rewrite (G ss), (G ss'), H. reflexivity.
Qed.
Lemma same_uses ss ss' : (forall o, of_option o ss = of_option o ss') -> forall o, uses o ss <-> uses o ss'.
Proof. intros H o. unfold uses. split; intros (vs & I); exists vs; apply (same_In ss ss' H); exact I. Qed.
Lemma acceptable_same s ss ss' : (forall o, of_option o ss = of_option o ss') -> acceptable s ss -> acceptable s ss'.
Proof.
  intros H [A B C (o & D & E & F) G]. pose proof (same_uses _ _ H) as U. pose proof (same_In _ _ H) as I. constructor.
  - rewrite <- U. exact A.
  - rewrite <- U. exact B.
  - intros o' vs J. apply C, I. exact J.
  - exists o. split; [exact D|]. split; [apply U; exact E|]. intros o' J K. apply F; [exact J|apply U; exact K].
  - intros o1 o2 J1 J2 K1 K2. apply G; [exact J1|exact J2|apply U; exact K1|apply U; exact K2].
Qed.
Lemma configures_same s ss ss' c : (forall o, of_option o ss = of_option o ss') -> configures s ss c -> configures s ss' c.
Proof.
  intros H [A B C D E F G I]. pose proof (same_uses _ _ H) as U. pose proof (same_last _ _ H) as L. constructor.
  - eapply Forall_impl; [|exact A]. intros fo K. rewrite K. apply U.
  - intros w. rewrite B. apply L.
  - intros w. rewrite C. apply L.
  - intros n t. rewrite D. split; intros (w & K & O); exists w; (split; [apply L; exact K|exact O]).
  - intros n t. rewrite E. split; intros (w & K & O); exists w; (split; [apply L; exact K|exact O]).
  - intros n. rewrite F. split; (intros [(w & K & O)|(K & O)]; [left; exists w; split; [apply L; exact K|exact O]|right; split; [intros Q; apply K, U; exact Q|exact O]]).
  - intros x y. rewrite G. split; intros (a & b & K & O); exists a, b; (split; [apply L; exact K|exact O]).
  - intros m. rewrite I. split; (intros [K|(K & O)]; [left; apply L; exact K|right; split; [intros Q; apply K, U; exact Q|exact O]]).
Qed.
