(* PTrans2.v -- substitutions *)
From Coq Require Import String Ascii ZArith List Bool Lia Arith Permutation Sorted.
From Verif Require Import Spec PyBase MSet MText MCnf MFam MTrans SpecCnf SpecFam SpecTrans PText PLib PCnf1 PCnf2 PFam1 PFam2 PFam3 PFam4 PFam5 PFam6 PFam7 PFam8 PFam12 PP16.
Import ListNotations.
Open Scope Z_scope.

(* ---- products of clause sets ---- *)
Lemma all_hold_dec {A} (a : A -> bool) F : all_hold a F \/ exists c, In c F /\ ~ clause_holds a c.
Proof.
  induction F as [|c F [IH|(d & Hd & N)]]; [left; intros ? []| |].
  - destruct (holds_dec a c) as [H|H]; [left; intros x [<-|Hx]; auto|right; exists c; split; [left|]; auto].
  - right. exists d. split; [right|]; auto.
Qed.
Lemma products_hold {A} (a : A -> bool) (ds : list (list (list (bool * A)))) :
  all_hold a (map (@concat (bool * A)) (products ds)) <-> exists d, In d ds /\ all_hold a d.
Proof.
  induction ds as [|d ds IH]; cbn [products].
  - split; [|intros (d & [] & _)]. intros H. specialize (H [] (or_introl eq_refl)). exfalso. apply (holds_nil a H).
  - assert (E : all_hold a (map (@concat (bool * A)) (flat_map (fun x => map (cons x) (products ds)) d)) <-> all_hold a d \/ all_hold a (map (@concat (bool * A)) (products ds))).
    { assert (K : forall cl, In cl (map (@concat (bool * A)) (flat_map (fun x => map (cons x) (products ds)) d)) <-> exists x t, In x d /\ In t (products ds) /\ cl = x ++ concat t).
      { intros cl. rewrite in_map_iff. split.
        - intros (u & <- & Hu). apply in_flat_map in Hu as (x & Hx & Hu). apply in_map_iff in Hu as (t & <- & Ht). exists x, t. auto.
        - intros (x & t & Hx & Ht & ->). exists (x :: t). split; auto. apply in_flat_map. exists x. split; auto. apply in_map. auto. }
      split.
      - intros H. destruct (all_hold_dec a d) as [|(x & Hx & N)]; auto. right. intros cl Hc. apply in_map_iff in Hc as (t & <- & Ht).
        assert (Q : clause_holds a (x ++ concat t)) by (apply H; apply K; eauto). apply holds_app in Q as [Q|Q]; auto. contradiction.
      - intros H cl Hc. apply K in Hc as (x & t & Hx & Ht & ->). apply holds_app. destruct H as [H|H]; [left; auto|right]. apply H. apply in_map. auto. }
    rewrite E, IH. split.
    + intros [H|(x & Hx & H)]; [exists d; split; [left|]; auto|exists x; split; [right|]; auto].
    + intros (x & [<-|Hx] & H); eauto.
Qed.
Lemma products_map {A B} (f : A -> B) (ls : list (list A)) : products (map (map f) ls) = map (map f) (products ls).
Proof.
  induction ls as [|l ls IH]; cbn [map products]; auto. rewrite IH. clear IH. induction l as [|x l IHl]; cbn [map flat_map]; auto.
  rewrite map_app, !map_map, IHl. f_equal.
Qed.

(* ---- what a substitution builds ---- *)
Definition substituted (preamble : text -> list (list (bool * text))) (literal_to : bool -> text -> list (list (bool * text))) (c : cnf) : list (list (bool * text)) :=
  flat_map (fun cl => map (@concat (bool * text)) (products (map (fun l => literal_to (fst l) (snd l)) cl))) (cnf_clauses c) ++ flat_map preamble (cn_names c).
Lemma compress_all names (F : list (list (bool * text))) : (forall cl v, In cl F -> In v (map snd cl) -> In v names) ->
  exists zs, mapM (compress_clause names) F = Ok zs /\ map (uncompress_clause names) zs = F /\
    forall z l, In z zs -> In l z -> 1 <= Z.abs l <= Z.of_nat (List.length names).
Proof.
  induction F as [|cl F IH]; intros H; cbn [mapM]; [exists []; split; auto; split; auto; intros ? ? []|].
  destruct (compress_total names cl) as (z & E); [intros v; apply H; left; auto|]. destruct IH as (zs & E2 & U & B); [intros; eapply H; eauto; right; auto|].
  pose proof (compress_ok names cl z E) as (U1 & B1 & _). exists (z :: zs). rewrite E, E2. cbn [bind]. split; auto. split; [cbn [map]; congruence|].
  intros x l [<-|Hx]; auto. apply B. auto.
Qed.
Lemma compress_table names (f : text -> list (list (bool * text))) vs : (forall v cl w, In v vs -> In cl (f v) -> In w (map snd cl) -> In w names) ->
  exists t, mapM (fun v => mapM (compress_clause names) (f v)) vs = Ok t /\ List.length t = List.length vs /\
    (forall i d, (i < List.length vs)%nat -> map (uncompress_clause names) (nth i t []) = f (nth i vs d)) /\
    map (uncompress_clause names) (concat t) = flat_map f vs /\
    forall zs z l, In zs t -> In z zs -> In l z -> 1 <= Z.abs l <= Z.of_nat (List.length names).
Proof.
  induction vs as [|v vs IH]; intros H; cbn [mapM].
  - exists []. split; auto. split; auto. split; [intros i d L; cbn in L; lia|]. split; auto. intros ? ? ? [].
  - destruct (compress_all names (f v)) as (zs & E & U & B); [intros cl w; apply H; left; auto|]. destruct IH as (t & E2 & L2 & N2 & C2 & B2); [intros x cl w Hx; apply H; right; auto|].
    exists (zs :: t). rewrite E, E2. cbn [bind]. split; auto. split; [cbn; lia|]. split; [|split].
    + intros [|i] d L; cbn [nth]; auto. apply N2. cbn in L. lia.
    + cbn [concat flat_map]. rewrite map_app. congruence.
    + intros x z l [<-|Hx]; [apply B|apply B2; auto].
Qed.
Lemma substitution_built preamble literal_to new c : made c ->
  (forall vs, new = Some vs -> forall v cl w, In v (cn_names c) -> In cl (preamble v ++ literal_to true v ++ literal_to false v) -> In w (map snd cl) -> In w vs) ->
  exists c', base_substitution preamble literal_to new c = Ok c' /\ made c' /\ cn_names c' = with_new [] (new_names preamble literal_to new (cn_names c)) /\
    cnf_clauses c' = substituted preamble literal_to c.
Proof.
  intros M HN. destruct (made_well c M) as [ND RNG]. unfold base_substitution. cbv zeta. rewrite add_variables_names. cbn [empty_cnf cn_names].
  set (names := with_new [] (new_names preamble literal_to new (cn_names c))).
  assert (NN : NoDup names) by (apply with_new_NoDup; constructor).
  assert (IN : forall v cl w, In v (cn_names c) -> In cl (preamble v ++ literal_to true v ++ literal_to false v) -> In w (map snd cl) -> In w names).
  { intros v cl w Hv Hc Hw. apply with_new_In. right. destruct new as [vs|]; [apply (HN vs eq_refl v cl w); auto|]. cbn [new_names]. apply in_flat_map. exists v. split; auto.
    apply in_map_iff in Hw as (l & <- & Hl). apply in_map. apply in_concat. eauto. }
  destruct (compress_table names preamble (cn_names c)) as (adds & -> & LA & NA & CA & BA); [intros v cl w Hv Hc; apply (IN v cl w Hv); apply in_app_iff; auto|]. cbn [bind].
  destruct (compress_table names (literal_to true) (cn_names c)) as (pos & -> & LP & NP & CP & BP); [intros v cl w Hv Hc; apply (IN v cl w Hv); apply in_app_iff; right; apply in_app_iff; auto|]. cbn [bind].
  destruct (compress_table names (literal_to false) (cn_names c)) as (neg & -> & LN & NG & CN & BN); [intros v cl w Hv Hc; apply (IN v cl w Hv); apply in_app_iff; right; apply in_app_iff; auto|]. cbn [bind].
  set (sub := fun l => nth (Z.to_nat (Z.abs l - 1)) (if 0 <? l then pos else neg) []).
  assert (SB : forall l, 1 <= Z.abs l <= Z.of_nat (List.length (cn_names c)) -> map (uncompress_clause names) (sub l) = literal_to (0 <? l) (nth (Z.to_nat (Z.abs l - 1)) (cn_names c) [])).
  { intros l B. unfold sub. destruct (0 <? l); [apply NP|apply NG]; lia. }
  assert (SR : forall l z k, 1 <= Z.abs l <= Z.of_nat (List.length (cn_names c)) -> In z (sub l) -> In k z -> 1 <= Z.abs k <= Z.of_nat (List.length names)).
  { intros l z k B Hz Hk. unfold sub in Hz. destruct (0 <? l); [apply (BP (nth (Z.to_nat (Z.abs l - 1)) pos []) z k)|apply (BN (nth (Z.to_nat (Z.abs l - 1)) neg []) z k)]; auto; apply nth_In; lia. }
  eexists. split; [reflexivity|]. split; [|split; [reflexivity|]].
  - apply made_of_numbers; auto. intros cl z Hc Hz. apply in_app_iff in Hc as [Hc|Hc].
    + apply in_flat_map in Hc as (o & Ho & Hc). apply in_map_iff in Hc as (t & <- & Ht). apply in_concat in Hz as (x & Hx & Hz). apply products_In in Ht.
      assert (Q : exists l, In l o /\ In x (sub l)).
      { clear -Ht Hx. remember (map sub o) as ds eqn:E. revert o E. induction Ht as [|y d t ds Hy Ht IH]; intros o E; [destruct Hx|]. destruct o as [|l o]; [discriminate|]. cbn in E. injection E as -> ->.
        destruct Hx as [<-|Hx]; [exists l; split; [left|]; auto|]. destruct (IH Hx o eq_refl) as (k & Hk & K). exists k. split; [right|]; auto. }
      destruct Q as (l & Hl & Q). apply (SR l x z); auto. apply (RNG o l); auto.
    + apply in_concat in Hc as (zs & Hzs & Hc). apply (BA zs cl z); auto.
  - unfold cnf_clauses at 1. cbn [cn_names cn_clauses]. rewrite map_app, CA. unfold substituted. f_equal. unfold cnf_clauses.
    assert (G : forall o, In o (cn_clauses c) -> map (uncompress_clause names) (map (@concat Z) (products (map sub o))) =
      map (@concat (bool * text)) (products (map (fun l => literal_to (fst l) (snd l)) (uncompress_clause (cn_names c) o)))).
    { intros o Ho.
      assert (U : map (fun l => literal_to (fst l) (snd l)) (uncompress_clause (cn_names c) o) = map (fun l => literal_to (0 <? l) (nth (Z.to_nat (Z.abs l - 1)) (cn_names c) [])) o)
        by (unfold uncompress_clause; rewrite map_map; reflexivity).
      rewrite U.
      transitivity (map (@concat (bool * text)) (map (map (uncompress_clause names)) (products (map sub o)))).
      - rewrite !map_map. apply map_ext. intros t. unfold uncompress_clause at 1. rewrite concat_map. reflexivity.
      - rewrite <- products_map. do 2 f_equal. rewrite map_map. apply map_ext_in. intros l Hl. apply SB. apply (RNG o l Ho Hl). }
    revert G. generalize (cn_clauses c). induction l as [|o l IH]; intros G; cbn [flat_map map]; auto. rewrite map_app, G, IH; auto; [intros; apply G; right; auto|left; auto].
Qed.
(* the meaning of a substitution *)
Lemma substituted_hold preamble literal_to c a :
  (all_hold a (substituted preamble literal_to c) <->
   (forall cl, In cl (cnf_clauses c) -> exists p v, In (p, v) cl /\ all_hold a (literal_to p v)) /\
   (forall v, In v (cn_names c) -> all_hold a (preamble v))).
Proof.
  unfold substituted. rewrite all_hold_app, !all_hold_flat_map.
  assert (E : forall cl, all_hold a (map (@concat (bool * text)) (products (map (fun l => literal_to (fst l) (snd l)) cl))) <-> exists p v, In (p, v) cl /\ all_hold a (literal_to p v)).
  { intros cl. rewrite products_hold. split.
    - intros (d & Hd & H). apply in_map_iff in Hd as ([p v] & <- & Hl). exists p, v. auto.
    - intros (p & v & Hl & H). exists (literal_to p v). split; auto. apply in_map_iff. exists (p, v). auto. }
  split; intros [H1 H2]; (split; [|auto]); intros cl Hc; apply E; auto.
Qed.
(* the literals say that a function of the new variables has a value *)
Lemma substituted_function literal_to c a (f : text -> bool) :
  (forall p v, In v (cn_names c) -> (all_hold a (literal_to p v) <-> f v = p)) -> made c ->
  (all_hold a (substituted no_preamble literal_to c) <-> all_hold f (cnf_clauses c)).
Proof.
  intros H M. rewrite substituted_hold. split.
  - intros [H1 _] cl Hc. destruct (H1 cl Hc) as (p & v & Hl & K). exists p, v. split; auto. apply H; auto. eapply made_names; eauto.
  - intros H1. split; [|intros v _ ? []]. intros cl Hc. destruct (H1 cl Hc) as (p & v & Hl & K). exists p, v. split; auto. apply H; auto. eapply made_names; eauto.
Qed.
