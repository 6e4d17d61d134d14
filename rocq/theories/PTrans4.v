(* PTrans4.v -- blocks of new variables, and what every substitution has in common *)
From Coq Require Import String Ascii ZArith List Bool Lia Arith Permutation Sorted.
From Verif Require Import Spec PyBase MSet MText MCnf MFam MTrans SpecCnf SpecFam SpecTrans PText PLib PCnf1 PCnf2 PFam1 PFam2 PFam3 PFam4 PFam5 PFam6 PFam7 PFam8 PFam12 PFam13 PTrans1 PTrans2 PTrans3.
Import ListNotations.
Open Scope Z_scope.

Lemma block_new prefix v i : block_name prefix v i = new_variable prefix v i. Proof. reflexivity. Qed.
Lemma block_name_inj p v i w j : new_variable p v i = new_variable p w j -> v = w /\ i = j.
Proof.
  unfold new_variable. intros H. apply app_inv_head in H. apply (f_equal (@rev ascii)) in H.
  change (txt "{") with ["{"%char] in H. change (txt "}^") with (["}"; "^"]%char) in H.
  repeat rewrite rev_app_distr in H. cbn [rev app] in H. rewrite <- !app_assoc in H. cbn [app] in H.
  apply split_first in H as [H1 H2].
  - apply (f_equal (@rev ascii)) in H1. rewrite !rev_involutive in H1. apply str_Z_inj in H1. split; auto.
    injection H2 as H2. apply app_inv_tail in H2. apply (f_equal (@rev ascii)) in H2. rewrite !rev_involutive in H2. auto.
  - rewrite <- in_rev. apply str_Z_no. right. right. reflexivity.
  - rewrite <- in_rev. apply str_Z_no. right. right. reflexivity.
Qed.
Lemma block_NoDup p rank v : NoDup (block p rank v).
Proof. unfold block. apply NoDup_map_in; [apply range_NoDup|]. intros x y _ _ E. apply block_name_inj in E. tauto. Qed.
Lemma block_In p rank v w : In w (block p rank v) <-> exists i, 0 <= i < rank /\ w = new_variable p v i.
Proof.
  unfold block. rewrite in_map_iff. split.
  - intros (i & <- & Hi). apply range_In in Hi. exists i. auto.
  - intros (i & Hi & ->). exists i. split; auto. apply range_In. auto.
Qed.
(* an assignment with given values on the blocks *)
Definition spread (p : text) (rank : Z) (names : list text) (h : text -> Z -> bool) (w : text) : bool :=
  existsb (fun v => existsb (fun i => text_eqb w (new_variable p v i) && h v i) (range 0 rank)) names.
Lemma spread_at p rank names h v i : In v names -> 0 <= i < rank -> spread p rank names h (new_variable p v i) = h v i.
Proof.
  intros Hv Hi. unfold spread. apply eq_true_iff_eq. rewrite existsb_exists. split.
  - intros (w & Hw & E). apply existsb_exists in E as (j & Hj & E). apply andb_true_iff in E as [E H]. apply text_eqb_eq in E. apply block_name_inj in E as [<- <-]. auto.
  - intros H. exists v. split; auto. apply existsb_exists. exists i. split; [apply range_In; auto|]. rewrite text_eqb_refl, H. auto.
Qed.
(* clauses that do not mention w do not depend on it *)
Lemma depends (F : list (list (bool * text))) (a b : text -> bool) w : (forall x, x <> w -> a x = b x) -> all_hold a F -> ~ all_hold b F -> In w (map snd (concat F)).
Proof.
  intros E H N. destruct (in_dec (list_eq_dec ascii_dec) w (map snd (concat F))) as [|NI]; auto. exfalso. apply N. intros cl Hc.
  apply (clause_holds_ext a b); auto. intros p v Hv. apply E. intros ->. apply NI. apply in_map_iff. exists (p, w). split; auto. apply in_concat. eauto.
Qed.

Definition flip_at (i : Z) (x : Z -> bool) (j : Z) : bool := if j =? i then negb (x j) else x j.
Lemma flip_count i x (l : list Z) : NoDup l -> In i l -> x i = true -> how_many (flip_at i x) l = how_many x l - 1.
Proof.
  unfold how_many. induction l as [|j l IH]; intros N Hi Hx; [destruct Hi|]. inversion N as [|? ? N1 N2]; subst. cbn [filter]. unfold flip_at at 1. destruct (Z.eqb_spec j i) as [->|NE].
  - rewrite Hx. cbn [negb List.length]. replace (filter (flip_at i x) l) with (filter x l); [lia|]. apply filter_ext_in. intros k Hk. unfold flip_at. destruct (Z.eqb_spec k i) as [->|]; [contradiction|auto].
  - destruct Hi as [->|Hi]; [contradiction|]. specialize (IH N2 Hi Hx). destruct (x j); cbn [List.length]; lia.
Qed.
(* any number of true members, a given one among them *)
Lemma some_count i (l : list Z) k : NoDup l -> In i l -> 1 <= k <= Z.of_nat (List.length l) -> exists x, x i = true /\ how_many x l = k.
Proof.
  intros N Hi Hk. replace k with (Z.of_nat (List.length l) - Z.of_nat (Z.to_nat (Z.of_nat (List.length l) - k))) by lia.
  assert (B : Z.of_nat (Z.to_nat (Z.of_nat (List.length l) - k)) <= Z.of_nat (List.length l) - 1) by lia. revert B. generalize (Z.to_nat (Z.of_nat (List.length l) - k)). clear k Hk. induction n as [|n IH]; intros B.
  - exists (fun _ => true). split; auto. unfold how_many. replace (filter (fun _ : Z => true) l) with l; [lia|]. clear. induction l; cbn; [auto|f_equal; auto].
  - destruct IH as (x & Hx & C); [lia|]. assert (Q : exists j, In j l /\ x j = true /\ j <> i).
    { unfold how_many in C. assert (I : In i (filter x l)) by (apply filter_In; auto). pose proof (NoDup_filter x N) as N2. destruct (filter x l) as [|y [|z t]] eqn:F; [destruct I|cbn in C; lia|].
      assert (W : exists j, In j (y :: z :: t) /\ j <> i).
      { destruct (Z.eq_dec y i) as [->|]; [|exists y; split; [left|]; auto]. exists z. split; [right; left; auto|]. intros ->. inversion N2 as [|? ? X]; subst. apply X. left. auto. }
      destruct W as (j & Hj & NE). rewrite <- F in Hj. apply filter_In in Hj as [? ?]. eauto. }
    destruct Q as (j & Hj & Xj & NE). exists (flip_at j x). split; [unfold flip_at; destruct (Z.eqb_spec i j); [congruence|auto]|]. rewrite flip_count by auto. lia.
Qed.

Section Common.
  Variable prefix : text.
  Variable rank : Z.
  Variable literal_to : bool -> text -> list (list (bool * text)).
  Variable g : (Z -> bool) -> bool.
  Variable P : (Z -> bool) -> Prop.
  Hypothesis g_P : forall x, g x = true <-> P x.
  Hypothesis lit_ok : forall p v a, all_hold a (literal_to p v) <-> g (fun i => a (new_variable prefix v i)) = p.
  Hypothesis lit_names : forall p v cl w, In cl (literal_to p v) -> In w (map snd cl) -> In w (block prefix rank v).

  Lemma common_ok c : made c -> exists F, base_substitution no_preamble literal_to None c = Ok F /\ replaced_by c prefix rank P F /\
    cnf_clauses F = substituted no_preamble literal_to c /\ cn_names F = with_new [] (new_names no_preamble literal_to None (cn_names c)).
  Proof.
    intros M. destruct (substitution_built no_preamble literal_to None c M) as (F & E & MF & NF & CF); [discriminate|]. exists F. split; auto. split; auto. split; auto.
    - intros w Hw. rewrite NF in Hw. apply with_new_In in Hw as [[]|Hw]. cbn [new_names] in Hw. apply in_flat_map in Hw as (v & Hv & Hw). apply in_map_iff in Hw as (l & <- & Hl). apply in_concat in Hl as (cl & Hc & Hl).
      assert (B : In (snd l) (block prefix rank v)).
      { unfold no_preamble in Hc. cbn [app] in Hc. apply in_app_iff in Hc as [Hc|Hc]; eapply lit_names; eauto; apply in_map; auto. }
      apply block_In in B as (i & Hi & B). exists v, i. auto.
    - intros a f H. rewrite CF. apply substituted_function; auto. intros p v Hv. rewrite lit_ok. specialize (H v Hv). rewrite <- g_P in H. apply eq_true_iff_eq in H. rewrite H. tauto.
  Qed.
  Hypothesis g_ext : forall x y, (forall i, 0 <= i < rank -> x i = y i) -> g x = g y.
  Hypothesis all_matter : forall i, 0 <= i < rank -> exists x, g x = true /\ g (flip_at i x) = false.

  Lemma all_appear v i : 0 <= i < rank -> In (new_variable prefix v i) (map snd (concat (literal_to true v ++ literal_to false v))).
  Proof.
    intros Hi. rewrite concat_app, map_app. apply in_app_iff. left. destruct (all_matter i Hi) as (x & X1 & X0).
    set (w := new_variable prefix v i). set (a := spread prefix rank [v] (fun _ => x)).
    apply (depends (literal_to true v) a (fun t => if text_eqb t w then negb (a t) else a t)).
    - intros t NE. destruct (text_eqb t w) eqn:E; auto. apply text_eqb_eq in E. contradiction.
    - apply lit_ok. rewrite <- X1. apply g_ext. intros j Hj. unfold a. apply spread_at; [left; auto|auto].
    - rewrite lit_ok. intros K. enough (Q : true = false) by discriminate. rewrite <- K, <- X0. apply g_ext. intros j Hj. unfold a. rewrite spread_at by (auto; left; auto). unfold flip_at.
      destruct (Z.eqb_spec j i) as [->|NE]; [unfold w; rewrite text_eqb_refl; auto|]. destruct (text_eqb (new_variable prefix v j) w) eqn:E; auto. apply text_eqb_eq in E. unfold w in E. apply block_name_inj in E. tauto.
  Qed.
  Lemma blocks_NoDup vs : NoDup vs -> NoDup (flat_map (block prefix rank) vs).
  Proof.
    intros N. apply flat_map_NoDup; auto; [intros; apply block_NoDup|]. intros v w x _ _ H1 H2. apply block_In in H1 as (i & _ & ->). apply block_In in H2 as (j & _ & E). apply block_name_inj in E as [E _]. auto.
  Qed.
  Lemma common_faithful c F : 1 <= rank -> made c -> base_substitution no_preamble literal_to None c = Ok F -> faithful c prefix rank F.
  Proof.
    intros HR M E. destruct (common_ok c M) as (F' & E' & [MF NM ME] & CF & NF). rewrite E in E'. injection E' as <-.
    assert (A : forall v i, In v (cn_names c) -> 0 <= i < rank -> In (new_variable prefix v i) (cn_names F)).
    { intros v i Hv Hi. rewrite NF. apply with_new_In. right. cbn [new_names]. apply in_flat_map. exists v. split; auto. unfold no_preamble. apply all_appear. auto. }
    split; auto.
    - destruct (made_well F MF) as [ND _]. destruct (made_well c M) as [ND' _].
      assert (L : List.length (cn_names F) = List.length (flat_map (block prefix rank) (cn_names c))).
      { apply Nat.le_antisymm; apply NoDup_incl_length; auto; [| apply blocks_NoDup; auto |]; intros w Hw.
        - destruct (NM w Hw) as (v & i & Hv & Hi & ->). apply in_flat_map. exists v. split; auto. apply block_In. eauto.
        - apply in_flat_map in Hw as (v & Hv & Hw). apply block_In in Hw as (i & Hi & ->). auto. }
      rewrite L. assert (K : forall vs, Z.of_nat (List.length (flat_map (block prefix rank) vs)) = rank * Z.of_nat (List.length vs)); [|apply K].
      induction vs as [|v vs IH]; cbn [flat_map List.length]; [lia|]. rewrite app_length, Nat2Z.inj_add, IH. unfold block at 1. rewrite map_length, range_length. lia.
    - split.
      + intros (a & H). exists (fun v => g (fun i => a (new_variable prefix v i))). apply (ME a); auto.
      + intros (f & H). destruct (all_matter 0) as (x1 & X1 & X0); [lia|]. set (x0 := flip_at 0 x1) in *.
        exists (spread prefix rank (cn_names c) (fun v i => if f v then x1 i else x0 i)). apply (ME _ f); auto. intros v Hv. rewrite <- g_P.
        assert (Q : g (fun i => spread prefix rank (cn_names c) (fun v i => if f v then x1 i else x0 i) (new_variable prefix v i)) = f v).
        { destruct (f v) eqn:Ef; [rewrite <- X1|rewrite <- X0]; apply g_ext; intros i Hi; rewrite spread_at, Ef by auto; auto. }
        rewrite Q. tauto.
  Qed.
End Common.
