(* PTrans6.v -- flips, liftings and compressions *)
From Coq Require Import String Ascii ZArith List Bool Lia Arith Permutation Sorted.
From Verif Require Import Spec PyBase MSet MText MCnf MFam MTrans SpecCnf SpecFam SpecTrans PText PLib PCnf1 PCnf2 PFam1 PFam2 PFam3 PFam4 PFam5 PFam6 PFam7 PFam8 PFam12 PFam13 PTrans1 PTrans2 PTrans3 PTrans4 PTrans5.
Import ListNotations.
Open Scope Z_scope.

(* ---- flip ---- *)
Lemma with_new_twice k vs : NoDup vs -> (forall v, In v vs -> ~ In v k) -> with_new k (flat_map (fun v => [v; v]) vs) = k ++ vs.
Proof.
  revert k. induction vs as [|v vs IH]; intros k N H; cbn [flat_map app]; [rewrite app_nil_r; auto|]. inversion N as [|? ? N1 N2]; subst. cbn [with_new].
  destruct (in_dec (list_eq_dec ascii_dec) v k) as [I|_]; [exfalso; apply (H v); [left|]; auto|].
  destruct (in_dec (list_eq_dec ascii_dec) v (k ++ [v])) as [_|NI]; [|exfalso; apply NI; apply in_app_iff; right; left; auto]. rewrite IH; auto; [rewrite <- app_assoc; auto|].
  intros w Hw K. apply in_app_iff in K as [K|[->|[]]]; [apply (H w); [right|]; auto|contradiction].
Qed.
Lemma flip_all c : made c -> exists F, FlipPolarity c = Ok F /\ made F /\ cn_names F = cn_names c /\ cnf_clauses F = map (map (fun l => (negb (fst l), snd l))) (cnf_clauses c).
Proof.
  intros M. destruct (substitution_built no_preamble flip_literal None c M) as (F & E & MF & NF & CF); [discriminate|]. exists F. split; auto. split; auto. split.
  - rewrite NF. cbn [new_names no_preamble app]. unfold flip_literal. cbn [app concat map snd]. destruct (made_well c M) as [N _].
    rewrite (with_new_twice [] (cn_names c) N); auto.
  - rewrite CF. unfold substituted, no_preamble. rewrite (flat_map_concat_map _ (cn_names c)).
    assert (Z : forall vs : list text, concat (map (fun _ => @nil (list (bool * text))) vs) = []) by (induction vs; auto). rewrite Z, app_nil_r. clear.
    induction (cnf_clauses c) as [|cl l IH]; auto. cbn [flat_map map]. rewrite IH. change (?x :: ?y) with ([x] ++ y). f_equal. clear. induction cl as [|[p v] cl IH]; auto.
    cbn [map products flat_map fst snd]. change (flip_literal p v) with [[(negb p, v)]]. cbn [flat_map]. rewrite app_nil_r.
    destruct (products (map (fun l => flip_literal (fst l) (snd l)) cl)) as [|t [|u r]]; cbn [map] in *; try discriminate. injection IH as <-. auto.
Qed.
(* ---- lifting ---- *)
Lemma choose_values {B} (D : list text) (P : text -> B -> Prop) (d : B) : (forall v, In v D -> exists e, P v e) -> exists f, forall v, In v D -> P v (f v).
Proof.
  induction D as [|v D IH]; intros H; [exists (fun _ => d); intros ? []|]. destruct IH as (f & Hf); [intros; apply H; right; auto|]. destruct (H v) as (e & He); [left; auto|].
  exists (fun w => if text_eqb w v then e else f w). intros w Hw. destruct (text_eqb_spec w v) as [->|NE]; auto. destruct Hw as [->|Hw]; [congruence|auto].
Qed.
Lemma xy_apart v i w j : new_variable (txt "X_") v i <> new_variable (txt "Y_") w j.
Proof. unfold new_variable. intros H. discriminate H. Qed.
Lemma selects_one a rank v : (exists s, selects a rank v s) <-> all_hold a (lift_preamble rank v).
Proof.
  unfold lift_preamble. cbv zeta. rewrite exactly_one, count_block by apply block_NoDup. unfold selects, trues, how_many. set (y := fun i => a (new_variable (txt "Y_") v i)). split.
  - intros (s & Hs & H). assert (E : filter y (range 0 rank) = filter (Z.eqb s) (range 0 rank)).
    { apply filter_ext_in. intros i Hi. apply range_In in Hi. apply eq_true_iff_eq. unfold y. rewrite (H i Hi), Z.eqb_eq. split; auto. }
    rewrite E. assert (P : Permutation (filter (Z.eqb s) (range 0 rank)) [s]); [|rewrite (Permutation_length P); auto].
    apply NoDup_Permutation; [apply NoDup_filter, range_NoDup|constructor; [intros []|constructor]|]. intros i. rewrite filter_In, Z.eqb_eq, range_In. cbn. split; [intros [_ ->]; auto|intros [<-|[]]; auto].
  - intros H. destruct (filter y (range 0 rank)) as [|s [|t l]] eqn:E; try (cbn in H; lia). exists s.
    assert (Q : forall i, In i (filter y (range 0 rank)) <-> i = s) by (intros i; rewrite E; cbn; split; [intros [K|[]]; auto|intros ->; auto]).
    assert (I : In s (filter y (range 0 rank))) by (apply Q; auto). apply filter_In in I as [I _]. apply range_In in I. split; auto.
    intros i Hi. rewrite <- Q, filter_In, range_In. unfold y. tauto.
Qed.
Lemma lift_ok a rank v s p : selects a rank v s -> (all_hold a (lift_literal rank p v) <-> a (new_variable (txt "X_") v s) = p).
Proof.
  intros [Hs H]. unfold lift_literal. split.
  - intros K. specialize (K _ (in_map (fun i => [(false, block_name (txt "Y_") v i); (p, block_name (txt "X_") v i)]) _ s (proj2 (range_In 0 rank s) Hs))). apply two_literals in K as [K|K]; auto.
    assert (T : a (new_variable (txt "Y_") v s) = true) by (apply H; auto). rewrite block_new in K. congruence.
  - intros K cl Hc. apply in_map_iff in Hc as (i & <- & Hi). apply range_In in Hi. apply two_literals. rewrite !block_new. destruct (a (new_variable (txt "Y_") v i)) eqn:Y; auto. apply H in Y; auto. subst. auto.
Qed.
Lemma lift_all c rank : made c -> exists F, FormulaLifting c rank = Ok F /\ made F /\
  (forall w, In w (cn_names F) <-> exists v i, In v (cn_names c) /\ 0 <= i < rank /\ (w = new_variable (txt "X_") v i \/ w = new_variable (txt "Y_") v i)) /\
  (forall a, all_hold a (cnf_clauses F) <-> exists s, (forall v, In v (cn_names c) -> selects a rank v (s v)) /\ all_hold (fun v => a (new_variable (txt "X_") v (s v))) (cnf_clauses c)) /\
  (1 <= rank -> (has_model (cnf_clauses F) <-> has_model (cnf_clauses c))).
Proof.
  intros M. destruct (substitution_built (lift_preamble rank) (lift_literal rank) None c M) as (F & E & MF & NF & CF); [discriminate|]. exists F. split; auto. split; auto.
  assert (A : forall a, all_hold a (cnf_clauses F) <-> exists s, (forall v, In v (cn_names c) -> selects a rank v (s v)) /\ all_hold (fun v => a (new_variable (txt "X_") v (s v))) (cnf_clauses c)).
  { intros a. rewrite CF, substituted_hold. split.
    - intros [H1 H2]. assert (S : forall v, In v (cn_names c) -> exists s, selects a rank v s) by (intros v Hv; apply selects_one; auto).
      destruct (choose_values (cn_names c) (fun v s => selects a rank v s) 0 S) as (s & Hs). exists s. split; auto. intros cl Hc. destruct (H1 cl Hc) as (p & v & Hl & K). exists p, v. split; auto. apply (lift_ok a rank v); auto. apply Hs. eapply made_names; eauto.
    - intros (s & Hs & H). split; [|intros v Hv; apply selects_one; eauto]. intros cl Hc. destruct (H cl Hc) as (p & v & Hl & K). exists p, v. split; auto. apply (lift_ok a rank v (s v)); auto. apply Hs. eapply made_names; eauto. }
  split; [|split; auto].
  - intros w. rewrite NF, with_new_In. cbn [new_names In]. rewrite in_flat_map. split.
    + intros [[]|(v & Hv & Hw)]. apply in_map_iff in Hw as (l & <- & Hl). apply in_concat in Hl as (cl & Hc & Hl). apply (in_map snd) in Hl.
      assert (L : forall p, In cl (lift_literal rank p v) -> exists i, 0 <= i < rank /\ (snd l = new_variable (txt "X_") v i \/ snd l = new_variable (txt "Y_") v i)).
      { intros p K. unfold lift_literal in K. apply in_map_iff in K as (i & <- & Hi). apply range_In in Hi. cbn [map snd] in Hl. rewrite !block_new in Hl. exists i. split; auto. destruct Hl as [<-|[<-|[]]]; auto. }
      apply in_app_iff in Hc as [Hc|Hc]; [|apply in_app_iff in Hc as [Hc|Hc]; destruct (L _ Hc) as (i & Hi & K); exists v, i; auto].
      unfold lift_preamble in Hc. cbv zeta in Hc. pose proof (exactly_names _ cl (snd l) Hc Hl) as B. apply block_In in B as (i & Hi & B). exists v, i. auto.
    + intros (v & i & Hv & Hi & K). right. exists v. split; auto. rewrite !concat_app, !map_app. apply in_app_iff. right. apply in_app_iff. left. apply in_map_iff.
      assert (Q : exists q, In (q, w) [(false, new_variable (txt "Y_") v i); (true, new_variable (txt "X_") v i)]) by (destruct K as [->| ->]; [exists true; right; left|exists false; left]; auto).
      destruct Q as (q & Q). exists (q, w). split; auto. apply in_concat. eexists. split; [|exact Q]. unfold lift_literal. apply in_map_iff. exists i. split; auto. apply range_In. auto.
  - intros HR. split.
    + intros (a & H). apply A in H as (s & _ & H). eexists. exact H.
    + intros (f & H). exists (fun w => spread (txt "X_") rank (cn_names c) (fun v _ => f v) w || spread (txt "Y_") rank (cn_names c) (fun _ i => i =? 0) w). apply A. exists (fun _ => 0).
      assert (OX : forall v i h, spread (txt "X_") rank (cn_names c) h (new_variable (txt "Y_") v i) = false).
      { intros v i h. apply not_true_iff_false. unfold spread. intros K. apply existsb_exists in K as (u & _ & K). apply existsb_exists in K as (j & _ & K). apply andb_true_iff in K as [K _]. apply text_eqb_eq in K. symmetry in K. apply xy_apart in K. auto. }
      assert (OY : forall v i h, spread (txt "Y_") rank (cn_names c) h (new_variable (txt "X_") v i) = false).
      { intros v i h. apply not_true_iff_false. unfold spread. intros K. apply existsb_exists in K as (u & _ & K). apply existsb_exists in K as (j & _ & K). apply andb_true_iff in K as [K _]. apply text_eqb_eq in K. apply xy_apart in K. auto. }
      split.
      * intros v Hv. split; [lia|]. intros i Hi. rewrite OX, spread_at by auto. cbn [orb]. apply Z.eqb_eq.
      * intros cl Hc. specialize (H cl Hc). revert H. apply clause_holds_ext. intros p v Hv. rewrite OY, spread_at; [rewrite orb_false_r; auto|eapply made_names; eauto|lia].
Qed.
(* ---- compression ---- *)
Lemma compressed_name u : compress_name u = compressed_variable u. Proof. unfold compress_name, compressed_variable, name1. reflexivity. Qed.
Lemma how_many_perm {A} (a : A -> bool) l l' : Permutation l l' -> how_many a l = how_many a l'.
Proof. intros P. rewrite !how_many_total. apply total_perm. auto. Qed.
Lemma compression_meaning majority c b v r a p : compression_vertex c b v = r ->
  (all_hold a (compression_literal majority c b p v) <-> (if p then compressed_true majority b a r else ~ compressed_true majority b a r)).
Proof.
  intros <-. set (r := compression_vertex c b v). rewrite compression_ok. cbv zeta. fold r. unfold compressed_true. cbv zeta.
  rewrite how_many_map, map_length. unfold right_neighbors. rewrite (how_many_perm _ _ _ (sort_by_Perm Z.ltb _)), (Permutation_length (sort_by_Perm Z.ltb _)).
  set (ar := map fst (filter (fun e => snd e =? r) (b_edges b))). change (fun x => a (compress_name x)) with (fun x => a (compressed_variable x)).
  set (n := how_many (fun u => a (compressed_variable u)) ar). destruct majority.
  - pose proof (maj_half (Z.of_nat (List.length ar)) n) as H. destruct p; [exact H|]. rewrite <- H. destruct (_ <=? n); split; auto; try discriminate. intros K. exfalso. auto.
  - pose proof (Z.odd_spec n) as H. destruct p; [exact H|]. rewrite <- H. destruct (Z.odd n); split; auto; try discriminate. intros K. exfalso. auto.
Qed.
Lemma compress_all_ok c b function : made c -> bipartite_graph b -> List.length (b_right b) = List.length (cn_names c) -> function = txt "xor" \/ function = txt "maj" ->
  exists F, VariableCompression c b function = Ok F /\ made F /\ cn_names F = map compressed_variable (b_left b) /\
    forall a f, (forall i v r, nth_error (cn_names c) i = Some v -> nth_error (b_right b) i = Some r -> (f v = true <-> compressed_true (negb (text_eqb function (txt "xor"))) b a r)) ->
      (all_hold a (cnf_clauses F) <-> all_hold f (cnf_clauses c)).
Proof.
  intros M B LN FN. unfold VariableCompression. replace (negb (text_eqb function (txt "xor") || text_eqb function (txt "maj"))) with false by (destruct FN as [->| ->]; reflexivity).
  rewrite LN, Nat.eqb_refl. cbn [negb]. set (mj := negb (text_eqb function (txt "xor"))).
  destruct (substitution_built no_preamble (compression_literal mj c b) (Some (map compress_name (b_left b))) c M) as (F & E & MF & NF & CF).
  - intros vs E v cl w Hv Hc Hw. injection E as <-. unfold no_preamble in Hc. cbn [app] in Hc.
    assert (K : In w (map compress_name (right_neighbors b (compression_vertex c b v)))).
    { assert (Q : forall p, In cl (compression_literal mj c b p v) -> In w (map compress_name (right_neighbors b (compression_vertex c b v)))); [|apply in_app_iff in Hc as [Hc|Hc]; eapply Q; eauto].
      intros p K. unfold compression_literal in K. cbv zeta in K. destruct mj; [destruct p; eapply inequality_names; eauto|eapply parity_names; eauto]. }
    apply in_map_iff in K as (u & <- & Hu). apply in_map. apply right_In in Hu. apply (bg_ends b B) in Hu. tauto.
  - exists F. split; auto. split; auto. split.
    + rewrite NF. cbn [new_names]. rewrite (with_new_distinct []); [reflexivity| |intros v _ []]. apply NoDup_map_in; [apply (bg_left b B)|]. intros x y _ _ K. apply name1_inj in K. auto.
    + intros a f H. rewrite CF. apply substituted_function; auto. intros p v Hv. destruct (In_nth (cn_names c) v [] Hv) as (i & Li & Ei).
      destruct (made_well c M) as [N _]. assert (CV : compression_vertex c b v = nth i (b_right b) 0).
      { unfold compression_vertex. rewrite <- Ei, position_nth by auto. f_equal. lia. }
      rewrite (compression_meaning mj c b v _ a p CV). assert (K : f v = true <-> compressed_true mj b a (nth i (b_right b) 0)).
      { apply (H i); [rewrite <- Ei|]; apply nth_error_nth'; lia. }
      destruct p; [symmetry; exact K|]. rewrite <- K. destruct (f v); split; intros Q; auto; try discriminate. exfalso. auto.
Qed.
