(* PP36.v -- properties about the labels of the drawn graph (C97): statements and proofs. *)
From Coq Require Import String Ascii ZArith List Bool Lia Permutation.
From Verif Require Import Spec PyBase MSet MText MQueue MDb MSolver MMain MProc MShare MCli MReport MDot SpecRun SpecThief SpecReport SpecLabel
  PLib PClause PRename PLo PNorm PEval PText PQueue PNode PStep PRun PSolver PSolve PThief PReader PReport PLabel PSplit PSplit2 SpecProc SpecCli PCli PP1 PP6 PP14.
Import ListNotations.
Open Scope Z_scope.

(* C97: with -g every recorded node has one box, in the order of discovery, and a label: the first box shows the input and
   its normal form; each other one what led to it.  The name of a box is the hash of the clauses that its label shows; the
   label is about the input; and the literal that it names as the highest occurring one is one of the most frequent *)
Lemma p_C97_labels : forall hash insert_fails o root db out,
  root_ok root -> fresh_db o insert_fails db -> ends_with hash insert_fails o root db out -> o_graph o = true ->
  exists first normal rest,
    dot_labels root (out_dot out) =
      Ok ((first, shown_formula (numbered_clauses (clauses root)) ++ line_end ++ shown_formula (sh_formula normal)) ::
          map (fun b => (fst b, label_text (snd b))) rest) /\
    first :: map fst rest = dkeys (out_children out) /\ first = hash (formula_text (lits_of normal)) /\ about (raws root) normal /\
    sh_path normal = evaluated_vars root /\
    forall id sh, In (id, sh) rest -> id = hash (formula_text (lits_of sh)) /\ about (raws root) sh /\
      most_frequent (concat (lits_of sh)) (sh_most sh).
Proof.
  intros hash ifl o root db out RO FD E Hg.
  destruct (ends_solved hash ifl o root db RO FD out E) as (r & p & done & pend & S).
  pose proof (sv_inv _ _ _ _ _ _ _ _ _ _ _ S) as I.
  rewrite (sv_children _ _ _ _ _ _ _ _ _ _ _ S), (sv_dot _ _ _ _ _ _ _ _ _ _ _ S).
  pose proof (i_keys _ _ _ _ _ _ _ _ _ _ _ _ _ I) as Ek. pose proof (i_root _ _ _ _ _ _ _ _ _ _ _ _ _ I) as Er.
  pose proof (i_nodes _ _ _ _ _ _ _ _ _ _ _ _ _ I) as N.
  assert (B : dot_boxes (p_dot p) = map (fun s => (sid s, s)) (ys done pend)).
  { rewrite boxes_combine, (i_dot1 _ _ _ _ _ _ _ _ _ _ _ _ _ I Hg), (i_dot5 _ _ _ _ _ _ _ _ _ _ _ _ _ I Hg). apply combine_self. }
  rewrite Ek. unfold dot_labels. rewrite B.
  rewrite (pretty_shown root (ro_value _ RO) (ro_ne _ RO) (ro_nonempty _ RO)). cbn [bind].
  destruct (ys done pend) as [|x xs]; [discriminate|]. injection Er as ->. cbn [map fst snd].
  destruct (N r (or_introl eq_refl)) as [(N1 & N2 & _) _]. rewrite (node_pretty _ _ N1). cbn [bind].
  rewrite (mapM_labels (raws root)) by (intros s J; apply N; right; exact J). cbn [bind].
  exists (sid r), (shows r), (map (fun s => (sid s, shows s)) xs). rewrite !map_map. split; [reflexivity|]. split; [reflexivity|].
  rewrite shows_lits. split; [exact N2|]. split; [exact (node_about _ _ N1)|]. split; [exact (sv_ev _ _ _ _ _ _ _ _ _ _ _ S)|].
  intros id sh J. apply in_map_iff in J as (s & J & K). injection J as <- <-. rewrite shows_lits.
  destruct (N s (or_intror K)) as [(M1 & M2 & _) R]. split; [exact M2|]. split; [exact (node_about _ _ M1)|].
  assert (Hs : searched hash o root s).
  { eapply reach_searched; [exact (proj1 (N r (or_introl eq_refl)))|exact (sv_bound _ _ _ _ _ _ _ _ _ _ _ S)|exact (sv_prep _ _ _ _ _ _ _ _ _ _ _ S)|exact R]. }
  exact (searched_top _ _ _ _ Hs).
Qed.

(* C97: clause by clause, when no variable is called 0: what a label shows are the input clauses not satisfied on the way,
   without the literals that have a value; the number behind a clause is that of the input clause, unless -rdb is on *)
Lemma p_C97_clauses : forall hash insert_fails o root db out id text,
  root_ok root -> ~ In 0 (fvars (raws root)) -> fresh_db o insert_fails db -> ends_with hash insert_fails o root db out -> o_graph o = true ->
  forall labels, dot_labels root (out_dot out) = Ok labels -> In (id, text) (tl labels) ->
  exists sh, text = label_text sh /\ clauses_left (negb (o_rdb o)) (clauses root) sh.
Proof.
  intros hash ifl o root db out id t RO HZ FD E Hg labels EL J.
  destruct (ends_solved hash ifl o root db RO FD out E) as (r & p & done & pend & S).
  pose proof (sv_inv _ _ _ _ _ _ _ _ _ _ _ S) as I. rewrite (sv_dot _ _ _ _ _ _ _ _ _ _ _ S) in EL.
  pose proof (i_root _ _ _ _ _ _ _ _ _ _ _ _ _ I) as Er. pose proof (i_nodes _ _ _ _ _ _ _ _ _ _ _ _ _ I) as N.
  assert (B : dot_boxes (p_dot p) = map (fun s => (sid s, s)) (ys done pend)).
  { rewrite boxes_combine, (i_dot1 _ _ _ _ _ _ _ _ _ _ _ _ _ I Hg), (i_dot5 _ _ _ _ _ _ _ _ _ _ _ _ _ I Hg). apply combine_self. }
  unfold dot_labels in EL. rewrite B in EL. apply bind_ok in EL as (before & _ & EL).
  destruct (ys done pend) as [|x xs]; [discriminate|]. injection Er as ->. cbn [map fst snd] in EL. apply bind_ok in EL as (after & _ & EL).
  rewrite (mapM_labels (raws root)) in EL by (intros s K; apply N; right; exact K). cbn [bind] in EL. injection EL as <-. cbn [tl] in J.
  apply in_map_iff in J as (s & J & K). injection J as _ <-. exists (shows s). split; [reflexivity|].
  apply (searched_left hash o root s RO HZ).
  eapply reach_searched; [exact (proj1 (N r (or_introl eq_refl)))|exact (sv_bound _ _ _ _ _ _ _ _ _ _ _ S)|exact (sv_prep _ _ _ _ _ _ _ _ _ _ _ S)|].
  exact (proj2 (N s (or_intror K))).
Qed.

(* C97: the way to a box: each box but the first has an arrow from another box such that the values in its label are those in
   the label of that box and one for the input variable behind the leading variable of the clauses shown there *)
Lemma p_C97_path : forall hash insert_fails o root db out,
  root_ok root -> fresh_db o insert_fails db -> ends_with hash insert_fails o root db out -> o_graph o = true ->
  exists first normal rest,
    dot_labels root (out_dot out) =
      Ok ((first, shown_formula (numbered_clauses (clauses root)) ++ line_end ++ shown_formula (sh_formula normal)) ::
          map (fun b => (fst b, label_text (snd b))) rest) /\
    sh_path normal = evaluated_vars root /\
    forall id sh, In (id, sh) rest -> exists id' sh' b, In (id', sh') ((first, normal) :: rest) /\ In (id', id) (dot_edges (out_dot out)) /\
      Permutation (sh_path sh) ((origin sh' (leading (hd [] (lits_of sh'))), b) :: sh_path sh').
Proof.
  intros hash ifl o root db out RO FD E Hg.
  destruct (ends_solved hash ifl o root db RO FD out E) as (r & p & done & pend & S).
  pose proof (sv_inv _ _ _ _ _ _ _ _ _ _ _ S) as I. rewrite (sv_dot _ _ _ _ _ _ _ _ _ _ _ S).
  pose proof (i_root _ _ _ _ _ _ _ _ _ _ _ _ _ I) as Er. pose proof (i_nodes _ _ _ _ _ _ _ _ _ _ _ _ _ I) as N.
  assert (B : dot_boxes (p_dot p) = map (fun s => (sid s, s)) (ys done pend)).
  { rewrite boxes_combine, (i_dot1 _ _ _ _ _ _ _ _ _ _ _ _ _ I Hg), (i_dot5 _ _ _ _ _ _ _ _ _ _ _ _ _ I Hg). apply combine_self. }
  pose proof (i_par _ _ _ _ _ _ _ _ _ _ _ _ _ I) as Par. pose proof (i_nodup _ _ _ _ _ _ _ _ _ _ _ _ _ I) as ND.
  assert (In1 : forall e, In e done -> In (e_node e) (ys done pend)).
  { intros e He. unfold ys. apply in_app_iff. left. apply in_map. exact He. }
  unfold dot_labels. rewrite B.
  rewrite (pretty_shown root (ro_value _ RO) (ro_ne _ RO) (ro_nonempty _ RO)). cbn [bind].
  destruct (ys done pend) as [|x xs]; [discriminate|]. injection Er as ->. cbn [map fst snd].
  destruct (N r (or_introl eq_refl)) as [(N1 & N2 & _) _]. rewrite (node_pretty _ _ N1). cbn [bind].
  rewrite (mapM_labels (raws root)) by (intros s J; apply N; right; exact J). cbn [bind].
  exists (sid r), (shows r), (map (fun s => (sid s, shows s)) xs). rewrite !map_map. split; [reflexivity|].
  split; [exact (sv_ev _ _ _ _ _ _ _ _ _ _ _ S)|].
  intros id sh J. apply in_map_iff in J as (s & J & K). injection J as <- <-.
  destruct (Par s (or_intror K)) as [->|([[x k1] k2] & He & Hk)].
  { exfalso. cbn [map] in ND. inv ND. apply H1. apply in_map. exact K. }
  pose proof (In1 _ He) as Hx. cbn [e_node fst snd] in Hx, Hk.
  destruct (i_exp _ _ _ _ _ _ _ _ _ _ _ _ _ I x k1 k2 He) as (EX & _).
  destruct (N x Hx) as [(Nx & _) _].
  destruct (expands_path _ _ _ _ _ _ _ _ s Nx EX Hk) as (b & P).
  exists (sid x), (shows x), b. split; [|split].
  - destruct Hx as [->|Hx]; [left; reflexivity|right]. apply in_map_iff. exists x. auto.
  - rewrite (i_dot2 _ _ _ _ _ _ _ _ _ _ _ _ _ I Hg). apply in_flat_map. exists (x, k1, k2). split; [exact He|].
    unfold e_edges. cbn [e_node fst snd]. apply in_map. unfold e_kids. cbn [fst snd]. apply in_app_iff. destruct Hk as [->| ->]; [left|right]; left; reflexivity.
  - rewrite shows_lits. rewrite (origin_oname (raws root) x _ Nx); [exact P|].
    pose proof (node_evaluate _ _ Nx) as (l & r' & po & _ & Hpi & _). exact Hpi.
Qed.

(* C97: the arrows to the leaves: one from a box to True says that every assignment with the values in the label of the box and one
   of the two values of the input variable behind the leading variable makes the input true; one to False, that none does *)
Lemma p_C97_leaf_arrows : forall hash insert_fails o root db out,
  root_ok root -> fresh_db o insert_fails db -> ends_with hash insert_fails o root db out -> o_graph o = true ->
  exists first normal rest,
    dot_labels root (out_dot out) =
      Ok ((first, shown_formula (numbered_clauses (clauses root)) ++ line_end ++ shown_formula (sh_formula normal)) ::
          map (fun b => (fst b, label_text (snd b))) rest) /\
    sh_path normal = evaluated_vars root /\
    forall id v, In (id, v) (dot_leaf_edges (out_dot out)) -> exists sh b, In (id, sh) ((first, normal) :: rest) /\
      forall a, extends a ((origin sh (leading (hd [] (lits_of sh))), b) :: sh_path sh) ->
        (v = true -> cnf_true a (raws root)) /\ (v = false -> ~ cnf_true a (raws root)).
Proof.
  intros hash ifl o root db out RO FD E Hg.
  destruct (ends_solved hash ifl o root db RO FD out E) as (r & p & done & pend & S).
  pose proof (sv_inv _ _ _ _ _ _ _ _ _ _ _ S) as I. rewrite (sv_dot _ _ _ _ _ _ _ _ _ _ _ S).
  pose proof (i_root _ _ _ _ _ _ _ _ _ _ _ _ _ I) as Er. pose proof (i_nodes _ _ _ _ _ _ _ _ _ _ _ _ _ I) as N.
  assert (B : dot_boxes (p_dot p) = map (fun s => (sid s, s)) (ys done pend)).
  { rewrite boxes_combine, (i_dot1 _ _ _ _ _ _ _ _ _ _ _ _ _ I Hg), (i_dot5 _ _ _ _ _ _ _ _ _ _ _ _ _ I Hg). apply combine_self. }
  assert (In1 : forall e, In e done -> In (e_node e) (ys done pend)).
  { intros e He. unfold ys. apply in_app_iff. left. apply in_map. exact He. }
  unfold dot_labels. rewrite B.
  rewrite (pretty_shown root (ro_value _ RO) (ro_ne _ RO) (ro_nonempty _ RO)). cbn [bind].
  destruct (ys done pend) as [|x xs]; [discriminate|]. injection Er as ->. cbn [map fst snd].
  destruct (N r (or_introl eq_refl)) as [(N1 & N2 & _) _]. rewrite (node_pretty _ _ N1). cbn [bind].
  rewrite (mapM_labels (raws root)) by (intros s J; apply N; right; exact J). cbn [bind].
  exists (sid r), (shows r), (map (fun s => (sid s, shows s)) xs). rewrite !map_map. split; [reflexivity|].
  split; [exact (sv_ev _ _ _ _ _ _ _ _ _ _ _ S)|].
  intros id v J. rewrite (i_dot3 _ _ _ _ _ _ _ _ _ _ _ _ _ I Hg) in J. apply in_flat_map in J as ([[x k1] k2] & He & J).
  unfold e_leaf_edges in J. apply in_map_iff in J as (w & J & K). injection J as <- <-. cbn [e_node fst snd] in K |- *.
  pose proof (In1 _ He) as Hx. cbn [e_node fst snd] in Hx. destruct (N x Hx) as [(Nx & _) _].
  destruct (i_exp _ _ _ _ _ _ _ _ _ _ _ _ _ I x k1 k2 He) as (EX & _).
  destruct (expands_leaf _ _ _ _ _ _ _ _ w Nx EX K) as (b & P).
  exists (shows x), b. split; [destruct Hx as [->|Hx]; [left; reflexivity|right; apply in_map_iff; exists x; auto]|].
  rewrite shows_lits. rewrite (origin_oname (raws root) x _ Nx); [exact P|].
  pose proof (node_evaluate _ _ Nx) as (l & r' & po & _ & Hpi & _). exact Hpi.
Qed.

(* C97: nothing is lost in a label: two that are written alike say the same *)
Lemma p_C97_labels_unambiguous : forall sh sh', label_text sh = label_text sh' -> sh = sh'.
Proof. exact label_text_inj. Qed.
(* C97: so a label tells models of the input: an assignment that makes the clauses shown true, carried over to the input variables
   and completed by the values of the label, makes the input true *)
Lemma p_C97_models_carry_over : forall F sh a, about F sh -> cnf_true a (lits_of sh) ->
  exists a', extends a' (sh_path sh) /\ (forall v, In v (fvars (lits_of sh)) -> a' (origin sh v) = a v) /\ cnf_true a' F.
Proof.
  intros F sh a (ND & A1 & A2 & A3) T.
  pose (a' := fun x => match dget Z.eqb x (sh_path sh) with
                       | Some b => b
                       | None => match find (fun v => origin sh v =? x) (fvars (lits_of sh)) with Some v => a v | None => false end
                       end).
  assert (X : extends a' (sh_path sh)).
  { intros v b I. unfold a'. rewrite (dget_In_NoDup _ zspec v b (sh_path sh) ND I). reflexivity. }
  assert (O : forall v, In v (fvars (lits_of sh)) -> a' (origin sh v) = a v).
  { intros v I. unfold a'. destruct (A1 v I) as (x & Ex & _ & Nx). assert (Eo : origin sh v = x) by (unfold origin; rewrite Ex; reflexivity). rewrite Eo.
    rewrite (proj2 (dget_None _ zspec x (sh_path sh)) Nx). destruct (find _ _) as [w|] eqn:Ef.
    - apply find_some in Ef as [Iw Ew]. apply Z.eqb_eq in Ew. f_equal. apply A2; auto. congruence.
    - exfalso. pose proof (find_none _ _ Ef v I) as K. cbn beta in K. rewrite Eo, Z.eqb_refl in K. discriminate. }
  exists a'. split; [exact X|]. split; [exact O|]. apply (A3 a' X). apply (cnf_true_ext a); [|exact T]. intros v I. symmetry. apply O. exact I.
Qed.

(* C97: and so for every command: the file that -g writes, with or without worker processes (of which none breaks down), shows
   labelled boxes: all that the theorems above say of the labels of a single process holds of those of the file *)
Lemma p_C97_command : forall e fuel lf c db name i root out lines file ver written shown g d,
  SpecCli.proper c -> reads_file c name i -> get_cnf_set i = Ok root -> root_ok root ->
  c_factorize c = false -> c_multiply c = None ->
  (c_gdb c = true -> db = [] /\ forall h, e_insert_fails e h = false) -> (forall k, e_worker_fails e k = false) ->
  command e fuel lf c db = Ok (Ran (Report out lines file ver) written shown) -> In (g, GraphFile d) written ->
  exists first normal rest,
    dot_labels root d =
      Ok ((first, shown_formula (numbered_clauses (clauses root)) ++ line_end ++ shown_formula (sh_formula normal)) ::
          map (fun b => (fst b, label_text (snd b))) rest) /\
    first :: map fst rest = dot_nodes d /\ NoDup (dot_nodes d) /\
    first = e_hash e (formula_text (lits_of normal)) /\ about (raws root) normal /\ sh_path normal = evaluated_vars root /\
    (forall id sh, In (id, sh) rest ->
      id = e_hash e (formula_text (lits_of sh)) /\ about (raws root) sh /\ most_frequent (concat (lits_of sh)) (sh_most sh) /\
      (~ In 0 (fvars (raws root)) -> clauses_left (negb (c_rdb c)) (clauses root) sh) /\
      exists id' sh' b, In (id', sh') ((first, normal) :: rest) /\ In (id', id) (dot_edges d) /\
        Permutation (sh_path sh) ((origin sh' (leading (hd [] (lits_of sh'))), b) :: sh_path sh')) /\
    (forall id v, In (id, v) (dot_leaf_edges d) -> exists sh b, In (id, sh) ((first, normal) :: rest) /\
       forall a, extends a ((origin sh (leading (hd [] (lits_of sh))), b) :: sh_path sh) ->
         (v = true -> cnf_true a (raws root)) /\ (v = false -> ~ cnf_true a (raws root))).
Proof.
  intros e fuel lf c db name i root out lines file ver written shown g d P HR Hg RO Hf Hm Hdb Hw H Hin.
  destruct (p_C58_files_written _ _ _ _ _ _ _ _ H) as (W & _ & _).
  rewrite proper_command in H by auto. apply bind_ok in H as (ans' & E & H). injection H as -> Ewr Esh.
  destruct (reads_chosen c name i (pr_input c P) HR) as [Ei _]. rewrite Ei in E.
  unfold main_with in E. rewrite Hg in E. cbn [bind] in E. unfold preprocess_with in E. cbn [a_factorize a_multiply main_opts_of] in E.
  rewrite Hf, Hm in E. unfold run_with in E. destruct (_ && _); [discriminate|].
  assert (FD : fresh_db (opts_of c) (e_insert_fails e) db) by (split; [exact Hdb|exact (pr_gnm c P)]).
  assert (S : solver e fuel lf c root db = Ok out).
  { destruct (get_hash (e_hash e) false root) as [[h s]| |] eqn:Eh; cbn [bind catch] in E; try discriminate.
    assert (Es : exists h', s = set_hash root h').
    { unfold get_hash in Eh. destruct (computed_hash root) as [h0|] eqn:E0.
      - injection Eh as _ <-. exists (Some h0). rewrite <- E0. destruct root; reflexivity.
      - apply bind_ok in Eh as (t & _ & Eh). injection Eh as _ <-. eexists. reflexivity. }
    destruct Es as (h' & ->). rewrite solver_hash in E.
    destruct (solver e fuel lf c root db) as [out'| |]; cbn [bind catch] in E; try discriminate.
    destruct (fact_lines _ _) as [l1| |]; cbn [bind catch] in E; try discriminate.
    destruct (mult_lines _ _) as [l2| |]; cbn [bind catch] in E; try discriminate.
    injection E as -> _ _ _. reflexivity. }
  assert (M : main_part (e_hash e) (opts_of c) root db (out_dot out)).
  { unfold solver in S. destruct (c_gdb c) eqn:Eg.
    - eapply sh_main; [exact RO|exact FD|exact Hw|exact S].
    - eapply mp_main; [exact RO|exact FD|exact Hw|exact S]. }
  destruct (W _ _ Hin) as (out' & l' & f' & v' & Ea & [(K1 & K2 & K3)|(_ & sol & n' & i' & st & _ & _ & K & _)]); [|discriminate].
  injection Ea as <- _ _ _. injection K3 as ->.
  assert (Og : o_graph (opts_of c) = true) by (cbn [o_graph opts_of]; rewrite K1; destruct g; [congruence|reflexivity]).
  clear - RO M Og. destruct M as (lf & r & p & done & pend & E1 & Hb & Hev & I & ->).
  pose proof (i_root _ _ _ _ _ _ _ _ _ _ _ _ _ I) as Er.
  pose proof (i_nodes _ _ _ _ _ _ _ _ _ _ _ _ _ I) as N.
  pose proof (i_dot1 _ _ _ _ _ _ _ _ _ _ _ _ _ I Og) as D1.
  pose proof (i_par _ _ _ _ _ _ _ _ _ _ _ _ _ I) as Par. pose proof (i_nodup _ _ _ _ _ _ _ _ _ _ _ _ _ I) as ND.
  assert (B : dot_boxes (p_dot p) = map (fun s => (sid s, s)) (ys done pend)).
  { rewrite boxes_combine, D1, (i_dot5 _ _ _ _ _ _ _ _ _ _ _ _ _ I Og). apply combine_self. }
  assert (In1 : forall e, In e done -> In (e_node e) (ys done pend)).
  { intros x He. unfold ys. apply in_app_iff. left. apply in_map. exact He. }
  unfold dot_labels. rewrite B, D1.
  rewrite (pretty_shown root (ro_value _ RO) (ro_ne _ RO) (ro_nonempty _ RO)). cbn [bind].
  destruct (ys done pend) as [|x xs]; [discriminate|]. injection Er as ->. cbn [map fst snd].
  destruct (N r (or_introl eq_refl)) as [(N1 & N2 & _) _]. rewrite (node_pretty _ _ N1). cbn [bind].
  rewrite (mapM_labels (raws root)) by (intros s J; apply N; right; exact J). cbn [bind].
  exists (sid r), (shows r), (map (fun s => (sid s, shows s)) xs). rewrite !map_map. split; [reflexivity|]. split; [reflexivity|].
  split; [exact ND|]. rewrite shows_lits. split; [exact N2|]. split; [exact (node_about _ _ N1)|]. split; [exact Hev|]. split.
  2: { intros id v J. rewrite (i_dot3 _ _ _ _ _ _ _ _ _ _ _ _ _ I Og) in J. apply in_flat_map in J as ([[x k1] k2] & He & J).
       unfold e_leaf_edges in J. apply in_map_iff in J as (w & J & K). injection J as <- <-. cbn [e_node fst snd] in K |- *.
       pose proof (In1 _ He) as Hx. cbn [e_node fst snd] in Hx. destruct (N x Hx) as [(Nx & _) _].
       destruct (i_exp _ _ _ _ _ _ _ _ _ _ _ _ _ I x k1 k2 He) as (EX & _).
       destruct (expands_leaf _ _ _ _ _ _ _ _ w Nx EX K) as (b & P).
       exists (shows x), b. split; [destruct Hx as [->|Hx]; [left; reflexivity|right; apply in_map_iff; exists x; auto]|].
       rewrite shows_lits. rewrite (origin_oname (raws root) x _ Nx); [exact P|].
       pose proof (node_evaluate _ _ Nx) as (l & r' & po & _ & Hpi & _). exact Hpi. }
  intros id sh J. apply in_map_iff in J as (s & J & K). injection J as <- <-. rewrite shows_lits.
  destruct (N s (or_intror K)) as [(M1 & M2 & _) R]. split; [exact M2|]. split; [exact (node_about _ _ M1)|].
  assert (Hs : searched (e_hash e) (opts_of c) root s).
  { eapply reach_searched; [exact (proj1 (N r (or_introl eq_refl)))|exact Hb|exact E1|exact R]. }
  split; [exact (searched_top _ _ _ _ Hs)|]. split.
  { intros HZ. exact (searched_left (e_hash e) (opts_of c) root s RO HZ Hs). }
  destruct (Par s (or_intror K)) as [->|([[x k1] k2] & He & Hk)].
  { exfalso. cbn [map] in ND. inv ND. apply H1. apply in_map. exact K. }
  pose proof (In1 _ He) as Hx. cbn [e_node fst snd] in Hx, Hk.
  destruct (i_exp _ _ _ _ _ _ _ _ _ _ _ _ _ I x k1 k2 He) as (EX & _).
  destruct (N x Hx) as [(Nx & _) _].
  destruct (expands_path _ _ _ _ _ _ _ _ s Nx EX Hk) as (b & P).
  exists (sid x), (shows x), b. split; [|split].
  - destruct Hx as [->|Hx]; [left; reflexivity|right]. apply in_map_iff. exists x. auto.
  - rewrite (i_dot2 _ _ _ _ _ _ _ _ _ _ _ _ _ I Og). apply in_flat_map. exists (x, k1, k2). split; [exact He|].
    unfold e_edges. cbn [e_node fst snd]. apply in_map. unfold e_kids. cbn [fst snd]. apply in_app_iff. destruct Hk as [->| ->]; [left|right]; left; reflexivity.
  - rewrite shows_lits. rewrite (origin_oname (raws root) x _ Nx); [exact P|].
    pose proof (node_evaluate _ _ Nx) as (l & r' & po & _ & Hpi & _). exact Hpi.
Qed.

(*EX
Definition drawing_opts : opts := mkOpts MODE_LOU false false false false false false false true.
Example C97_example : exists out labels,
  root_ok sample /\ ~ In 0 (fvars (raws sample)) /\ ends_with (fun t => t) no_fail drawing_opts sample [] out /\
  dot_labels sample (out_dot out) = Ok labels /\ (5 < List.length labels)%nat /\ (0 < List.length (dot_leaf_edges (out_dot out)))%nat /\
  option_map snd (nth_error labels 3) = Some (txt "(1 | 2 | 3)[4]\nfnm = [4, 5, 6]\nov = {4: 1, 5: 8, 6: 4}\nsol = {3: True, 5: True}, highest occuring var = 1").
Proof.
  do 2 eexists. split; [exact sample_ok|]. split; [vm_compute; intuition discriminate|]. split.
  { exists 40%nat. intros fuel lf H1 H2. apply (solve_set_mono _ _ _ _ _ 40 fuel 40 lf H1 H2). vm_compute. reflexivity. }
  split; [vm_compute; reflexivity|]. split; [cbn [List.length]; lia|].
  split; [vm_compute; repeat constructor|]. vm_compute. reflexivity.
Qed.
(* three workers, 5 of 17 nodes in the file (see C62), each with a label *)
Example C97_command_example : forall gdb, exists out lines file ver written shown d root labels,
  SpecCli.proper (on_file gdb 3) /\ reads_file (on_file gdb 3) (txt "in/s.txt") (InSLF sample_text) /\
  get_cnf_set (InSLF sample_text) = Ok root /\ root_ok root /\ ~ In 0 (fvars (raws root)) /\
  (forall k, e_worker_fails plain_env k = false) /\
  command plain_env 300 300 (on_file gdb 3) [] = Ok (Ran (Report out lines file ver) written shown) /\
  In (txt "g", GraphFile d) written /\ dot_labels root d = Ok labels /\ List.length labels = 5%nat.
Proof.
  intros gdb. assert (P : SpecCli.proper (on_file gdb 3)) by (apply proper_iff; destruct gdb; split; reflexivity).
  destruct gdb; do 9 eexists; (split; [exact P|]); (split; [left; eexists; split; reflexivity|]);
    (split; [vm_compute; reflexivity|]); (split; [concrete_root_ok|]); 
    (split; [vm_compute; intuition discriminate|]); (split; [reflexivity|]); (split; [vm_compute; reflexivity|]); 
    (split; [left; reflexivity|]); (split; [vm_compute; reflexivity|]); reflexivity.
Qed.
EX*)
