(* PP11.v -- properties about the origin and the order of clauses (C50, C51): statements and proofs. *)
From Coq Require Import String Ascii ZArith List Bool Lia Permutation Sorted.
From Verif Require Import Spec PyBase MSet MText MQueue MDb MSolver SpecRun SpecThief PLib PClause PRename PLo PNorm PEval
  PText PQueue PNode PStep PRun PStats PSolver PSolve PP1 PP2 PThief.
Import ListNotations.
Open Scope Z_scope.

(* C50: every set met by the search is the input formula under the assignment of its path, clause by clause:
   its clauses stand for exactly the input clauses not yet satisfied, each once, and consist of the literals
   not yet assigned, under the names recorded with the set; without the runtime DB each clause carries
   the number of the input clause it comes from. *)
Lemma p_C50_provenance : forall hash o (root x : cset),
  root_ok root -> ~ In 0 (fvars (raws root)) -> searched hash o root x ->
  exists origins : list clause,
    Permutation origins (open_clauses (evaluated_vars x) (clauses root)) /\
    Forall2 (fun c D => (o_rdb o = false -> initial_index c = initial_index D) /\
                        Permutation (map (rename_lit (input_name x)) (raw c)) (open_literals (evaluated_vars x) (raw D)))
            (clauses x) origins.
Proof.
  intros hash o root x RO HZ Hx. destruct (searched_prov hash o root x RO HZ Hx) as (Ds & P & HF). exists Ds. split; auto.
  eapply Forall2_impl_in; [|exact HF]. intros c D _ _ [A B]. split; auto.
  replace (map (rename_lit (input_name x)) (raw c)) with (map (rename_lit (oname x)) (raw c)); auto.
  apply map_ext. intros l. apply rename_lit_ext. symmetry. apply input_name_oname.
Qed.

(*EX
Example C50_example : root_ok sample /\ ~ In 0 (fvars (raws sample)) /\
  exists x y, searched (fun t => t) default_opts sample x /\ searched (fun t => t) default_opts sample y /\ evaluated_vars y <> [].
Proof.
  split; [exact sample_ok|]. split; [vm_compute; intuition discriminate|].
  do 2 eexists. split; [|split].
  - eapply (searched_root _ _ _ 40). vm_compute. reflexivity.
  - eapply (searched_child _ _ _ 40).
    + eapply (searched_root _ _ _ 40). vm_compute. reflexivity.
    + vm_compute. reflexivity.
    + left. reflexivity.
    + reflexivity.
    + vm_compute. reflexivity.
    + vm_compute. reflexivity.
  - discriminate.
Qed.
EX*)

(* C51: the thief method, in the modes that do not sort by variable: the clauses of a normalised set come
   shortest first, and those of the same length in the order of the input.  -ls does not disturb this. *)
Lemma p_C51_thief_order : forall fuel m by_size (s s' : cset), m = MODE_LOU \/ m = MODE_NORMAL -> pre_lo s ->
  to_lo_condition fuel m by_size true s = Ok s' ->
  StronglySorted thief_before (clauses s').
Proof. intros. eapply thief_sorted; eauto. Qed.

(* C51: so in a search with the thief method, modes lo, lou and normal, the next branching variable is taken
   from a shortest clause, the earliest one in the input among these (C50 gives the meaning of the numbers).
   In mode lo this holds below the root. *)
Lemma p_C51_search_order : forall hash o (root x : cset),
  root_ok root -> searched hash o root x -> o_thief o = true ->
  o_mode o = MODE_LO /\ evaluated_vars x <> evaluated_vars root \/ o_mode o = MODE_LOU \/ o_mode o = MODE_NORMAL ->
  StronglySorted thief_before (clauses x).
Proof.
  intros hash o root x RO Hx Ht Hm. inv Hx.
  - unfold prepare_root in H. apply bind_ok in H as (r1 & E1 & H). apply bind_ok in H as ([h r2] & E2 & H). injection H as <-.
    apply get_hash_forced in E2 as ->. cbn [clauses set_id set_hash].
    assert (Hp : pre_lo (set_original root (combine (get_variables root) (get_variables root)))).
    { split; [apply RO|]. split; [apply RO|]. left. apply RO. }
    rewrite Ht in E1. destruct Hm as [[Em Hne]|Hm].
    + exfalso. apply Hne. destruct (to_lo_spec _ _ _ _ _ _ Hp E1) as (f & NM & _). cbn [evaluated_vars set_id set_hash].
      rewrite (nl_evaluated _ _ _ NM). reflexivity.
    + eapply thief_sorted; eauto.
  - apply get_hash_forced in H4 as ->. cbn [clauses set_id set_hash].
    pose proof (node_view _ (o_rdb o) _ (searched_node _ _ _ _ RO H)) as N.
    destruct (node_evaluate _ _ N) as (l' & r' & po & Ev' & Hpi & Hp & Hn & _ & _ & C1 & C2). rewrite H0 in Ev'. injection Ev' as <- <-.
    rewrite Ht in H3.
    assert (Hmm : plain_mode (branch_mode o)).
    { unfold branch_mode. destruct Hm as [[-> _]|[-> | ->]]; [left|left|right]; auto. }
    destruct H1 as [-> | ->]; eapply thief_sorted; try exact H3; auto; eapply child_pre_lo; eauto.
Qed.

(* C51: -ls, in the modes that do not sort by variable: shortest clauses first, clauses of the same length
   in the order they had; without -ls and thief method the order of the clauses is kept. *)
Lemma p_C51_size_order : forall fuel m thief (s s' : cset), m = MODE_LOU \/ m = MODE_NORMAL -> pre_lo s ->
  to_lo_condition fuel m true thief s = Ok s' ->
  StronglySorted (fun c d => (List.length (raw c) <= List.length (raw d))%nat) (clauses s') /\
  (thief = false -> forall n,
     map initial_index (filter (fun c => (List.length (raw c) =? n)%nat) (clauses s')) =
     map initial_index (filter (fun c => (List.length (raw c) =? n)%nat) (clauses s))).
Proof. intros. eapply (size_sorted fuel m thief); eauto. Qed.
Lemma p_C51_order_kept : forall fuel m (s s' : cset), m = MODE_LOU \/ m = MODE_NORMAL -> pre_lo s ->
  to_lo_condition fuel m false false s = Ok s' ->
  map initial_index (clauses s') = map initial_index (clauses s) /\
  map (fun c => List.length (raw c)) (clauses s') = map (fun c => List.length (raw c)) (clauses s).
Proof.
  intros fuel m s s' Hm Hp E. pose proof (order_kept fuel m s s' Hm Hp E) as H. split.
  - apply (f_equal (map snd)) in H. rewrite !map_map in H. exact H.
  - apply (f_equal (map fst)) in H. rewrite !map_map in H. exact H.
Qed.

(* C51: with the runtime DB the numbers of the clauses are lost: a set read back is numbered afresh, so that the
   thief method follows another order and searches another graph. *)
Definition thief_opts (rdb : bool) : opts := mkOpts MODE_LOU false true false rdb false false false false.
Definition renumbered : cset := set_of_text (txt "-4|-3|-6&2|-5|1&4|2&2|4|6").
Lemma p_C51_runtime_db_renumbers :
  exists out out', ends_with (fun t => t) no_fail (thief_opts false) renumbered [] out /\
    ends_with (fun t => t) no_fail (thief_opts true) renumbered [] out' /\
    List.length (out_children out) = 8%nat /\ List.length (out_children out') = 7%nat.
Proof.
  do 2 eexists. split; [|split; [|split]].
  - exists 40%nat. intros fuel lf H1 H2. apply (solve_set_mono _ _ _ _ _ 40 fuel 40 lf H1 H2). vm_compute. reflexivity.
  - exists 40%nat. intros fuel lf H1 H2. apply (solve_set_mono _ _ _ _ _ 40 fuel 40 lf H1 H2). vm_compute. reflexivity.
  - reflexivity.
  - reflexivity.
Qed.

(*EX
Example C51_example : exists s s', pre_lo s /\ to_lo_condition 40 MODE_LOU false true s = Ok s' /\ map initial_index (clauses s') = [3; 1; 2; 4].
Proof.
  exists renumbered. eexists. split; [|split; [vm_compute; reflexivity|reflexivity]].
  split; [discriminate|]. split; [intros c H; vm_compute in H; repeat (destruct H as [<-|H]; [discriminate|]); destruct H|left; reflexivity].
Qed.
EX*)
