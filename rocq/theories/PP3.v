(* PP3.v -- work queues and solution files (C29-C31, C44): statements and proofs. *)
From Coq Require Import String Ascii ZArith List Bool Lia Permutation Sorted.
From Verif Require Import Spec PyBase MSet MText MQueue MDb MSolver SpecRun PLib PClause PRename PLo
  PNorm PEval PText PQueue PNode PStep PRun PSearch.
Import ListNotations.
Open Scope Z_scope.

(* C29: the in-memory queue behaves as an ideal first-in first-out list under every interleaving *)
Lemma p_C29_fifo : forall ops, exists obs rest q,
  q_run ops (queue_init false) = Ok (obs, q) /\
  somes obs ++ rest = inserted ops /\ (obs, rest) = fifo ops [] /\ drains q rest /\
  queue_size q = List.length rest /\ (queue_is_empty q = true <-> rest = []) /\
  (rest = [] -> queue_pop q = Err IndexError).
Proof.
  intros ops. destruct (q_run_spec false ops _ _ _ (qrep_init false)) as (q & ever & E & Q); [discriminate|].
  pose proof (fifo_order ops []) as H. destruct (fifo ops []) as [obs rest]. cbn [fst snd app] in *.
  exists obs, rest, q. split.
  { rewrite E. do 2 f_equal. clear. induction obs as [|[x|] t IH]; simpl; f_equal; auto. }
  split; auto. split; auto. split.
  { pose proof (drains_total false rest q ever Q) as D.
    replace (map (view false) rest) with rest in D; [auto|]. clear. induction rest; simpl; f_equal; auto. }
  split; [eapply qrep_size; eauto|]. split.
  - rewrite (qrep_empty _ _ _ _ Q). destruct rest; split; auto; discriminate.
  - intros ->. eapply qrep_pop_empty; eauto.
Qed.
(*EX
Example C29_example : exists a b q, a <> b /\
  q_run [QPop; QInsert a; QInsert b; QPop; QInsert a; QPop; QPop; QPop] (queue_init false) =
  Ok ([None; Some a; Some b; Some a; None], q).
Proof. exists sample, sample_unsat. eexists. split; [discriminate|reflexivity]. Qed.
EX*)

(* C30: with the runtime table, removals return the inserted sets in order with all their data; only
   the input position of the clauses is replaced by the position in the set *)
Lemma p_C30_db_queue : forall ops,
  Forall storable (inserted ops) -> NoDup (map sid (inserted ops)) ->
  exists obs q, q_run ops (queue_init true) = Ok (obs, q) /\
    Forall2 same_answer obs (fst (fifo ops [])) /\
    queue_size q = List.length (snd (fifo ops [])).
Proof.
  intros ops HS HN. destruct (q_run_spec true ops _ _ _ (qrep_init true)) as (q & ever & E & Q); [auto|].
  eexists _, q. split; [exact E|]. split; [|eapply qrep_size; eauto].
  assert (Hin : Forall storable (somes (fst (fifo ops [])))).
  { rewrite Forall_forall in *. intros x Hx. apply HS.
    pose proof (fifo_order ops []) as H. cbn [app] in H. rewrite <- H. apply in_app_iff; auto. }
  clear E Q HS HN. induction (fst (fifo ops [])) as [|[x|] t IH]; simpl; constructor; auto.
  - inv Hin. destruct H1 as (V & _ & _ & _ & _).
    unfold same_answer, same_item, reloaded. cbn. rewrite V.
    split; auto. unfold raws at 1. cbn [clauses]. rewrite plain_raw. split; auto. split; auto.
    split; [apply Permutation_sym, reordered_Perm|]. split; auto. split; auto.
    unfold raws. clear. assert (H : forall cs i, map initial_index (plain (Z.of_nat i) (map raw cs)) = map Z.of_nat (seq i (List.length cs))).
    { induction cs as [|c cs IH]; intros i; simpl; auto. f_equal. rewrite <- IH. f_equal. f_equal. lia. }
    apply (H (clauses x) 1%nat).
  - apply IH. inv Hin; auto.
  - simpl. auto.
Qed.
(* C30: ids must be distinct; after a repeated id every removal fails *)
Lemma p_C30_repeated_id_fails : forall q a b q1 q2,
  q_use_db q = true -> queue_insert q a = Ok q1 -> queue_insert q1 b = Ok q2 -> sid a = sid b ->
  queue_pop q2 = Err TypeError /\ queue_size q2 = S (S (queue_size q)).
Proof.
  intros q a b q1 q2 Hd H1 H2 Es. unfold queue_insert in H1. rewrite Hd in H1.
  apply bind_ok in H1 as (t1 & _ & H1). injection H1 as <-.
  unfold queue_insert in H2. cbn [q_use_db q_ids q_table] in H2. apply bind_ok in H2 as (t2 & _ & H2). injection H2 as <-.
  split.
  - unfold queue_pop, rtq_get_set. cbn [q_use_db q_ids q_table].
    assert (B : rt_broken (rtq_insert_set (rtq_insert_set (q_table q) (sid a) t1 (serialize_properties a)) (sid b) t2 (serialize_properties b)) = true).
    { unfold rtq_insert_set. destruct (rt_broken (q_table q)) eqn:Eb; [rewrite Eb; auto|].
      destruct (dmem text_eqb (sid a) (rt_rows (q_table q))) eqn:Ed; [reflexivity|].
      cbn [rt_broken rt_rows]. replace (dmem text_eqb (sid b) _) with true; auto.
      symmetry. rewrite <- Es. clear. unfold dmem.
      induction (rt_rows (q_table q)) as [|[k v] l IH]; simpl; [rewrite text_eqb_refl; auto|].
      destruct (text_eqb (sid a) k); auto. }
    rewrite B. destruct (q_ids q); reflexivity.
  - unfold queue_size. rewrite Hd. cbn [q_use_db q_ids]. rewrite !app_length. simpl. lia.
Qed.
(*EX
Example C30_example : exists a b, storable a /\ storable b /\ sid a <> sid b /\
  exists obs q, q_run [QInsert a; QInsert b; QPop; QPop] (queue_init true) = Ok (obs, q) /\ List.length obs = 2%nat.
Proof.
  exists (set_id sample (txt "x")), (set_id (set_evaluated sample_unsat [(9, false); (7, true)]) (txt "y")).
  split; [|split; [|split; [discriminate|]]].
  - repeat split; try discriminate; try (constructor; fail); try (intros v []; fail).
    + intros c H. vm_compute in H. repeat (destruct H as [<-|H]; [discriminate|]). destruct H.
    + vm_compute in H. repeat (destruct H as [<-|H]; [repeat constructor; simpl; lia|]). destruct H.
    + vm_compute in H. repeat (destruct H as [<-|H]; [repeat constructor; simpl; lia|]). destruct H.
  - repeat split; try discriminate; try (constructor; fail); try (intros v []; fail).
    + intros c H. vm_compute in H. repeat (destruct H as [<-|H]; [discriminate|]). destruct H.
    + vm_compute in H. repeat (destruct H as [<-|H]; [repeat constructor; simpl; lia|]). destruct H.
    + vm_compute in H. repeat (destruct H as [<-|H]; [repeat constructor; simpl; lia|]). destruct H.
    + repeat constructor; simpl; intros H; repeat (destruct H as [H|H]; [discriminate|]); destruct H.
    + intros v H. vm_compute in H. repeat (destruct H as [<-|H]; [lia|]). destruct H.
  - do 2 eexists. split; [vm_compute; reflexivity|reflexivity].
Qed.
EX*)

(* C31: unique queue in memory: over its whole life every object is returned at most once, in order of
   first insertion; later insertions of it are dropped *)
Lemma p_C31_unique_queue_drops : forall ops, exists rest,
  oks (fst (u_run ops (uq_init false))) ++ rest = fresh [] (u_inserted ops) /\
  uq_size (snd (u_run ops (uq_init false))) = List.length rest /\
  NoDup (oks (fst (u_run ops (uq_init false)))).
Proof.
  intros ops.
  destruct (u_run_mem ops [] [] (NoDup_nil _) (NoDup_nil _) (fun x H => False_ind _ H)) as (objs & ids & E1 & E2).
  cbn [map app] in *. unfold uq_init. exists objs. rewrite E1, E2. split; auto. split.
  - unfold uq_size. simpl. apply map_length.
  - pose proof (fresh_NoDup [] (u_inserted ops)) as N. rewrite <- E2 in N. eapply NoDup_app_l; eauto.
Qed.
(* C31: unique queue with the runtime table: after any insertions the first removal fails, and the
   size is twice the number of distinct objects *)
Lemma p_C31_unique_db_queue_fails : forall ns, ns <> [] ->
  fst (uq_pop (fold_left uq_insert ns (uq_init true))) = Err TypeError /\
  uq_size (fold_left uq_insert ns (uq_init true)) = (2 * List.length (nodup Nat.eq_dec ns))%nat.
Proof.
  intros ns Hn. destruct (uq_db_first_pop ns Hn) as [A B]. split; [exact A|]. rewrite B. f_equal.
  apply Permutation_length. apply NoDup_Permutation; [apply fresh_NoDup|apply NoDup_nodup|].
  intros x. rewrite fresh_In, nodup_In. tauto.
Qed.
(*EX
Example C31_example : oks (fst (u_run [UInsert 1; UPop; UInsert 1; UPop; UInsert 2; UPop]%nat (uq_init false))) = [1; 2]%nat.
Proof. reflexivity. Qed.
EX*)

(* C44: reading the solution file gives back the assignment, true variables first *)
Lemma read_vars_join b l : l <> [] -> read_vars b (join comma (map str_Z l)) = Some (map (fun v => (v, b)) l).
Proof.
  intros H. unfold read_vars. rewrite join_comma_split by auto.
  rewrite (mapO_map _ _ (fun w => w)) by (intros; apply py_int_str). rewrite map_id. reflexivity.
Qed.
Lemma strs_no_newline l : lacks newline (join comma (map str_Z l)).
Proof.
  apply join_strs_lacks; [intros [H|[]]; discriminate|]. left. vm_compute. reflexivity.
Qed.
Lemma p_C44_solution_file : forall d : list (Z * bool), exists d',
  read_solution (format_solution d) = Some d' /\ Permutation d' d.
Proof.
  intros d. exists (reordered d). split; [|apply Permutation_sym, reordered_Perm].
  unfold reordered. rewrite <- true_keys_pairs, <- false_keys_pairs.
  unfold format_solution, read_solution.
  assert (L : forall h l, lacks newline (txt h) -> lacks newline (txt h ++ join comma (map str_Z l)))
    by (intros h l H; apply lacks_app; [auto|apply strs_no_newline]).
  assert (LT : lacks newline (txt "T:")) by (intros [H|[H|[]]]; discriminate).
  assert (LF : lacks newline (txt "F:")) by (intros [H|[H|[]]]; discriminate).
  assert (RT : forall r, read_line (txt "T:" ++ r) = read_vars true r) by reflexivity.
  assert (RF : forall r, read_line (txt "F:" ++ r) = read_vars false r) by reflexivity.
  destruct (true_keys d) as [|a tv] eqn:Et; destruct (false_keys d) as [|b fv] eqn:Ef.
  - reflexivity.
  - set (l := b :: fv) in *.
    change (option_map (List.concat (A:=Z * bool)) (mapO read_line (split_on newline (txt "F:" ++ join comma (map str_Z l)))) =
            Some (map (fun v => (v, false)) l)).
    rewrite split_on_lacks by auto. cbn [mapO]. rewrite RF, read_vars_join by discriminate. simpl. rewrite app_nil_r. auto.
  - set (l := a :: tv) in *. 
    change (option_map (List.concat (A:=Z * bool)) (mapO read_line (split_on newline ((txt "T:" ++ join comma (map str_Z l) ++ [newline]) ++ []))) =
            Some (map (fun v => (v, true)) l ++ [])).
    rewrite app_nil_r, app_assoc. change [newline] with (newline :: []). rewrite split_on_app by auto.
    cbn [mapO split_on]. rewrite RT, read_vars_join by discriminate. reflexivity.
  - set (l := a :: tv) in *. set (k := b :: fv) in *.
    change (option_map (List.concat (A:=Z * bool)) (mapO read_line (split_on newline
              ((txt "T:" ++ join comma (map str_Z l) ++ [newline]) ++ (txt "F:" ++ join comma (map str_Z k))))) =
            Some (map (fun v => (v, true)) l ++ map (fun v => (v, false)) k)).
    replace ((txt "T:" ++ join comma (map str_Z l) ++ [newline]) ++ (txt "F:" ++ join comma (map str_Z k)))
      with ((txt "T:" ++ join comma (map str_Z l)) ++ newline :: (txt "F:" ++ join comma (map str_Z k)))
      by (rewrite <- !app_assoc; reflexivity).
    rewrite split_on_app, split_on_lacks by auto.
    cbn [mapO]. rewrite RT, RF, !read_vars_join by discriminate. simpl. rewrite app_nil_r. auto.
Qed.
(*EX
Example C44_example : format_solution [(1, true); (2, false); (7, true)] = txt "T:1,7
F:2".
Proof. reflexivity. Qed.
EX*)
