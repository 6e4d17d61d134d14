(* Properties3.v -- generated by tools/genprops.py from PP3.v: property theorems, their
   assumptions, and examples showing that the hypotheses are met.  Proofs are in PP3.v. *)
From Coq Require Import String Ascii ZArith List Bool Lia Permutation Sorted.
From Verif Require Import Spec PyBase MSet MText MQueue MDb MSolver SpecRun PLib PClause PRename PLo
  PNorm PEval PText PQueue PNode PStep PRun PSearch.
Import ListNotations.
From Verif Require Import PP3.
Open Scope Z_scope.

(* C29: the in-memory queue behaves as an ideal first-in first-out list under every interleaving *)
Theorem C29_fifo : forall ops, exists obs rest q,
  q_run ops (queue_init false) = Ok (obs, q) /\
  somes obs ++ rest = inserted ops /\ (obs, rest) = fifo ops [] /\ drains q rest /\
  queue_size q = List.length rest /\ (queue_is_empty q = true <-> rest = []) /\
  (rest = [] -> queue_pop q = Err IndexError).
Proof. exact p_C29_fifo. Qed.
Print Assumptions C29_fifo.

Example C29_example : exists a b q, a <> b /\
  q_run [QPop; QInsert a; QInsert b; QPop; QInsert a; QPop; QPop; QPop] (queue_init false) =
  Ok ([None; Some a; Some b; Some a; None], q).
Proof. exists sample, sample_unsat. eexists. split; [discriminate|reflexivity]. Qed.

(* C30: with the runtime table, removals return the inserted sets in order with all their data; only
   the input position of the clauses is replaced by the position in the set *)
Theorem C30_db_queue : forall ops,
  Forall storable (inserted ops) -> NoDup (map sid (inserted ops)) ->
  exists obs q, q_run ops (queue_init true) = Ok (obs, q) /\
    Forall2 same_answer obs (fst (fifo ops [])) /\
    queue_size q = List.length (snd (fifo ops [])).
Proof. exact p_C30_db_queue. Qed.
Print Assumptions C30_db_queue.

(* C30: ids must be distinct; after a repeated id every removal fails *)
Theorem C30_repeated_id_fails : forall q a b q1 q2,
  q_use_db q = true -> queue_insert q a = Ok q1 -> queue_insert q1 b = Ok q2 -> sid a = sid b ->
  queue_pop q2 = Err TypeError /\ queue_size q2 = S (S (queue_size q)).
Proof. exact p_C30_repeated_id_fails. Qed.
Print Assumptions C30_repeated_id_fails.

Example C30_example : exists a b, storable a /\ storable b /\ sid a <> sid b /\
  exists obs q, q_run [QInsert a; QInsert b; QPop; QPop] (queue_init true) = Ok (obs, q) /\ List.length obs = 2%nat.
Proof.
  exists (set_id sample (txt "x")), (set_id (set_evaluated sample_unsat [(9, false); (7, true)]) (txt "y")).
  split; [|split; [|split; [discriminate|]]].
  - repeat split; try discriminate; try (constructor; fail); try (intros v []; fail).
    + intros c H. vm_compute in H. repeat (destruct H as [<-|H]; [discriminate|]). destruct H.
    + vm_compute in H. repeat (destruct H as [<-|H]; [repeat constructor; simpl; lia|]). destruct H.
    + vm_compute in H. repeat (destruct H as [<-|H]; [repeat constructor; simpl; lia|]). destruct H.
  - repeat split; try discriminate; try (constructor; fail); try (intros v []; fail).
    + intros c H. vm_compute in H. repeat (destruct H as [<-|H]; [discriminate|]). destruct H.
    + vm_compute in H. repeat (destruct H as [<-|H]; [repeat constructor; simpl; lia|]). destruct H.
    + vm_compute in H. repeat (destruct H as [<-|H]; [repeat constructor; simpl; lia|]). destruct H.
    + repeat constructor; simpl; intros H; repeat (destruct H as [H|H]; [discriminate|]); destruct H.
    + intros v H. vm_compute in H. repeat (destruct H as [<-|H]; [lia|]). destruct H.
  - do 2 eexists. split; [vm_compute; reflexivity|reflexivity].
Qed.

(* C31: unique queue in memory: over its whole life every object is returned at most once, in order of
   first insertion; later insertions of it are dropped *)
Theorem C31_unique_queue_drops : forall ops, exists rest,
  oks (fst (u_run ops (uq_init false))) ++ rest = fresh [] (u_inserted ops) /\
  uq_size (snd (u_run ops (uq_init false))) = List.length rest /\
  NoDup (oks (fst (u_run ops (uq_init false)))).
Proof. exact p_C31_unique_queue_drops. Qed.
Print Assumptions C31_unique_queue_drops.

(* C31: unique queue with the runtime table: after any insertions the first removal fails, and the
   size is twice the number of distinct objects *)
Theorem C31_unique_db_queue_fails : forall ns, ns <> [] ->
  fst (uq_pop (fold_left uq_insert ns (uq_init true))) = Err TypeError /\
  uq_size (fold_left uq_insert ns (uq_init true)) = (2 * List.length (nodup Nat.eq_dec ns))%nat.
Proof. exact p_C31_unique_db_queue_fails. Qed.
Print Assumptions C31_unique_db_queue_fails.

Example C31_example : oks (fst (u_run [UInsert 1; UPop; UInsert 1; UPop; UInsert 2; UPop]%nat (uq_init false))) = [1; 2]%nat.
Proof. reflexivity. Qed.

Theorem C44_solution_file : forall d : list (Z * bool), exists d',
  read_solution (format_solution d) = Some d' /\ Permutation d' d.
Proof. exact p_C44_solution_file. Qed.
Print Assumptions C44_solution_file.

Example C44_example : format_solution [(1, true); (2, false); (7, true)] = txt "T:1,7
F:2".
Proof. reflexivity. Qed.
