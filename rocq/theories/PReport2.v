(* PReport2.v -- the lines of a report, and from the words of the command line to a report *)
From Coq Require Import String Ascii ZArith List Bool Lia.
From Verif Require Import Spec PyBase MSet MText MQueue MDb MSolver MMain MProc MShare MCli MArgs SpecInput SpecRun SpecProc SpecShare SpecCli SpecArgs MReport SpecReport PLib PText PCli PArgs PP14 PP34 PReport.
Import ListNotations.
Open Scope Z_scope.

Lemma pieces_In r c out lines l : In l (pieces r c out lines) <->
  l = txt "Input set processed in " ++ thousandths (r_time r) ++ txt " seconds" \/ l = txt "Problem ID: " ++ hex (r_id r) \/
  l = txt "Solution mode: " ++ mode_upper (c_mode c) \/ l = txt "The input set is " ++ (if out_sat out then txt "SATISFIABLE!" else txt "Not satisfiable.") \/
  (out_sat out = true /\ l = txt "The solution is " ++ str_solution (out_solution out)) \/
  l = txt "Number of unique nodes: " ++ with_commas (Z.of_nat (List.length (out_children out))) \/
  (c_no_stats c = false /\ (l = txt "Number of redundant subtrees: " ++ str_Z (out_redundants out) \/ l = txt "Number of redundant hits: " ++ str_Z (out_hits out) \/
     l = txt "Number of nodes found in gdb: " ++ str_Z (out_found out))) \/
  (exists x, In x lines /\ l = line_text x) \/ l = txt "Current memory usage: " ++ sizeof_fmt (r_memory r).
Proof.
  unfold pieces. rewrite !in_app_iff. cbn [In].
  assert (M : In l (map line_text lines) <-> exists x, In x lines /\ l = line_text x).
  { rewrite in_map_iff. split; intros (x & A & B); exists x; auto. }
  assert (S : In l (if out_sat out then [txt "The solution is " ++ str_solution (out_solution out)] else []) <-> (out_sat out = true /\ l = txt "The solution is " ++ str_solution (out_solution out))).
  { destruct (out_sat out); cbn [In]; split; intros K; [destruct K as [<-|[]]; auto|left; symmetry; tauto|destruct K|destruct K; discriminate]. }
  assert (N : In l (if c_no_stats c then [] else [txt "Number of redundant subtrees: " ++ str_Z (out_redundants out); txt "Number of redundant hits: " ++ str_Z (out_hits out);
         txt "Number of nodes found in gdb: " ++ str_Z (out_found out)]) <-> (c_no_stats c = false /\ (l = txt "Number of redundant subtrees: " ++ str_Z (out_redundants out) \/ l = txt "Number of redundant hits: " ++ str_Z (out_hits out) \/
     l = txt "Number of nodes found in gdb: " ++ str_Z (out_found out)))).
  { destruct (c_no_stats c); cbn [In]; split; intros K; [destruct K|destruct K; discriminate|destruct K as [<-|[<-|[<-|[]]]]; auto|destruct K as [_ [->|[->| ->]]]; auto]. }
  rewrite M, S, N. split.
  - intros [[<-|[<-|[<-|[<-|[]]]]]|[K|[[<-|[]]|[K|[K|[<-|[]]]]]]]; auto 10.
  - intros [->|[->|[->|[->|[K|[->|[K|[K| ->]]]]]]]]; auto 10.
Qed.
(* the lines that cannot be meant *)
Ltac other H := exfalso; chars H; discriminate H.
Ltac shown H := rewrite report_shows in H; apply pieces_In in H;
  destruct H as [H|[H|[H|[H|[(?G & H)|[H|[(?G & [H|[H|H]])|[(?x & ?G & H)|H]]]]]]]].

(* words that ask for a run *)
Lemma words_run s e ws ss db : line_reads ws ss -> acceptable s ss ->
  (forall t n, last_use Ot [t] ss -> py_int t = Some n -> 0 <= n) -> (uses Ognm ss -> uses Ogdb ss) ->
  (forall a b x y, last_use Omult [a; b] ss -> py_int a = Some x -> py_int b = Some y -> 1 < x /\ 1 < y) ->
  exists c, parse_args s ws = Parsed c /\ configures s ss c /\ proper c /\ (forall fuel lf, program s e fuel lf ws db = command e fuel lf c db) /\
    (c_factorize c = true <-> uses Ofact ss) /\ (~ uses Omult ss -> c_multiply c = None) /\ (c_v c = true <-> uses Ov ss) /\ (c_vv c = true <-> uses Ovv ss) /\
    (c_no_stats c = true <-> uses Ons ss).
Proof.
  intros R A HT HG HM. pose proof (reads_arity _ _ R) as AR.
  pose proof (cli_configures s ss AR (ac_values _ _ A)) as C. set (c := cli_of s (rev ss)) in *. exists c.
  assert (P : parse_args s ws = Parsed c) by (apply parse_exact; eauto). destruct (proj1 (p_C95_program s e ws db) c P) as (OI & OV & PR).
  assert (FL : forall f o, In (f, o) [(c_v, Ov); (c_vv, Ovv); (c_q, Oq); (c_qn, Oqn); (c_solution_file, Os); (c_no_stats, Ons); (c_exit, Oe); (c_verify, Overify);
     (c_rdb, Ordb); (c_gdb, Ogdb); (c_gnm, Ognm); (c_sort_by_size, Oz); (c_thief, Othief); (c_factorize, Ofact)] -> (f c = true <-> uses o ss)).
  { intros f o J. exact (proj1 (Forall_forall _ _) (cf_flags _ _ _ C) (f, o) J). }
  split; [exact P|]. split; [exact C|]. split.
  { constructor; [exact OI|exact OV| | |].
    - destruct (proj1 (cf_threads _ _ _ C (c_threads c)) eq_refl) as [(t & L & E)|(_ & E)]; [exact (HT _ _ L E)|]. rewrite E. lia.
    - intros K. apply (FL c_gdb Ogdb); [do 9 right; left; reflexivity|]. apply HG. apply (FL c_gnm Ognm); [do 10 right; left; reflexivity|exact K].
    - intros x y K. apply (cf_multiply _ _ _ C) in K as (a & b & L & E1 & E2). exact (HM a b x y L E1 E2). }
  split; [exact PR|]. split; [apply FL; do 13 right; left; reflexivity|]. split.
  { intros N. destruct (c_multiply c) as [[x y]|] eqn:E; [|reflexivity]. exfalso. apply (cf_multiply _ _ _ C) in E as (a & b & L & _). apply N. exact (last_uses _ _ _ L). }
  split; [apply FL; left; reflexivity|]. split; [apply FL; right; left; reflexivity|apply FL; do 5 right; left; reflexivity].
Qed.
Lemma ends_command s e ws db c r : (forall fuel lf, program s e fuel lf ws db = command e fuel lf c db) -> command_ends e c db r -> program_ends s e ws db r.
Proof. intros PR (N & E). exists N. intros fuel lf H1 H2. rewrite PR. exact (E fuel lf H1 H2). Qed.
(* the report is shown with -v and -vv *)
Lemma report_seen e c db out lines file ver written shown : command_ends e c db (Ran (Report out lines file ver) written shown) ->
  c_v c = true \/ c_vv c = true -> In (MReport out lines) shown.
Proof. intros (N & E) V. apply (proj1 (p_C58_shown _ _ _ _ _ _ _ _ (E N N (le_n _) (le_n _)))). split; [exact V|eauto]. Qed.
