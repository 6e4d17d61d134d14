(* PPipe4.v -- whatever a subcommand builds and a transformation returns was made with the public operations *)
From Coq Require Import String Ascii ZArith List Bool Lia Arith Permutation.
From Verif Require Import SpecCnf SpecFam SpecTrans PyBase MSet MText MCnf MFam MFam2 MTrans MFile MTool MGraph MGenCmd SpecTool PLib PCnf1 PCnf2 PP16.
Import ListNotations.
Open Scope Z_scope.

(* ---- transformations ---- *)
Lemma compressed_range names cl z l : compress_clause names cl = Ok z -> In l z -> 1 <= Z.abs l <= Z.of_nat (List.length names).
Proof.
  intros H. apply mapM_ok in H. induction H as [|[p v] k cl z E HF IH]; intros I; [destruct I|]. destruct I as [<-|I]; auto.
  cbn [snd fst] in E. destruct (position v names 1) as [i|] eqn:P; cbn [of_option bind] in E; [|discriminate]. injection E as <-. apply position_Some in P as [P _]. destruct p; lia.
Qed.
Lemma compressed_ranges names cls zs z l : mapM (compress_clause names) cls = Ok zs -> In z zs -> In l z -> 1 <= Z.abs l <= Z.of_nat (List.length names).
Proof.
  intros H. apply mapM_ok in H. induction H as [|c y cls ys E HF IH]; intros I J; [destruct I|]. destruct I as [<-|I]; [eapply compressed_range; eauto|auto].
Qed.
Lemma table_ranges names (f : text -> list (list (plit text))) old t zs z l : mapM (fun v => mapM (compress_clause names) (f v)) old = Ok t -> In zs t -> In z zs -> In l z ->
  1 <= Z.abs l <= Z.of_nat (List.length names).
Proof.
  intros H. apply mapM_ok in H. induction H as [|v y old t E HF IH]; intros I J K; [destruct I|]. destruct I as [<-|I]; [eapply compressed_ranges; eauto|auto].
Qed.
Lemma base_made pre lit new c c' : base_substitution pre lit new c = Ok c' -> made c'.
Proof.
  unfold base_substitution. set (names := cn_names _). intros H.
  apply bind_ok in H as (adds & H1 & H). apply bind_ok in H as (pos & H2 & H). apply bind_ok in H as (neg & H3 & H).
  assert (E : c' = mkCnf names (flat_map (fun cl => map (@concat Z) (products (map (fun l => nth (Z.to_nat (Z.abs l - 1)) (if 0 <? l then pos else neg) []) cl))) (cn_clauses c) ++ concat adds)) by congruence.
  subst c'. apply made_of_numbers; [apply (vars_well (new_names pre lit new (cn_names c)))|]. intros cl z Hc Hz. apply in_app_iff in Hc as [Hc|Hc].
  - apply in_flat_map in Hc as (k & _ & Hc). apply in_map_iff in Hc as (p & <- & Hp). apply in_concat in Hz as (y & Hy & Hz). apply products_In in Hp.
    assert (X : exists l, In l k /\ In y (nth (Z.to_nat (Z.abs l - 1)) (if 0 <? l then pos else neg) [])).
    { clear - Hp Hy. revert k Hp. induction p as [|x p IH]; intros k Hp; [destruct Hy|]. destruct k as [|l k]; [inversion Hp|]. cbn [map] in Hp. inversion Hp; subst.
      destruct Hy as [<-|Hy]; [exists l; split; [left; auto|auto]|]. destruct (IH Hy k H4) as (m & Hm & Q). exists m. split; [right; auto|auto]. }
    destruct X as (l & _ & Hl). set (i := Z.to_nat (Z.abs l - 1)) in Hl. destruct (0 <? l).
    + destruct (nth_in_or_default i pos []) as [Q|Q]; [eapply table_ranges; [exact H2|exact Q|exact Hl|exact Hz]|]. rewrite Q in Hl. destruct Hl.
    + destruct (nth_in_or_default i neg []) as [Q|Q]; [eapply table_ranges; [exact H3|exact Q|exact Hl|exact Hz]|]. rewrite Q in Hl. destruct Hl.
  - apply in_concat in Hc as (zs & Hzs & Hc). eapply table_ranges; [exact H1|exact Hzs|exact Hc|exact Hz].
Qed.
Lemma coherent_range n : forall placed cls cl l, coherent_clauses n placed = Ok cls -> In cl cls -> In l cl -> 1 <= Z.abs l <= n.
Proof.
  induction placed as [|[x|] placed IH]; intros cls cl l H I J; cbn [coherent_clauses] in H; [injection H as <-; destruct I| |discriminate].
  destruct (forallb _ x) eqn:F; [|discriminate]. apply bind_ok in H as (ys & H & K). injection K as <-. destruct I as [<-|I]; [|eapply IH; eauto].
  rewrite forallb_forall in F. specialize (F l J). apply andb_prop in F as [F1 F2]. apply Z.ltb_lt in F1. apply Z.leb_le in F2. lia.
Qed.
Lemma shuffle_made c vp cp pf c' : Shuffle c vp cp pf = Ok c' -> made c'.
Proof.
  unfold Shuffle. destruct (negb _); [discriminate|]. destruct (negb _); [discriminate|]. intros H. apply bind_ok in H as (idx & _ & H). apply bind_ok in H as (pl & _ & H).
  apply bind_ok in H as (cls & E & H). injection H as <-. apply made_of_numbers; [apply (vars_well vp)|]. intros cl z Hc Hz. eapply coherent_range; eauto.
Qed.
Lemma compression_made c b f c' : VariableCompression c b f = Ok c' -> made c'.
Proof. unfold VariableCompression. destruct (negb _); [discriminate|]. destruct (negb _); [discriminate|]. apply base_made. Qed.
Lemma transform_made t c c' : made c -> transform t c = Ok c' -> made c'.
Proof.
  intros M. destruct t; cbn [transform]; try apply base_made.
  - intros H. injection H as <-. exact M.
  - unfold compressed. destruct (VariableCompression c b (txt "xor")) as [x|[]|] eqn:E; intros H; try discriminate. injection H as <-. eapply compression_made; eauto.
  - unfold compressed. destruct (VariableCompression c b (txt "maj")) as [x|[]|] eqn:E; intros H; try discriminate. injection H as <-. eapply compression_made; eauto.
  - apply shuffle_made.
Qed.

(* ---- formulas ---- *)
Lemma all_strict cls c c' : made c -> add_all add_clause_strict cls c = Ok c' -> made c'.
Proof. apply add_all_made. exact strict_made. Qed.
Lemma all_plain cls c c' : made c -> add_all cnf_add_clause cls c = Ok c' -> made c'.
Proof. apply add_all_made. exact plain_made. Qed.
Lemma all_unsafe cls c c' : made c -> add_all add_clause_unsafe cls c = Ok c' -> made c'.
Proof. apply add_all_made. exact unsafe_made. Qed.
Lemma fresh_made vs : made (add_variables vs empty_cnf).
Proof. apply variables_made. constructor. Qed.
Lemma coloring_made colors f : forall vs c c', made c -> coloring_vertices colors f vs c = Ok c' -> made c'.
Proof.
  induction vs as [|v vs IH]; intros c c' M H; cbn [coloring_vertices] in H; [injection H as <-; auto|]. apply bind_ok in H as (c1 & H1 & H). apply bind_ok in H as (c2 & H2 & H).
  apply (IH c2); auto. assert (M1 : made c1) by (eapply plain_made; eauto). destruct f; [eapply all_strict; eauto|injection H2 as <-; auto].
Qed.
Lemma even_made g : forall vs c c', made c -> even_vertices g vs c = Ok c' -> made c'.
Proof.
  induction vs as [|v vs IH]; intros c c' M H; cbn [even_vertices] in H; [injection H as <-; auto|]. destruct (_ =? 1); [discriminate|]. apply bind_ok in H as (c1 & H1 & H).
  apply (IH c1); auto. eapply all_strict; eauto.
Qed.
Lemma subgraph_made g ts s c : SubgraphFormula g ts s = Ok c -> made c.
Proof.
  unfold SubgraphFormula. destruct ts as [|t ts]; intros H; [injection H as <-; constructor|]. apply bind_ok in H as (c1 & H1 & H). apply bind_ok in H as (c2 & H2 & H).
  eapply all_strict; [|exact H]. eapply all_strict; [|exact H2]. apply variables_made. destruct (1 <? _); [eapply all_strict; [apply fresh_made|exact H1]|]. injection H1 as <-. apply fresh_made.
Qed.
Lemma gives_then {A B} (o : outcome A) (f : A -> outcome B) b : andthen o f = Gives b -> exists a, o = Gives a /\ f a = Gives b.
Proof. destruct o; cbn [andthen]; intros H; try discriminate. eauto. Qed.
Lemma plain_gives {A} (r : result A) a : plain r = Gives a -> r = Ok a.
Proof. destruct r; cbn; congruence. Qed.
Lemma checked_gives {A} (r : result A) a : exit_on_value_error r = Gives a -> r = Ok a.
Proof. destruct r as [x|[]|]; cbn; congruence. Qed.
Lemma built_made E gen input c : build_cnf E gen input = Gives c -> made c.
Proof.
  destruct gen; cbn [build_cnf]; intros H;
    repeat match goal with
           | H : andthen _ _ = Gives _ |- _ => let a := fresh "a" in let e := fresh "e" in apply gives_then in H as (a & e & H); clear e
           | H : plain _ = Gives _ |- _ => apply plain_gives in H
           | H : exit_on_value_error _ = Gives _ |- _ => apply checked_gives in H
           end;
    try (eapply all_strict; [apply fresh_made|exact H]; fail); try (eapply all_unsafe; [apply fresh_made|exact H]; fail); try (eapply all_plain; [apply fresh_made|exact H]; fail); try (eapply all_plain; [apply made_empty|exact H]; fail);
    try (eapply subgraph_made; exact H).
  - unfold BinaryPigeonholePrinciple in H. destruct (_ <? 1); [discriminate|]. eapply all_unsafe; [apply fresh_made|exact H].
  - apply bind_ok in H as (q & _ & H). eapply all_plain; [apply made_empty|exact H].
  - apply bind_ok in H as (x & _ & H). apply bind_ok in H as (y & _ & H). eapply all_strict; [apply fresh_made|exact H].
  - apply bind_ok in H as (c1 & H1 & H). eapply all_strict; [|exact H]. eapply coloring_made; [apply made_empty|exact H1].
  - eapply even_made; [apply fresh_made|exact H].
  - apply bind_ok in H as (c1 & H1 & H). eapply strict_made; [|exact H]. eapply all_strict; [apply fresh_made|exact H1].
  - unfold BinaryCliqueFormula in H. destruct (g_nodes _); [discriminate|]. eapply all_strict; [apply fresh_made|exact H].
  - unfold PebblingFormula in H. destruct (negb _); [discriminate|]. eapply all_unsafe; [apply fresh_made|exact H].
  - unfold StoneFormula in H. destruct (negb _); [discriminate|]. destruct (_ <? 0); [discriminate|]. eapply all_unsafe; [apply fresh_made|exact H].
  - unfold SparseStoneFormula in H. destruct (negb _); [discriminate|]. destruct (negb _); [discriminate|]. apply bind_ok in H as (c1 & H1 & H). eapply all_strict; [|exact H].
    eapply all_unsafe; [apply fresh_made|exact H1].
  - unfold RandomKCNF in H. destruct (_ || _)%bool; [discriminate|]. destruct (_ <? _); [discriminate|]. destruct (sample_clauses _ _ _ _ _) as [cls|e|]; try discriminate.
    destruct (add_all _ _ _) as [x|[]|] eqn:K; try discriminate; injection H as <-; eapply all_strict; [apply fresh_made|exact K].
Qed.
