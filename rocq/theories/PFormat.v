(* PFormat.v -- the format and the file of readGraph and writeGraph *)
From Coq Require Import String Ascii ZArith List Bool Lia Arith.
From Verif Require Import SpecFile SpecFormat PyBase MSet MText MCnf MFam MFam2 MTrans MFile MGraph MFormat PLib PText PFam1 PFile1 PFile4 PFile5.
Import ListNotations.
Open Scope Z_scope.

(* ---- extensions ---- *)
Lemma rfind_cases c t : (rfind c t = -1 /\ ~ In c t) \/ exists a b, t = a ++ c :: b /\ ~ In c b /\ rfind c t = Z.of_nat (List.length a).
Proof.
  induction t as [|x t [(E & N)|(a & b & E & N & R)]]; [left; split; [reflexivity|intros []]| |].
  - cbn [rfind]. rewrite E. cbn [Z.leb Z.compare]. change (0 <=? -1) with false. cbv iota. destruct (Ascii.eqb_spec x c) as [->|D].
    + right. exists [], t. auto.
    + left. split; [reflexivity|]. intros [K|K]; auto.
  - right. exists (x :: a), b. split; [cbn [app]; rewrite <- E; reflexivity|]. split; [exact N|]. cbn [rfind]. rewrite R.
    destruct (Z.leb_spec 0 (Z.of_nat (List.length a))); [|lia]. cbn [List.length]. lia.
Qed.
Lemma rfind_none c t : ~ In c t -> rfind c t = -1.
Proof. intros N. destruct (rfind_cases c t) as [(E & _)|(a & b & E & _ & _)]; [exact E|]. exfalso. apply N. rewrite E. apply in_or_app. right. left. reflexivity. Qed.
Lemma rfind_app c a b : ~ In c b -> rfind c (a ++ c :: b) = Z.of_nat (List.length a).
Proof.
  intros N. induction a as [|x a IH].
  - cbn [app rfind]. rewrite (rfind_none c b N). change (0 <=? -1) with false. cbv iota. rewrite Ascii.eqb_refl. reflexivity.
  - cbn [app rfind]. rewrite IH. destruct (Z.leb_spec 0 (Z.of_nat (List.length a))); [|lia]. cbn [List.length]. lia.
Qed.
Lemma skipn_len {A} (a b : list A) : skipn (List.length a) (a ++ b) = b.
Proof. induction a; auto. Qed.
Lemma firstn_len {A} (a b : list A) : firstn (List.length a) (a ++ b) = a.
Proof. induction a; cbn; congruence. Qed.
Lemma extension_some p e : has_extension p e -> extension p = e.
Proof.
  intros (dir & base & -> & D & NB & (c & IC & NC) & NS & ND). unfold extension, splitext_tail.
  assert (R1 : rfind "." (dir ++ base ++ "."%char :: e) = Z.of_nat (List.length (dir ++ base))) by (rewrite app_assoc; apply rfind_app; exact ND).
  assert (R2 : rfind "/" (dir ++ base ++ "."%char :: e) = Z.of_nat (List.length dir) - 1).
  { assert (N : ~ In "/"%char (base ++ "."%char :: e)) by (intros K; apply in_app_or in K as [K|[K|K]]; [auto|discriminate|auto]).
    destruct D as [->|(d & ->)]; [exact (rfind_none _ _ N)|].
    rewrite <- app_assoc. cbn [app]. rewrite (rfind_app _ d _ N). rewrite app_length. cbn [List.length]. lia. }
  rewrite R1, R2. rewrite app_length, Nat2Z.inj_add.
  replace (Z.to_nat (Z.of_nat (List.length dir) - 1 + 1)) with (List.length dir) by lia. rewrite skipn_len.
  replace (Z.to_nat (Z.of_nat (List.length dir) + Z.of_nat (List.length base) - (Z.of_nat (List.length dir) - 1 + 1))) with (List.length base) by lia.
  rewrite firstn_len. destruct (Z.ltb_spec (Z.of_nat (List.length dir) - 1) (Z.of_nat (List.length dir) + Z.of_nat (List.length base))); [|lia].
  assert (X : existsb (fun c => negb (Ascii.eqb c ".")) base = true).
  { apply existsb_exists. exists c. split; [exact IC|]. destruct (Ascii.eqb_spec c "."); [contradiction|reflexivity]. }
  rewrite X. cbn [andb]. replace (Z.to_nat (Z.of_nat (List.length dir) + Z.of_nat (List.length base))) with (List.length (dir ++ base)) by (rewrite app_length; lia).
  rewrite app_assoc, skipn_len. reflexivity.
Qed.
Lemma extension_inv p : extension p = [] \/ has_extension p (extension p).
Proof.
  unfold extension, splitext_tail. destruct (rfind_cases "." p) as [(E & _)|(a & e & E & ND & R)].
  { rewrite E. destruct (rfind_cases "/" p) as [(E' & _)|(a & b & _ & _ & E')]; rewrite E'; [left; reflexivity|].
    destruct (Z.ltb_spec (Z.of_nat (List.length a)) (-1)); [lia|left; reflexivity]. }
  match goal with |- tl (if ?c then _ else _) = _ \/ _ => destruct c eqn:C; [|left; reflexivity] end. right.
  apply andb_true_iff in C as (L & X). rewrite R in L, X. apply Z.ltb_lt in L. rewrite R, Nat2Z.id.
  assert (T : tl (skipn (List.length a) p) = e) by (rewrite E, skipn_len; reflexivity). rewrite T. clear T.
  apply existsb_exists in X as (c & IC & NC). destruct (Ascii.eqb_spec c "."); [discriminate|]. clear NC.
  destruct (rfind_cases "/" p) as [(S & NS)|(d & b & Ed & NB & S)]; rewrite S in L, IC.
  - change (Z.to_nat (-1 + 1)) with O in IC. cbn [skipn] in IC. replace (Z.of_nat (List.length a) - (-1 + 1)) with (Z.of_nat (List.length a)) in IC by lia.
    rewrite Nat2Z.id, E, firstn_len in IC. exists [], a. cbn [app]. split; [exact E|]. split; [left; reflexivity|].
    split; [intros K; apply NS; rewrite E; apply in_or_app; auto|]. split; [exists c; auto|]. split; [intros K; apply NS; rewrite E; apply in_or_app; right; right; auto|exact ND].
  - assert (Le : exists m, a = d ++ "/"%char :: m /\ b = m ++ "."%char :: e).
    { rewrite E in Ed. clear - Ed L ND. apply Nat2Z.inj_lt in L. revert a Ed L. induction d as [|x d IH]; intros a Ed L.
      - destruct a as [|y a]; [cbn in L; lia|]. cbn [app] in Ed. injection Ed as -> <-. exists a. auto.
      - destruct a as [|y a]; [cbn in L; lia|]. cbn [app] in Ed. injection Ed as -> Ed. destruct (IH a Ed) as (m & -> & ->); [cbn in L; lia|]. exists m. auto. }
    destruct Le as (m & -> & ->). exists (d ++ ["/"%char]), m. rewrite E, <- !app_assoc. cbn [app]. split; [reflexivity|]. split; [right; exists d; reflexivity|].
    split; [intros K; apply NB; apply in_or_app; auto|]. split.
    + exists c. split; [|exact n]. rewrite E in IC. rewrite <- app_assoc in IC. cbn [app] in IC.
      replace (Z.to_nat (Z.of_nat (List.length d) + 1)) with (List.length (d ++ ["/"%char])) in IC by (rewrite app_length; cbn [List.length]; lia).
      change (d ++ "/"%char :: m ++ "."%char :: e) with (d ++ ["/"%char] ++ (m ++ "."%char :: e)) in IC. rewrite app_assoc, skipn_len in IC.
      replace (Z.to_nat (Z.of_nat (List.length (d ++ "/"%char :: m)) - (Z.of_nat (List.length d) + 1))) with (List.length m) in IC by (rewrite app_length; cbn [List.length]; lia).
      rewrite firstn_len in IC. exact IC.
    + split; [intros K; apply NB; apply in_or_app; right; right; auto|exact ND].
Qed.

(* ---- the arguments ---- *)
Definition spelled (k : graph_type) : In (type_name k) graph_types.
Proof. destruct k; cbn; auto. Qed.
Lemma types_are ty : In ty graph_types -> exists k, ty = type_name k.
Proof. intros [<-|[<-|[<-|[<-|[]]]]]; [exists Dag|exists Directed|exists Simple|exists Bipartite]; reflexivity. Qed.
Definition format_list (dot : bool) (k : graph_type) : list text :=
  match dget text_eqb (type_name k) (graphformats dot) with Some fs => fs | None => [] end.
Lemma member_In t l : member t l = true <-> In t l.
Proof.
  unfold member. rewrite existsb_exists. split.
  - intros (x & I & E). apply text_eqb_eq in E. subst. exact I.
  - intros I. exists t. split; [exact I|apply text_eqb_refl].
Qed.
Lemma offered_list dot k f : offered dot (type_name k) f <-> In f (format_list dot k).
Proof.
  split.
  - intros O. destruct k, dot; inversion O; subst; cbn; try tauto; try discriminate;
      match goal with H : In _ _ |- _ => cbn in H; intuition discriminate end.
  - destruct k, dot; cbn; intros I;
      repeat match type of I with _ \/ _ => destruct I as [<-|I] | False => destruct I end;
      first [apply offered_kthlist|apply offered_gml|apply offered_dot; [reflexivity|]|apply offered_dimacs|apply offered_matrix]; cbn; auto.
Qed.
Lemma offered_type dot ty f : offered dot ty f -> exists k, ty = type_name k.
Proof.
  intros O. inversion O; subst; try (apply types_are; assumption).
  - cbn in *. match goal with H : _ \/ _ |- _ => destruct H as [<-|[<-|[]]] end; [exists Directed|exists Simple]; reflexivity.
  - exists Bipartite. reflexivity.
Qed.
Lemma process_known dot n k fmt :
  process_graph_io_arguments dot (Stream n) (type_name k) fmt =
  if text_eqb fmt (txt "autodetect")
  then match n with
       | None => Err ValueError
       | Some n => if member (extension n) (format_list dot k) then Ok (k, extension n) else Err ValueError
       end
  else if member fmt (format_list dot k) then Ok (k, fmt) else Err TypeError.
Proof. destruct k, dot; reflexivity. Qed.
Lemma process_unknown dot n ty fmt : ~ In ty graph_types -> process_graph_io_arguments dot (Stream n) ty fmt = Err TypeError.
Proof.
  intros N. unfold process_graph_io_arguments.
  assert (E : dget text_eqb ty (graphformats dot) = None).
  { destruct (dget text_eqb ty (graphformats dot)) as [fs|] eqn:E; [|reflexivity]. exfalso. apply N.
    unfold graphformats, all_formats in E. cbn [map fst snd dget] in E.
    repeat match type of E with (if text_eqb ?a ?b then _ else _) = _ => destruct (text_eqb_spec a b) as [X|_] end; try discriminate E;
    match goal with X : _ = _ |- _ => first [rewrite X | rewrite <- X]; cbn; tauto end. }
  rewrite E. reflexivity.
Qed.
Lemma not_autodetect dot ty f : offered dot ty f -> text_eqb f (txt "autodetect") = false.
Proof. intros O. inversion O; reflexivity. Qed.

(* ---- kthlist: a bipartite reading has both labels ---- *)
Definition good_state (s : kth_state) : Prop := valid_colors (k_colors s).
Lemma bicolor_valid v us d d' : bicolor v us d = Ok d' -> valid_colors d -> valid_colors d'.
Proof.
  intros E V. destruct (bicolor_cases v us d) as [(c & A & B & C & E')|(_ & E')]; [|congruence]. rewrite E' in E. injection E as <-.
  assert (C01 : c = 0 \/ c = 1).
  { destruct C as [C|C]; auto. apply found_In in C as [(u & _ & C)|C]; apply V in C; lia. }
  intros w k H. rewrite cget_sets, cget_set in H. destruct (zmem w us); [injection H as <-; auto|]. destruct (w =? v).
  2: eauto.
  destruct C01 as [->| ->]; cbn in H; injection H as <-; auto.
Qed.
Lemma kth_line_valid d s l s' : good_state s -> kth_line d true s l = Ok s' -> good_state s'.
Proof.
  unfold good_state. intros G H. unfold kth_line in H.
  repeat (match type of H with
  | (match ?x with _ => _ end) = Ok _ => destruct x eqn:?
  | bind ?x _ = Ok _ => destruct x eqn:?; cbn [bind] in H
  | (if ?x then _ else _) = Ok _ => destruct x eqn:?
  end; try discriminate H); try (injection H as <-; cbn [k_colors]; try exact G; eapply bicolor_valid; eauto).
Qed.
Lemma kth_lines_valid d ls : forall s s', good_state s -> kth_lines d true ls s = Ok s' -> good_state s'.
Proof.
  induction ls as [|l ls IH]; intros s s' G H; cbn [kth_lines] in H; [injection H as <-; exact G|].
  destruct (kth_line d true s l) as [s1| |] eqn:E; cbn [bind] in H; try discriminate. eapply IH; [|exact H]. eapply kth_line_valid; eauto.
Qed.
Lemma residual_all V : forall colors, valid_colors colors ->
  let r := fold_left (fun d v => match dget Z.eqb v d with Some _ => d | None => dset Z.eqb v 1 d end) V colors in
  valid_colors r /\ (forall w, cget w colors <> None -> cget w r <> None) /\ forall w, In w V -> cget w r <> None.
Proof.
  induction V as [|v V IH]; intros c G; cbn [fold_left]; [repeat split; auto; intros w []|].
  set (c1 := match cget v c with Some _ => c | None => dset Z.eqb v 1 c end).
  assert (G1 : valid_colors c1).
  { subst c1. destruct (cget v c) eqn:E; [exact G|]. intros w k H. rewrite cget_set in H. destruct (w =? v); [injection H as <-; auto|eauto]. }
  assert (K1 : forall w, cget w c <> None -> cget w c1 <> None).
  { intros w H. subst c1. destruct (cget v c); [exact H|]. rewrite cget_set. destruct (w =? v); [discriminate|exact H]. }
  assert (V1 : cget v c1 <> None).
  { subst c1. destruct (cget v c) eqn:E; [congruence|]. rewrite cget_set, Z.eqb_refl. discriminate. }
  destruct (IH c1 G1) as (A & B & C). split; [exact A|]. split; [intros w H; apply B, K1, H|]. intros w [<-|I]; auto.
Qed.
Lemma kthlist_labels d t f : read_kthlist d true t = Ok f -> has_bipartition f = true.
Proof.
  unfold read_kthlist. intros H. destruct (kth_lines d true (readlines t) (mkKth (-1) [] [] true [])) as [s| |] eqn:E; cbn [bind] in H; try discriminate.
  assert (G : good_state s) by (eapply kth_lines_valid; [|exact E]; intros w k K; discriminate K).
  destruct (k_n s <? 0); [discriminate|]. injection H as <-. unfold has_bipartition. cbn [f_vertices]. apply forallb_forall. intros v I.
  destruct (residual_all (range 1 (k_n s + 1)) _ G) as (A & _ & C). specialize (C v I).
  match type of C with ?x <> None => destruct x as [k|] eqn:K; [|congruence] end.
  destruct (A _ _ K) as [->| ->]; apply orb_true_iff; [left|right]; apply has_color_spec; exact K.
Qed.

(* what a format gives *)
Definition checked (k : graph_type) (r : result file_graph) : result file_graph :=
  G <- r ;;
  match k with
  | Dag => if is_dag (to_digraph G) then Ok G else if f_sorted G then Err AssertionError else Err ValueError
  | Bipartite => if has_bipartition G then Ok G else Err ValueError
  | _ => Ok G
  end.
Lemma checked_kthlist k t : checked k (read_kthlist (is_directed k) (is_bipartite k) t) = readGraph_kthlist k t.
Proof.
  unfold checked, readGraph_kthlist. destruct (read_kthlist (is_directed k) (is_bipartite k) t) as [f| |] eqn:E; [|reflexivity|reflexivity].
  destruct k; try reflexivity. cbn [bind]. cbn [is_directed is_bipartite] in E. rewrite (kthlist_labels _ _ _ E). reflexivity.
Qed.
