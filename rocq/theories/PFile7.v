(* PFile7.v -- graphs in the DIMACS edge format *)
From Coq Require Import String Ascii ZArith NArith List Bool Lia Arith Sorted Permutation.
From Verif Require Import Spec SpecInput SpecFile PyBase MSet MText MCnf MFam MFam2 MTrans MFile SpecCnf SpecFam SpecFam2 PText PReader PLib PCnf1 PCnf2 PCnf3 PFam1 PFam2 PFam4 PFam8 PFam15 PFam16 PGen6 PFile1 PFile2 PFile3 PFile4 PFile5 PFile6.
Import ListNotations.
Open Scope Z_scope.

Lemma several_split ws l tail : several_words ws l -> spaces tail -> split_ws (l ++ tail) = ws.
Proof.
  intros H Ht. unfold split_ws. induction H as [t H|pre w H1 H2|pre w ws b u H1 H2 Hb H3 IH].
  - rewrite split_ws_gap by (apply blank_uspace; auto). rewrite <- (app_nil_r tail), split_ws_gap by auto. reflexivity.
  - rewrite <- app_assoc, split_ws_gap by (apply blank_uspace; auto). destruct tail as [|x tail].
    + rewrite app_nil_r, split_ws_last by auto. reflexivity.
    + inversion Ht; subst. rewrite split_ws_word_sp by auto. fold (split_ws tail). rewrite split_ws_spaces by auto. reflexivity.
  - rewrite <- !app_assoc, split_ws_gap by (apply blank_uspace; auto). cbn [app].
    rewrite split_ws_word_sp by (eauto using blank_usp). rewrite IH. reflexivity.
Qed.
Lemma split_line ws l : several_words ws l -> split_ws (l ++ [nl]) = ws.
Proof. intros H. apply several_split; auto. constructor; [reflexivity|constructor]. Qed.
(* ---- the lines of a file ---- *)
Definition after (d : bool) (s : edge_state) (sp : option (Z * Z)) (es : list (Z * Z)) (V : list Z) (name : text) : edge_state :=
  mkEdges (match sp with Some (n, _) => n | None => e_n s end) (match sp with Some (_, m) => m | None => e_m s end)
    (e_count s + Z.of_nat (List.length es)) V (fold_left (add_edge d) es (e_edges s)) (e_name s ++ name).
Definition vertices_from (V : list Z) (sp : option (Z * Z)) (es : list (Z * Z)) (w : Z) : Prop :=
  In w V \/ (exists n m, sp = Some (n, m) /\ 1 <= w <= n) \/ exists e, In e es /\ (w = fst e \/ w = snd e).
Lemma add_vertex_In V v w : In w (add_vertex V v) <-> In w V \/ w = v.
Proof.
  unfold add_vertex. destruct (zmem v V) eqn:E.
  - apply zmem_In in E. split; auto. intros [H| ->]; auto.
  - rewrite in_app_iff. cbn. intuition auto.
Qed.
Lemma add_vertex_NoDup V v : NoDup V -> NoDup (add_vertex V v).
Proof.
  intros N. unfold add_vertex. destruct (zmem v V) eqn:E; auto. apply NoDup_app_intro; auto; [constructor; [intros []|constructor]|].
  intros x H [K|[]]. subst x. apply zmem_In in H. congruence.
Qed.
Lemma add_vertices_In vs : forall V w, In w (fold_left add_vertex vs V) <-> In w V \/ In w vs.
Proof. induction vs as [|v vs IH]; intros V w; cbn [fold_left In]; [tauto|]. rewrite IH, add_vertex_In. intuition auto. Qed.
Lemma add_vertices_NoDup vs : forall V, NoDup V -> NoDup (fold_left add_vertex vs V).
Proof. induction vs as [|v vs IH]; intros V N; cbn [fold_left]; auto using add_vertex_NoDup. Qed.
Lemma edge_lines_app d ls ls' : forall s, edge_lines d (ls ++ ls') s = (s' <- edge_lines d ls s ;; edge_lines d ls' s').
Proof. induction ls as [|l ls IH]; intros s; cbn [app edge_lines]; [reflexivity|]. destruct (edge_line d s l); cbn [bind]; auto. Qed.
Lemma edges_read d ls name sp es : edge_file ls name sp es -> forall s, (sp <> None -> e_n s < 0) -> NoDup (e_vertices s) ->
  exists V, edge_lines d (map (fun l => l ++ [nl]) ls) s = Ok (after d s sp es V name) /\ NoDup V /\ (forall w, In w V <-> vertices_from (e_vertices s) sp es w).
Proof.
  induction 1 as [|x t ls name sp es H IH|ls name sp es H IH|t w n m wn wm ls name es Hw Hn Hm P H IH|t w u v wu wv ls name sp es Hw Hu Hv H IH|l ls name sp es Hc Hp He H IH]; intros s N D; cbn [map edge_lines].
  - exists (e_vertices s). split; [unfold after; cbn; rewrite Z.add_0_r, app_nil_r; destruct s; reflexivity|]. split; auto.
    intros w. unfold vertices_from. split; auto. intros [K|[(n & m & K & _)|(e & [] & _)]]; auto; discriminate.
  - destruct (IH (mkEdges (e_n s) (e_m s) (e_count s) (e_vertices s) (e_edges s) (e_name s ++ t ++ [nl])) N D) as (V & E & DV & I).
    exists V. split; [|auto]. cbn [app edge_line bind]. change (Ascii.eqb "c" "c") with true. cbv iota. cbn [tl bind]. etransitivity; [exact E|]. unfold after. cbn [e_n e_m e_count e_edges e_name]. rewrite <- !app_assoc. reflexivity.
  - destruct (IH (mkEdges (e_n s) (e_m s) (e_count s) (e_vertices s) (e_edges s) (e_name s ++ [])) N D) as (V & E & DV & I).
    exists V. split; [|auto]. cbn [app edge_line bind]. change (Ascii.eqb "c" "c") with true. cbv iota. cbn [tl bind]. etransitivity; [exact E|]. unfold after. cbn [e_n e_m e_count e_edges e_name]. rewrite app_nil_r. reflexivity.
  - set (s1 := mkEdges n m (e_count s) (fold_left add_vertex (range 1 (n + 1)) (e_vertices s)) (e_edges s) (e_name s)).
    destruct (IH s1) as (V & E & DV & I); [congruence|apply add_vertices_NoDup; auto|].
    exists V. assert (EL : edge_line d s (("p"%char :: t) ++ [nl]) = Ok s1).
    { pose proof (split_line _ _ Hw) as S. cbn [app] in S |- *. unfold edge_line. change (Ascii.eqb "p" "c") with false. change (Ascii.eqb "p" "p") with true. cbv iota.
      destruct (Z.leb_spec 0 (e_n s)); [exfalso; assert (e_n s < 0) by (apply N; discriminate); lia|]. rewrite S. change (text_eqb (chars "edge") (txt "edge")) with true. cbn [negb].
      rewrite (numeral_int _ _ Hn), (numeral_int _ _ Hm). reflexivity. }
    rewrite EL. cbn [bind]. split; [exact E|]. split; auto. intros w'. rewrite I. unfold vertices_from. cbn [e_vertices s1]. rewrite add_vertices_In, range_In. split.
    + intros [[K|K]|[(n' & m' & K & _)|K]]; auto; [|discriminate]. right. left. exists n, m. split; auto. lia.
    + intros [K|[(n' & m' & K & L)|K]]; auto. injection K as <- <-. left. right. lia.
  - set (s1 := mkEdges (e_n s) (e_m s) (e_count s + 1) (add_vertex (add_vertex (e_vertices s) u) v) (add_edge d (e_edges s) (u, v)) (e_name s)).
    destruct (IH s1) as (V & E & DV & I); [exact N|apply add_vertex_NoDup, add_vertex_NoDup; auto|].
    exists V. assert (EL : edge_line d s (("e"%char :: t) ++ [nl]) = Ok s1).
    { pose proof (split_line _ _ Hw) as S. cbn [app] in S |- *. unfold edge_line. change (Ascii.eqb "e" "c") with false. change (Ascii.eqb "e" "p") with false. change (Ascii.eqb "e" "e") with true. cbv iota.
      rewrite S, (numeral_int _ _ Hu), (numeral_int _ _ Hv). reflexivity. }
    rewrite EL. cbn [bind]. split; [|split; auto].
    + etransitivity; [exact E|]. unfold after. cbn [e_n e_m e_count e_edges e_name s1 List.length fold_left]. f_equal. f_equal. lia.
    + intros w'. rewrite I. unfold vertices_from. cbn [e_vertices s1]. rewrite !add_vertex_In. split.
      * intros [[[K|K]|K]|[K|(e & K & L)]]; auto.
        -- right. right. exists (u, v). split; [left; auto|auto].
        -- right. right. exists (u, v). split; [left; auto|auto].
        -- right. right. exists e. split; [right; auto|auto].
      * intros [K|[K|(e & [<-|K] & L)]]; auto.
        -- cbn [fst snd] in L. tauto.
        -- right. right. eauto.
  - assert (EL : edge_line d s (l ++ [nl]) = Ok s).
    { destruct l as [|y l]; [reflexivity|]. cbn [hd_error] in Hc, Hp, He. cbn [app]. unfold edge_line.
      destruct (Ascii.eqb_spec y "c"); [congruence|]. destruct (Ascii.eqb_spec y "p"); [congruence|]. destruct (Ascii.eqb_spec y "e"); [congruence|]. reflexivity. }
    rewrite EL. cbn [bind]. apply IH; auto.
Qed.
Lemma edge_spec_nonneg ls name sp es : edge_file ls name sp es -> forall n m, sp = Some (n, m) -> 0 <= n.
Proof. induction 1; intros n' m' E; eauto; [discriminate|]. injection E as <- <-. auto. Qed.
Definition single (e : Z * Z) : Z * list Z := (snd e, [fst e]).
Lemma singles d es : forall acc, fold_left (add_edge d) es acc = fold_left (add_list d) (map single es) acc.
Proof. induction es as [|[u v] es IH]; intros acc; cbn [map fold_left]; [reflexivity|]. rewrite IH. reflexivity. Qed.
Lemma singles_listed es u v : listed (map single es) u v <-> In (u, v) es.
Proof.
  unfold listed. split.
  - intros (us & H & K). apply in_map_iff in H as ([a b] & E & H). inversion E; subst. destruct K as [<-|[]]. auto.
  - intros H. exists [u]. split; [apply in_map_iff; exists (u, v); auto|left; auto].
Qed.
Lemma read_edges d ls name sp es : Forall one_line ls -> edge_file ls name sp es ->
  exists V, NoDup V /\ (forall w, In w V <-> vertices_from [] sp es w) /\
  read_dimacs_graph d (ended ls) =
    if (match sp with Some (_, m) => m | None => -1 end) =? Z.of_nat (List.length es) then Ok (mkFile V (edges_of d (map single es)) [] false name) else Err ValueError.
Proof.
  intros O H. destruct (edges_read d ls name sp es H (mkEdges (-1) (-1) 0 [] [] [])) as (V & E & DV & I); [cbn; lia|constructor|].
  exists V. split; auto. split; auto. unfold read_dimacs_graph. rewrite <- (app_nil_r (ended ls)), readlines_ended by auto. cbn [readlines]. rewrite app_nil_r, E.
  cbn [bind after e_m e_count e_vertices e_edges e_name]. rewrite singles. destruct sp as [[n m]|]; reflexivity.
Qed.
Lemma bad_edge_refused d s l : bad_edge_line l -> edge_line d s (l ++ [nl]) = Err ValueError.
Proof.
  intros H. inversion H as [t ws Hw Hl|t w a b Hw Hm|t ws Hw Hl|t w fmt a b Hw Hm]; subst; pose proof (split_line _ _ Hw) as S; cbn [app] in S |- *; unfold edge_line.
  - change (Ascii.eqb "e" "c") with false. change (Ascii.eqb "e" "p") with false. change (Ascii.eqb "e" "e") with true. cbv iota. rewrite S.
    destruct ws as [|x1 [|x2 [|x3 [|x4 ws]]]]; try reflexivity. exfalso. apply Hl. reflexivity.
  - change (Ascii.eqb "e" "c") with false. change (Ascii.eqb "e" "p") with false. change (Ascii.eqb "e" "e") with true. cbv iota. rewrite S.
    destruct Hm as [Hm|Hm]; apply malformed_word in Hm; rewrite Hm; [reflexivity|]. destruct (py_int a); reflexivity.
  - change (Ascii.eqb "p" "c") with false. change (Ascii.eqb "p" "p") with true. cbv iota. rewrite S. destruct (0 <=? e_n s); [reflexivity|].
    destruct ws as [|x1 [|x2 [|x3 [|x4 [|x5 ws]]]]]; try reflexivity. exfalso. apply Hl. reflexivity.
  - change (Ascii.eqb "p" "c") with false. change (Ascii.eqb "p" "p") with true. cbv iota. rewrite S. destruct (0 <=? e_n s); [reflexivity|].
    destruct (text_eqb fmt (txt "edge")) eqn:Ef; [|reflexivity]. apply text_eqb_eq in Ef. cbn [negb].
    destruct Hm as [Hm|[Hm|Hm]]; [contradiction| |]; apply malformed_word in Hm; rewrite Hm; [reflexivity|]. destruct (py_int a); reflexivity.
Qed.
Lemma read_bad_edge d ls name sp es l t : Forall one_line ls -> one_line l -> edge_file ls name sp es -> bad_edge_line l ->
  read_dimacs_graph d (ended (ls ++ [l]) ++ t) = Err ValueError.
Proof.
  intros O O2 H B. destruct (edges_read d ls name sp es H (mkEdges (-1) (-1) 0 [] [] [])) as (V & E & _); [cbn; lia|constructor|].
  unfold read_dimacs_graph. rewrite readlines_ended by (apply Forall_app; auto). rewrite map_app, <- app_assoc, edge_lines_app, E. cbn [bind map app edge_lines]. rewrite bad_edge_refused by auto. reflexivity.
Qed.
Lemma read_second_spec d ls name sp es t : Forall one_line ls -> edge_file ls name sp es -> sp <> None ->
  read_dimacs_graph d (ended ls ++ "p"%char :: t) = Err ValueError.
Proof.
  intros O H N. destruct (edges_read d ls name sp es H (mkEdges (-1) (-1) 0 [] [] [])) as (V & E & _); [cbn; lia|constructor|].
  destruct sp as [[n m]|]; [|congruence]. pose proof (edge_spec_nonneg _ _ _ _ H n m eq_refl) as P.
  unfold read_dimacs_graph. rewrite readlines_ended by auto. rewrite edge_lines_app, E. cbn [bind readlines].
  change (Ascii.eqb "p" newline) with false. cbv iota.
  assert (K : forall l ls, edge_lines d (("p"%char :: l) :: ls) (after d (mkEdges (-1) (-1) 0 [] [] []) (Some (n, m)) es V name) = Err ValueError).
  { intros l ls'. cbn [edge_lines edge_line]. change (Ascii.eqb "p" "c") with false. change (Ascii.eqb "p" "p") with true. cbv iota. cbn [after e_n]. destruct (Z.leb_spec 0 n); [reflexivity|lia]. }
  destruct (readlines t); rewrite K; reflexivity.
Qed.
(* ---- graphs of edges in range ---- *)
Lemma sorted_same l l' : StronglySorted Z.lt l -> StronglySorted Z.lt l' -> (forall x, In x l <-> In x l') -> l = l'.
Proof.
  intros H. revert l'. induction H as [|x l H IH F]; intros l' H' E.
  - destruct l' as [|y l']; auto. exfalso. apply (E y). left; auto.
  - inversion H' as [|y l'' H1 F1]; subst; [exfalso; apply (E x); left; auto|]. rewrite Forall_forall in F, F1.
    assert (x = y). { destruct (proj1 (E x) (or_introl eq_refl)) as [K|K]; auto. destruct (proj2 (E y) (or_introl eq_refl)) as [L|L]; auto. apply F1 in K. apply F in L. lia. }
    subst y. f_equal. apply IH; auto. intros z. split; intros Hz.
    + destruct (proj1 (E z) (or_intror Hz)) as [K|K]; auto. subst z. apply F in Hz. lia.
    + destruct (proj2 (E z) (or_intror Hz)) as [K|K]; auto. subst z. apply F1 in Hz. lia.
Qed.
Lemma range_vertices V n : NoDup V -> (forall w, In w V <-> 1 <= w <= n) -> sort_by Z.ltb V = range 1 (n + 1).
Proof. intros N H. apply sorted_same; [apply sorted_strict; auto|apply range_sorted|]. intros x. rewrite sorted_In, H, range_In. lia. Qed.
Lemma in_range_vertices n m es V : (forall w, In w V <-> vertices_from [] (Some (n, m)) es w) -> (forall u v, In (u, v) es -> 1 <= u <= n /\ 1 <= v <= n) ->
  forall w, In w V <-> 1 <= w <= n.
Proof.
  intros I R w. rewrite I. unfold vertices_from. split.
  - intros [[]|[(n' & m' & E & K)|([u v] & K & L)]]; [congruence|]. destruct (R u v K). cbn [fst snd] in L. destruct L as [-> | ->]; auto.
  - intros K. right. left. eauto.
Qed.
(* ---- written graphs ---- *)
Definition edge_text (e : Z * Z) : text := txt "e " ++ str_Z (fst e) ++ txt " " ++ str_Z (snd e).
Definition numbered (V : list Z) (E : list (Z * Z)) : list (Z * Z) := map (fun e => (position_in V (fst e), position_in V (snd e))) E.
Definition edges_text (name : text) (V : list Z) (E : list (Z * Z)) : list text :=
  comment_of name :: (txt "p edge " ++ str_Z (Z.of_nat (List.length V)) ++ txt " " ++ str_Z (Z.of_nat (List.length E))) :: map edge_text (numbered V E).
Definition name_back (name : text) : text := match rstrip name with [] => [] | t => t ++ [nl] end.
Lemma write_edges name V E : write_dimacs_graph name V E = ended (edges_text name V E).
Proof.
  unfold write_dimacs_graph, edges_text, ended. cbn [map concat]. assert (S : strip is_uspace (txt "c " ++ name) = comment_of name) by reflexivity. rewrite S.
  rewrite <- !app_assoc. cbn [app]. f_equal. f_equal. do 4 f_equal. unfold numbered. rewrite !map_map.
  f_equal. f_equal. apply map_ext. intros [u v]. cbn [fst snd]. unfold edge_text. cbn [fst snd]. rewrite <- !app_assoc. reflexivity.
Qed.
Lemma word_of_txt s : s <> ""%string -> forallb (fun c => (32 <? Z.of_nat (nat_of_ascii c))) (txt s) = true -> word (txt s).
Proof. intros N H. split; [destruct s; [congruence|discriminate]|]. intros c Hc. rewrite forallb_forall in H. apply H in Hc. apply Z.ltb_lt in Hc. lia. Qed.
Lemma written_edges name V E : one_line name -> Forall one_line (edges_text name V E) /\
  edge_file (edges_text name V E) (name_back name) (Some (Z.of_nat (List.length V), Z.of_nat (List.length E))) (numbered V E).
Proof.
  intros O. assert (SP : one_line [" "%char]) by (intros [K|[]]; discriminate). split.
  - unfold edges_text. constructor; [unfold comment_of; apply rstrip_one, one_line_app; auto; apply one_line_txt; reflexivity|].
    constructor; [repeat apply one_line_app; try apply one_line_str; apply one_line_txt; reflexivity|].
    apply Forall_forall. intros l H. apply in_map_iff in H as (e & <- & _). unfold edge_text. repeat apply one_line_app; try apply one_line_str; apply one_line_txt; reflexivity.
  - assert (H : edge_file ((txt "p edge " ++ str_Z (Z.of_nat (List.length V)) ++ txt " " ++ str_Z (Z.of_nat (List.length E))) :: map edge_text (numbered V E)) []
      (Some (Z.of_nat (List.length V), Z.of_nat (List.length E))) (numbered V E)).
    { change (txt "p edge " ++ str_Z (Z.of_nat (List.length V)) ++ txt " " ++ str_Z (Z.of_nat (List.length E))) with
        ("p"%char :: txt " edge " ++ str_Z (Z.of_nat (List.length V)) ++ " "%char :: str_Z (Z.of_nat (List.length E))).
      eapply (edges_spec _ (txt "p") _ _ (str_Z (Z.of_nat (List.length V))) (str_Z (Z.of_nat (List.length E)))); try apply PReader.str_Z_numeral; [|lia|].
      - match goal with |- several_words _ ?t => change t with ([] ++ txt "p" ++ " "%char :: ([] ++ txt "edge" ++ " "%char :: ([] ++ str_Z (Z.of_nat (List.length V)) ++ " "%char :: ([] ++ str_Z (Z.of_nat (List.length E)))))) end.
        apply words_cons; [constructor|apply word_of_txt; [discriminate|reflexivity]|left; reflexivity|].
        apply words_cons; [constructor|apply word_of_txt; [discriminate|reflexivity]|left; reflexivity|].
        apply words_cons; [constructor|eapply numeral_word, PReader.str_Z_numeral|left; reflexivity|].
        apply words_last; [constructor|eapply numeral_word, PReader.str_Z_numeral].
      - induction (numbered V E) as [|[u v] es IH]; cbn [map]; [apply edges_none|]. unfold edge_text at 1. cbn [fst snd].
        change (txt "e " ++ str_Z u ++ txt " " ++ str_Z v) with ("e"%char :: " "%char :: str_Z u ++ " "%char :: str_Z v).
        eapply (edges_edge _ (txt "e") u v (str_Z u) (str_Z v)); try apply PReader.str_Z_numeral; [|exact IH].
        change ("e"%char :: " "%char :: str_Z u ++ " "%char :: str_Z v) with ([] ++ txt "e" ++ " "%char :: ([] ++ str_Z u ++ " "%char :: ([] ++ str_Z v))).
        apply words_cons; [constructor|apply word_of_txt; [discriminate|reflexivity]|left; reflexivity|].
        apply words_cons; [constructor|eapply numeral_word, PReader.str_Z_numeral|left; reflexivity|].
        apply words_last; [constructor|eapply numeral_word, PReader.str_Z_numeral]. }
    unfold edges_text, name_back. rewrite comment_of_eq. destruct (rstrip name) as [|x t].
    + apply edges_bare. exact H.
    + change (txt "c " ++ x :: t) with ("c"%char :: " "%char :: x :: t). apply (edges_comment " "%char (x :: t)). exact H.
Qed.
Lemma numbered_In V E u v : In u V -> In v V -> (forall a b, In (a, b) E -> In a V /\ In b V) ->
  (In (position_in V u, position_in V v) (numbered V E) <-> In (u, v) E).
Proof.
  intros Hu Hv R. unfold numbered. split.
  - intros H. apply in_map_iff in H as ([a b] & K & H). cbn [fst snd] in K. destruct (R a b H). injection K as K1 K2. apply position_inj in K1, K2; auto. subst; auto.
  - intros H. apply in_map_iff. exists (u, v). auto.
Qed.
Lemma numbered_positions V E i j : (forall a b, In (a, b) E -> In a V /\ In b V) -> In (i, j) (numbered V E) ->
  exists u v, In u V /\ In v V /\ i = position_in V u /\ j = position_in V v /\ In (u, v) E.
Proof. intros R H. apply in_map_iff in H as ([a b] & K & H). cbn [fst snd] in K. injection K as <- <-. destruct (R a b H). exists a, b. auto. Qed.
