(* PFile4.v -- kthlist: refused files, the graphs read *)
From Coq Require Import String Ascii ZArith NArith List Bool Lia Arith Sorted Permutation.
From Verif Require Import Spec SpecInput SpecFile PyBase MSet MText MCnf MFam MFam2 MTrans MFile SpecCnf SpecFam SpecFam2 PText PReader PLib PCnf1 PCnf2 PCnf3 PFam1 PFam2 PFam4 PFam15 PGen6 PFile1 PFile3.
Import ListNotations.
Open Scope Z_scope.

(* ---- refused lines ---- *)
Lemma list_line d b s v us a c : numbers [v] a -> numbers us c ->
  kth_line d b s ((a ++ ":"%char :: c) ++ [nl]) =
  (if (List.length us =? 0)%nat || negb (List.last us 1 =? 0) then Err ValueError
   else if negb (in_vertices (k_n s) v) then Err ValueError
   else let us := removelast us in
        if negb (forallb (in_vertices (k_n s)) us) then Err ValueError
        else colors <- (if b then bicolor v us (k_colors s) else Ok (k_colors s)) ;;
             Ok (mkKth (k_n s) (add_list d (k_edges s) (v, us)) colors (k_topo s && forallb (fun x => v <? x) us) (k_name s))).
Proof.
  intros Ha Hc. rewrite <- app_assoc. cbn [app].
  destruct (one_number_first v a (":"%char :: c ++ [nl]) Ha) as (x & t & E & Ex).
  assert (S : split_on ":" (x :: t) = [a; c ++ [nl]]).
  { rewrite <- E, split_on_app by (eapply numbers_no_colon; eauto). rewrite split_on_lacks; auto.
    apply lacks_app; [eapply numbers_no_colon; eauto|intros [K|[]]; discriminate]. }
  assert (T : strip is_uspace (x :: t) <> []).
  { intros K. apply strip_nil in K. rewrite <- E in K. apply Forall_app in K as [_ K]. inversion K; discriminate. }
  rewrite E. unfold kth_line. rewrite Ex. destruct (strip is_uspace (x :: t)); [congruence|]. rewrite S.
  assert (I : py_int (strip is_uspace a) = Some v) by (rewrite <- (app_nil_r a); apply one_number_int; auto; constructor). rewrite I.
  cbn [of_option bind]. rewrite (numbers_words _ _ [nl] Hc) by (constructor; [reflexivity|constructor]). reflexivity.
Qed.
Lemma in_vertices_spec n v : in_vertices n v = true <-> 1 <= v <= n.
Proof. unfold in_vertices. rewrite andb_true_iff, !Z.leb_le. tauto. Qed.
Lemma uspace_code x : (32 < nat_of_ascii x)%nat -> is_uspace x = false.
Proof. intros H. assert (K : word [x]) by (split; [discriminate|intros c [<-|[]]; auto]). apply word_nouspace in K. inversion K; auto. Qed.
Lemma bad_line_refused d b s l : bad_line (k_n s) l -> kth_line d b s (l ++ [nl]) = Err ValueError.
Proof.
  intros H. inversion H as [l' N Hc (x & Hx & Hs) Hl|v us a c Ha Hb Hu|v us a c Ha Hb Hv|v us u a c Ha Hb Hu Hr|v a pre w post Ha Hw Hm Hl Hp Hq]; subst.
  - destruct l as [|y l]; [destruct Hx|]. cbn [hd_error] in Hc. cbn [app]. unfold kth_line. destruct (Ascii.eqb_spec y "c") as [E|_]; [congruence|].
    destruct (strip is_uspace (y :: l ++ [nl])) eqn:Es.
    + apply strip_nil in Es. change (y :: l ++ [nl]) with ((y :: l) ++ [nl]) in Es. apply Forall_app in Es as [Es _]. rewrite Forall_forall in Es. apply Es in Hx. rewrite uspace_code in Hx; congruence.
    + change (y :: l ++ [nl]) with ((y :: l) ++ [nl]). rewrite split_on_lacks by (apply lacks_app; auto; intros [K|[]]; discriminate).
      destruct (Z.leb_spec 0 (k_n s)); [reflexivity|lia].
  - rewrite (list_line d b s v us a c) by auto. destruct (Z.eqb_spec (List.last us 1) 0); [congruence|]. rewrite orb_true_r. reflexivity.
  - rewrite (list_line d b s v (us ++ [0]) a c) by auto. rewrite app_length, Nat.add_comm, last_last. cbn [List.length Nat.add Nat.eqb orb Z.eqb negb].
    destruct (in_vertices (k_n s) v) eqn:E; [apply in_vertices_spec in E; contradiction|reflexivity].
  - rewrite (list_line d b s v (us ++ [0]) a c) by auto. rewrite app_length, Nat.add_comm, last_last, removelast_last. cbn [List.length Nat.add Nat.eqb orb Z.eqb negb].
    destruct (in_vertices (k_n s) v); [|reflexivity]. cbn [negb]. cbv zeta.
    destruct (forallb (in_vertices (k_n s)) us) eqn:E; [|reflexivity]. rewrite forallb_forall in E. apply E in Hu. apply in_vertices_spec in Hu. contradiction.
  - set (c := pre ++ w ++ post) in *. rewrite <- app_assoc. cbn [app]. destruct (one_number_first v a (":"%char :: c ++ [nl]) Ha) as (x & t & E & Ex).
    assert (S : split_on ":" (x :: t) = [a; c ++ [nl]]).
    { rewrite <- E, split_on_app by (eapply numbers_no_colon; eauto). rewrite split_on_lacks; auto. apply lacks_app; auto. intros [K|[]]; discriminate. }
    assert (T : strip is_uspace (x :: t) <> []).
    { intros K. apply strip_nil in K. rewrite <- E in K. apply Forall_app in K as [_ K]. inversion K; discriminate. }
    rewrite E. unfold kth_line. rewrite Ex. destruct (strip is_uspace (x :: t)); [congruence|]. rewrite S.
    assert (I : py_int (strip is_uspace a) = Some v) by (rewrite <- (app_nil_r a); apply one_number_int; auto; constructor). rewrite I.
    cbn [of_option bind]. rewrite split_ws_nl. subst c. rewrite bad_word; auto.
    + destruct Hp as [->|(p & e & -> & Hb)]; auto. right. exists p, e. split; auto using blank_usp.
    + destruct Hq as [->|(e & p & -> & Hb)]; auto. right. exists e, p. split; auto using blank_usp.
Qed.
Lemma color_lists_err adj : forall colors e, color_lists adj colors = Err e -> e = ValueError.
Proof.
  induction adj as [|[v us] adj IH]; intros cs e H; cbn [color_lists] in H; [discriminate|].
  destruct (bicolor v us cs) as [c| |] eqn:E; cbn [bind] in H; [eauto| |discriminate].
  - inversion H; subst. unfold bicolor in E. destruct (flat_map _ _ ++ _); [discriminate|]. destruct (forallb _ _); congruence.
Qed.
Lemma color_lists_fuel adj : forall colors, color_lists adj colors <> OutOfFuel.
Proof.
  induction adj as [|[v us] adj IH]; intros cs; cbn [color_lists]; [discriminate|].
  destruct (bicolor v us cs) as [c| |] eqn:E; cbn [bind]; [apply IH|discriminate|]. unfold bicolor in E. destruct (flat_map _ _ ++ _); [discriminate|]. destruct (forallb _ _); congruence.
Qed.
Lemma read_bad d b lines name n adj l t : Forall one_line lines -> one_line l -> kthlist_file lines name n adj -> bad_line n l ->
  read_kthlist d b (ended (lines ++ [l]) ++ t) = Err ValueError.
Proof.
  intros O O2 H B. unfold read_kthlist. rewrite readlines_ended by (apply Forall_app; auto). rewrite map_app, <- app_assoc, kth_lines_app, (kthlist_lines d b _ _ _ _ H).
  destruct b.
  - destruct (color_lists adj []) as [cs|e|] eqn:E; cbn [bind]; [|apply color_lists_err in E; subst; reflexivity|apply color_lists_fuel in E; destruct E].
    cbn [map app kth_lines]. rewrite bad_line_refused by exact B. reflexivity.
  - cbn [bind map app kth_lines]. rewrite bad_line_refused by exact B. reflexivity.
Qed.
Lemma read_early d b pre name n l t : Forall one_line pre -> one_line l -> adjacency_lines n pre name [] -> bad_line (-1) l ->
  read_kthlist d b (ended (pre ++ [l]) ++ t) = Err ValueError.
Proof.
  intros O O2 H B. unfold read_kthlist. rewrite readlines_ended by (apply Forall_app; auto). rewrite map_app, <- app_assoc, kth_lines_app.
  rewrite (adjacency_read d b n _ _ _ H) by auto. cbn [color_lists k_colors]. assert (E : (if b then Ok ([] : list (Z * Z)) else Ok []) = Ok []) by (destruct b; reflexivity).
  rewrite E. cbn [bind map app kth_lines]. rewrite bad_line_refused by exact B. reflexivity.
Qed.
Lemma negative_line d b s z l : numbers [z] l -> z < 0 -> kth_line d b s (l ++ [nl]) = Err ValueError.
Proof.
  intros H N. destruct (one_number_first z l [nl] H) as (x & t & E & Ex).
  assert (L : lacks ":" (l ++ [nl])) by (apply lacks_app; [eapply numbers_no_colon; eauto|intros [K|[]]; discriminate]).
  pose proof (one_number_int z l [nl] H ltac:(constructor; [reflexivity|constructor])) as I.
  rewrite E in *. unfold kth_line. rewrite Ex. destruct (strip is_uspace (x :: t)) as [|y u] eqn:Es; [discriminate I|]. rewrite split_on_lacks by auto.
  destruct (0 <=? k_n s); [reflexivity|]. rewrite I. cbn [of_option bind]. destruct (Z.ltb_spec z 0); [reflexivity|lia].
Qed.
Lemma read_negative d b pre name n z l t : Forall one_line pre -> one_line l -> adjacency_lines n pre name [] -> numbers [z] l -> z < 0 ->
  read_kthlist d b (ended (pre ++ [l]) ++ t) = Err ValueError.
Proof.
  intros O O2 H B N. unfold read_kthlist. rewrite readlines_ended by (apply Forall_app; auto). rewrite map_app, <- app_assoc, kth_lines_app.
  rewrite (adjacency_read d b n _ _ _ H) by auto. cbn [color_lists k_colors]. assert (E : (if b then Ok ([] : list (Z * Z)) else Ok []) = Ok []) by (destruct b; reflexivity).
  rewrite E. cbn [bind map app kth_lines]. rewrite (negative_line _ _ _ z) by auto. reflexivity.
Qed.
Lemma read_no_size d b pre name n : Forall one_line pre -> adjacency_lines n pre name [] -> read_kthlist d b (ended pre) = Err ValueError.
Proof.
  intros O H. unfold read_kthlist. rewrite <- (app_nil_r (ended pre)), readlines_ended by auto. cbn [readlines]. rewrite app_nil_r.
  rewrite (adjacency_read d b n _ _ _ H) by auto. cbn [color_lists k_colors]. assert (E : (if b then Ok ([] : list (Z * Z)) else Ok []) = Ok []) by (destruct b; reflexivity).
  rewrite E. reflexivity.
Qed.

(* ---- the graphs ---- *)
Lemma sort_range a b : sort_by Z.ltb (range a b) = range a b.
Proof.
  apply sort_by_id. pose proof (range_sorted a b) as S. induction S as [|x l S IH F]; constructor; auto.
  apply Forall_forall. intros y Hy. rewrite Forall_forall in F. apply F in Hy. unfold le_of. destruct (Z.ltb_spec y x); auto; lia.
Qed.
Lemma listed_range n ls name adj : adjacency_lines n ls name adj -> forall u v, listed adj u v -> 1 <= u <= n /\ 1 <= v <= n.
Proof.
  induction 1 as [|x t ls name adj H IH|ls name adj H IH|l ls name adj Hl H IH|w us a c ls name adj Ha Hc Hv Hu H IH]; auto.
  - intros u v (l & [] & _).
  - intros u v K. apply listed_cons in K as [(l & [E|[]] & Hl)|K]; auto. inversion E; subst. auto.
Qed.
Lemma kthlist_range lines name n adj : kthlist_file lines name n adj -> forall u v, listed adj u v -> 1 <= u <= n /\ 1 <= v <= n.
Proof. intros (pre & size & post & n1 & n2 & _ & _ & _ & _ & _ & H). eapply listed_range; eauto. Qed.
Definition edges_of (d : bool) (adj : list (Z * list Z)) : list (Z * Z) := fold_left (add_list d) adj [].
Lemma edges_directed adj u v : In (u, v) (edges_of true adj) <-> listed adj u v.
Proof.
  pose proof (lists_joined true adj [] u v) as H. unfold joined, listed_in in H. fold (edges_of true adj) in H. cbn [In] in H.
  destruct H as [H1 H2]. split.
  - intros K. destruct (H1 (or_introl K)) as [[[]|[D _]]|[L|[D _]]]; auto; discriminate.
  - intros K. destruct H2 as [L|[D _]]; auto; discriminate.
Qed.
Lemma edges_undirected adj u v : In (u, v) (edges_of false adj) \/ In (v, u) (edges_of false adj) <-> listed adj u v \/ listed adj v u.
Proof.
  pose proof (lists_joined false adj [] u v) as H. unfold joined, listed_in in H. fold (edges_of false adj) in H. cbn [In] in H. tauto.
Qed.
Lemma kth_digraph n adj c name : (forall u v, listed adj u v -> 1 <= u <= n /\ 1 <= v <= n) ->
  let f := mkFile (range 1 (n + 1)) (edges_of true adj) c (downward adj) name in
  proper_digraph (to_digraph f) /\ d_nodes (to_digraph f) = range 1 (n + 1) /\ (forall u v, arc (to_digraph f) u v <-> listed adj u v).
Proof.
  intros R f. assert (A : forall u v, arc (to_digraph f) u v <-> listed adj u v) by (intros; apply edges_directed).
  assert (V : d_nodes (to_digraph f) = range 1 (n + 1)) by apply sort_range.
  split; [|split; auto]. split.
  - rewrite V. apply range_NoDup.
  - intros u v H. rewrite V, !range_In. apply A in H. apply R in H. lia.
Qed.
Lemma downward_acyclic d : (forall u v, arc d u v -> v < u) -> acyclic d.
Proof. intros H. assert (K : forall u v, walk d u v -> v < u) by (induction 1 as [u v A|u w v A _ IH]; [auto|apply H in A; lia]). intros v W. apply K in W. lia. Qed.
Lemma sorted_pair_In e es : In e (map sorted_pair es) -> exists a b, In (a, b) es /\ e = (Z.min a b, Z.max a b).
Proof. intros H. apply in_map_iff in H as ([a b] & <- & H). exists a, b. auto. Qed.
Lemma kth_graph n adj c name : (forall u v, listed adj u v -> 1 <= u <= n /\ 1 <= v <= n) ->
  let f := mkFile (range 1 (n + 1)) (edges_of false adj) c (downward adj) name in
  g_nodes (to_graph f) = range 1 (n + 1) /\ (forall u v, adjacent (to_graph f) u v <-> listed adj u v \/ listed adj v u) /\
  ((forall v, ~ listed adj v v) -> simple_graph (to_graph f)).
Proof.
  intros R f. set (es := edges_of false adj).
  assert (P : forall e, In e (g_edges (to_graph f)) <-> In e (map sorted_pair es)).
  { intros e. split; apply Permutation_in; [apply sort_by_Perm|apply Permutation_sym, sort_by_Perm]. }
  assert (A : forall u v, adjacent (to_graph f) u v <-> listed adj u v \/ listed adj v u).
  { intros u v. rewrite <- edges_undirected. fold es. unfold adjacent. rewrite !P. split.
    - intros [H|H]; apply sorted_pair_In in H as (a & b & H & E); injection E as E1 E2; destruct (Z.min_spec a b) as [[L1 M]|[L1 M]], (Z.max_spec a b) as [[L2 X]|[L2 X]]; try lia;
        assert ((u = a /\ v = b) \/ (u = b /\ v = a)) as [[-> ->]|[-> ->]] by lia; auto.
    - assert (S : forall a b, In (a, b) es -> a <= b -> In (a, b) (map sorted_pair es)).
      { intros a b H L. apply in_map_iff. exists (a, b). split; auto. unfold sorted_pair. cbn [fst snd]. rewrite Z.min_l, Z.max_r by lia. reflexivity. }
      assert (S' : forall a b, In (a, b) es -> b <= a -> In (b, a) (map sorted_pair es)).
      { intros a b H L. apply in_map_iff. exists (a, b). split; auto. unfold sorted_pair. cbn [fst snd]. rewrite Z.min_r, Z.max_l by lia. reflexivity. }
      intros [H|H]; destruct (Z.le_ge_cases u v); auto. }
  split; [apply sort_range|]. split; auto. intros NL.
  destruct (lists_once false adj [] (once_nil false)) as [N1 N2]. fold (edges_of false adj) in N1, N2. fold es in N1, N2. specialize (N2 eq_refl).
  assert (Irr : forall u v, In (u, v) es -> u <> v).
  { intros u v H E. subst v. assert (L : listed adj u u \/ listed adj u u) by (apply edges_undirected; auto). apply (NL u). tauto. }
  assert (ND : NoDup (map sorted_pair es)).
  { clear - N1 N2 Irr. induction es as [|[a b] es IH]; [constructor|]. inversion N1; subst. cbn [map]. constructor.
    - intros K. apply sorted_pair_In in K as (x & y & K & E). injection E as E1 E2. cbn [fst snd] in E1, E2. pose proof (Irr a b (or_introl eq_refl)) as I1. pose proof (Irr x y (or_intror K)) as I2.
      destruct (Z.min_spec a b) as [[L1 M]|[L1 M]], (Z.max_spec a b) as [[L2 X]|[L2 X]], (Z.min_spec x y) as [[L3 M']|[L3 M']], (Z.max_spec x y) as [[L4 X']|[L4 X']]; try lia;
        assert ((x = a /\ y = b) \/ (x = b /\ y = a)) as [[-> ->]|[-> ->]] by lia; try contradiction;
        (apply (N2 a b I1); [left; reflexivity|right; assumption]).
    - apply IH; auto.
      + intros u v Huv H K. apply (N2 u v Huv); right; auto.
      + intros u v H. apply Irr. right; auto. }
  split.
  - unfold to_graph. cbn [g_nodes f_vertices f]. rewrite sort_range. apply range_NoDup.
  - apply (Permutation_NoDup (Permutation_sym (sort_by_Perm _ _)) ND).
  - intros u v H K. rewrite P in H, K. apply sorted_pair_In in H as (a & b & H & E), K as (x & y & K & E'). injection E as E1 E2. injection E' as E3 E4. pose proof (Irr _ _ H). lia.
  - intros u v H. assert (L : adjacent (to_graph f) u v) by (left; auto). apply A in L. unfold to_graph. cbn [g_nodes f_vertices f]. rewrite sort_range, !range_In. destruct L as [L|L]; apply R in L; lia.
Qed.
