(* PFam7.v -- colouring, even colouring, subset cardinality *)
From Coq Require Import String Ascii ZArith List Bool Lia Arith Permutation Sorted.
From Verif Require Import Spec PyBase MSet MText MCnf MFam SpecCnf SpecFam PText PLib PCnf1 PCnf2 PFam1 PFam2 PFam3 PFam4 PFam5 PFam6.
Import ListNotations.
Open Scope Z_scope.

Lemma made_plain c cl : made c -> clean cl -> exists c', cnf_add_clause cl c = Ok c' /\ made c' /\ cnf_clauses c' = cnf_clauses c ++ [cl] /\
  forall v, In v (cn_names c') <-> In v (cn_names c) \/ In v (map snd cl).
Proof.
  intros M C. destruct (add_all_plain [cl] c (made_well c M)) as (c' & E & W & N & K); [intros x [<-|[]]; auto|]. cbn [add_all] in E.
  destruct (cnf_add_clause cl c) as [c1|e|] eqn:E1; try discriminate. cbn [bind] in E. injection E as ->. exists c'. split; auto. split; [eapply plain_made; eauto|].
  split; auto. intros v. rewrite N, with_new_In. cbn [concat]. rewrite app_nil_r. tauto.
Qed.
Lemma made_strict c cls : made c -> (forall cl, In cl cls -> clean cl) -> (forall cl v, In cl cls -> In v (map snd cl) -> In v (cn_names c)) ->
  exists c', add_all add_clause_strict cls c = Ok c' /\ made c' /\ cn_names c' = cn_names c /\ cnf_clauses c' = cnf_clauses c ++ cls.
Proof.
  intros M C K. destruct (add_all_strict cls c (made_well c M) C K) as (c' & E & W & N & L). exists c'. split; auto. split; auto.
  eapply add_all_made; [apply strict_made|exact M|exact E].
Qed.

(* ---- colouring ---- *)
Definition col_vertex (colors : list Z) (functional : bool) (v : Z) : list (list (bool * text)) :=
  map (fun k => (true, col_name v k)) colors ::
  (if functional then map (fun cc => [(false, col_name v (fst cc)); (false, col_name v (snd cc))]) (pairs colors) else []).
Definition col_clauses (g : graph) (colors : list Z) (functional : bool) : list (list (bool * text)) :=
  flat_map (col_vertex colors functional) (g_nodes g) ++
  flat_map (fun e => map (fun k => [(false, col_name (fst e) k); (false, col_name (snd e) k)]) colors) (g_edges g).
Lemma col_inj v k v' k' : col_name v k = col_name v' k' -> v = v' /\ k = k'.
Proof. apply name2_inj. Qed.
Lemma col_vertex_clean colors f v cl : NoDup colors -> In cl (col_vertex colors f v) -> clean cl.
Proof.
  intros N [<-|H].
  - apply same_polarity; auto. intros x y E. apply col_inj in E. tauto.
  - destruct f; [|destruct H]. apply in_map_iff in H as ([x y] & <- & H). apply pairs_neq in H; auto. apply clean_vars. cbn [map fst snd].
    constructor; [|constructor; [intros []|constructor]]. intros [E|[]]. apply col_inj in E. intuition congruence.
Qed.
Lemma col_vertices_built colors f : NoDup colors -> forall vs c, made c ->
  exists c', coloring_vertices colors f vs c = Ok c' /\ made c' /\ cnf_clauses c' = cnf_clauses c ++ flat_map (col_vertex colors f) vs /\
    forall x, In x (cn_names c') <-> In x (cn_names c) \/ exists v k, In v vs /\ In k colors /\ x = col_name v k.
Proof.
  intros N. induction vs as [|v t IH]; intros c M; cbn [coloring_vertices flat_map].
  - exists c. rewrite app_nil_r. split; auto. split; auto. split; auto. intros x. split; auto. intros [?|(? & ? & [] & _)]; auto.
  - destruct (made_plain c (map (fun k => (true, col_name v k)) colors) M) as (c1 & E1 & M1 & L1 & N1).
    { eapply (col_vertex_clean colors f v); auto. left; auto. }
    rewrite E1. cbn [bind].
    assert (X : exists c2, (if f then add_all add_clause_strict (map (fun cc => [(false, col_name v (fst cc)); (false, col_name v (snd cc))]) (pairs colors)) c1 else Ok c1) = Ok c2 /\
      made c2 /\ cn_names c2 = cn_names c1 /\ cnf_clauses c2 = cnf_clauses c1 ++ (if f then map (fun cc => [(false, col_name v (fst cc)); (false, col_name v (snd cc))]) (pairs colors) else [])).
    { destruct f; [|exists c1; rewrite app_nil_r; auto]. apply made_strict; auto.
      - intros cl Hc. eapply (col_vertex_clean colors true v); auto. right; auto.
      - intros cl w Hc Hw. apply in_map_iff in Hc as ([x y] & <- & H). apply pairs_In in H as [Hx Hy]. apply N1. right. rewrite map_map. cbn [snd].
        destruct Hw as [<-|[<-|[]]]; cbn [fst snd]; apply in_map; auto. }
    destruct X as (c2 & E2 & M2 & N2 & L2). rewrite E2. cbn [bind]. destruct (IH c2 M2) as (c3 & E3 & M3 & L3 & N3). exists c3. split; auto. split; auto. split.
    + rewrite L3, L2, L1. unfold col_vertex at 1. rewrite <- !app_assoc. reflexivity.
    + intros x. rewrite N3, N2, N1, map_map. cbn [snd]. rewrite in_map_iff. split.
      * intros [[K|(k & <- & Hk)]|(w & k & Hw & Hk & ->)]; auto; right; [exists v, k; split; [left|]; auto|exists w, k; split; [right|]; auto].
      * intros [K|(w & k & [<-|Hw] & Hk & ->)]; auto; [left; right; eauto|right; eauto].
Qed.
Lemma col_built g colors f : simple_graph g -> NoDup colors ->
  exists c, GraphColoringFormula g colors f = Ok c /\ made c /\ cnf_clauses c = col_clauses g colors f.
Proof.
  intros G N. unfold GraphColoringFormula. destruct (col_vertices_built colors f N (enumerate_vertices g) empty_cnf made_empty) as (c & E & M & L & K).
  rewrite E. cbn [bind].
  destruct (made_strict c (flat_map (fun e => map (fun k => [(false, col_name (fst e) k); (false, col_name (snd e) k)]) colors) (enumerate_edges g)) M) as (c' & E' & M' & _ & L').
  - intros cl Hc. apply in_flat_map in Hc as ([u v] & He & Hc). apply in_map_iff in Hc as (k & <- & Hk). apply clean_vars. cbn [map fst snd].
    constructor; [|constructor; [intros []|constructor]]. intros [X|[]]. apply col_inj in X as [-> _]. apply (no_loop g u G He).
  - intros cl w Hc Hw. apply in_flat_map in Hc as ([u v] & He & Hc). apply in_map_iff in Hc as (k & <- & Hk). apply K. right.
    apply (sg_ends g G) in He as [Hu Hv]. destruct Hw as [<-|[<-|[]]]; cbn [fst snd]; eauto.
  - exists c'. split; auto. split; auto. rewrite L', L. reflexivity.
Qed.
Lemma col_repeated g colors f : ~ NoDup colors -> g_nodes g <> [] -> GraphColoringFormula g colors f = Err ValueError.
Proof.
  intros N H. unfold GraphColoringFormula, enumerate_vertices. destruct (g_nodes g) as [|v t]; [congruence|]. cbn [coloring_vertices].
  assert (E : cnf_add_clause (map (fun k => (true, col_name v k)) colors) empty_cnf = Err ValueError).
  { unfold cnf_add_clause. apply add_with_err. left. split; auto. intros K. apply N. eapply NoDup_map_inv; eauto. }
  rewrite E. reflexivity.
Qed.
Lemma col_models g colors f a : simple_graph g -> NoDup colors ->
  (all_hold a (col_clauses g colors f) <->
   (forall v, In v (g_nodes g) -> exists k, In k colors /\ a (col_name v k) = true) /\
   (f = true -> forall v k k', In v (g_nodes g) -> In k colors -> In k' colors -> a (col_name v k) = true -> a (col_name v k') = true -> k = k') /\
   (forall u v k, adjacent g u v -> In k colors -> a (col_name u k) = true -> a (col_name v k) = true -> False)).
Proof.
  intros G N. unfold col_clauses. rewrite all_hold_app, !all_hold_flat_map.
  assert (C1 : forall v, all_hold a (col_vertex colors f v) <-> (exists k, In k colors /\ a (col_name v k) = true) /\
     (f = true -> forall k k', In k colors -> In k' colors -> a (col_name v k) = true -> a (col_name v k') = true -> k = k')).
  { intros v. unfold col_vertex. change (?x :: ?l) with ([x] ++ l). rewrite all_hold_app, all_one, holds_map, all_hold_if, all_hold_map.
    assert (X : (forall x : Z * Z, In x (pairs colors) -> clause_holds a [(false, col_name v (fst x)); (false, col_name v (snd x))]) <->
      (forall k k', In k colors -> In k' colors -> a (col_name v k) = true -> a (col_name v k') = true -> k = k')).
    { split.
      - intros H k k' Hk Hk' T T'. destruct (Z.eq_dec k k'); auto. exfalso. destruct (pairs_total colors k k' Hk Hk' n) as [P|P]; apply H, two_hold in P; cbn [fst snd] in P; intuition congruence.
      - intros H [k k'] P. pose proof (pairs_neq _ _ _ N P). apply pairs_In in P as [Hk Hk']. cbn [fst snd]. apply two_hold.
        destruct (a (col_name v k)) eqn:E1; auto. destruct (a (col_name v k')) eqn:E2; auto. exfalso. auto. }
    rewrite X. tauto. }
  assert (C2 : (forall e : Z * Z, In e (g_edges g) -> all_hold a (map (fun k => [(false, col_name (fst e) k); (false, col_name (snd e) k)]) colors)) <->
    (forall u v k, adjacent g u v -> In k colors -> a (col_name u k) = true -> a (col_name v k) = true -> False)).
  { split.
    - intros H u v k [A|A] Hk T T'; specialize (H _ A); rewrite all_hold_map in H; specialize (H k Hk); apply two_hold in H; cbn [fst snd] in H; intuition congruence.
    - intros H [u v] He. rewrite all_hold_map. intros k Hk. cbn [fst snd]. apply two_hold.
      destruct (a (col_name u k)) eqn:E1; auto. destruct (a (col_name v k)) eqn:E2; auto. exfalso. apply (H u v k); auto. left; auto. }
  rewrite C2. split.
  - intros [A B]. split; [intros v Hv; apply C1, A; auto|]. split; auto. intros F v k k' Hv. apply (proj1 (C1 v) (A v Hv)); auto.
  - intros (A & B & C). split; [|exact C]. intros v Hv. apply C1. split; [auto|]. intros F k k' Hk Hk'. apply (B F v); auto.
Qed.
Lemma col_satisfiable g colors f : simple_graph g -> NoDup colors ->
  (has_model (col_clauses g colors f) <->
   exists colour : Z -> Z, (forall v, In v (g_nodes g) -> In (colour v) colors) /\ forall u v, adjacent g u v -> colour u <> colour v).
Proof.
  intros G N. split.
  - intros (a & H). apply col_models in H as (A & _ & B); auto.
    destruct (choose_function (g_nodes g) (fun v k => In k colors /\ a (col_name v k) = true) (sg_nodes g G) A) as (h & Hh).
    exists h. split; [intros v Hv; apply Hh; auto|]. intros u v Ad E. destruct (adjacent_nodes g u v G Ad) as [Hu Hv].
    destruct (Hh u Hu) as [H1 H2], (Hh v Hv) as [H3 H4]. apply (B u v (h u) Ad H1 H2). rewrite E. auto.
  - intros (h & A & B). set (f0 := fun p : Z * Z => h (fst p) =? snd p).
    exists (values (fun p => col_name (fst p) (snd p)) (list_prod (g_nodes g) colors) f0).
    assert (V : forall v k, In v (g_nodes g) -> In k colors -> values (fun p => col_name (fst p) (snd p)) (list_prod (g_nodes g) colors) f0 (col_name v k) = (h v =? k)).
    { intros v k Hv Hk. rewrite values2_at; [reflexivity| |apply in_prod; auto]. intros [v' k'] _ E. apply col_inj in E as [E1 E2]. cbn [fst snd] in *. subst. auto. }
    apply col_models; auto. split; [|split].
    + intros v Hv. exists (h v). split; auto. rewrite V by auto. apply Z.eqb_refl.
    + intros _ v k k' Hv Hk Hk'. rewrite !V by auto. rewrite !Z.eqb_eq. congruence.
    + intros u v k Ad Hk. destruct (adjacent_nodes g u v G Ad) as [Hu Hv]. rewrite !V by auto. rewrite !Z.eqb_eq. intros E1 E2. apply (B u v Ad). congruence.
Qed.

(* ---- counting along edges ---- *)
Lemma total_perm {A} (f : A -> Z) l l' : Permutation l l' -> total f l = total f l'.
Proof. induction 1; rewrite ?total_cons; try lia. Qed.
Lemma total_app {A} (f : A -> Z) l l' : total f (l ++ l') = total f l + total f l'.
Proof. induction l as [|x l IH]; cbn [app]; rewrite ?total_cons; [cbn; lia|lia]. Qed.
Lemma total_flat_map {A B} (f : B -> Z) (h : A -> list B) l : total f (flat_map h l) = total (fun x => total f (h x)) l.
Proof. induction l as [|x l IH]; cbn [flat_map]; rewrite ?total_app, ?total_cons; [auto|lia]. Qed.
Lemma total_at l x c : NoDup l -> total (fun v => if x =? v then c else 0) l = if zmem x l then c else 0.
Proof.
  induction 1 as [|y l Ny N IH]; [auto|]. rewrite total_cons, IH. cbn [zmem]. destruct (Z.eqb_spec x y) as [->|].
  - destruct (zmem y l) eqn:E; [apply zmem_In in E; contradiction|]. cbn. lia.
  - cbn. lia.
Qed.
Lemma handshake g (f : Z -> Z -> Z) l : simple_graph g -> NoDup l ->
  total (fun v => total (f v) (neighbors g v)) l =
  total (fun e => (if zmem (fst e) l then f (fst e) (snd e) else 0) + (if zmem (snd e) l then f (snd e) (fst e) else 0)) (g_edges g).
Proof.
  intros G N.
  transitivity (total (fun v => total (fun e => (if fst e =? v then f (fst e) (snd e) else 0) + (if snd e =? v then f (snd e) (fst e) else 0)) (g_edges g)) l).
  - apply total_ext. intros v _. unfold neighbors. rewrite (total_perm _ _ _ (sort_by_Perm Z.ltb _)), total_flat_map.
    apply total_ext. intros [x y] He. cbn [fst snd]. destruct (Z.eqb_spec x v) as [->|]; [destruct (Z.eqb_spec y v) as [->|]|destruct (Z.eqb_spec y v) as [->|]];
      cbn [total fold_right]; try lia. exfalso. apply (no_loop g v G He).
  - rewrite total_swap. apply total_ext. intros [x y] _. cbn [fst snd]. rewrite total_add, !total_at by auto. auto.
Qed.

(* ---- even colouring ---- *)
Definition even_vertex (g : graph) (v : Z) : list (list (bool * text)) :=
  let es := map (fun u => edge_name u v) (neighbors g v) in equal_to_constraint es (Z.of_nat (List.length es) / 2).
Lemma edge_known g u v : simple_graph g -> adjacent g u v -> In (edge_name u v) (map (fun e => edge_name (fst e) (snd e)) (g_edges g)).
Proof.
  intros G [H|H]; apply in_map_iff; [exists (u, v)|exists (v, u)]; split; auto. cbn [fst snd]. apply edge_name_sym.
Qed.
Lemma even_vertices_built g : simple_graph g -> forall vs c, made c -> (forall u v, adjacent g u v -> In (edge_name u v) (cn_names c)) ->
  (forall v, In v vs -> degree g v mod 2 = 0) ->
  exists c', even_vertices g vs c = Ok c' /\ made c' /\ cnf_clauses c' = cnf_clauses c ++ flat_map (even_vertex g) vs.
Proof.
  intros G. induction vs as [|v t IH]; intros c M K D; cbn [even_vertices flat_map].
  - exists c. rewrite app_nil_r. auto.
  - rewrite (D v (or_introl eq_refl)). change (0 =? 1) with false. cbv iota.
    destruct (made_strict c (even_vertex g v) M) as (c1 & E1 & M1 & N1 & L1).
    + intros cl Hc. eapply equal_clean; eauto. apply incident_names; auto.
    + intros cl w Hc Hw. apply (equal_vars _ _ _ _ Hc) in Hw. apply in_map_iff in Hw as (u & <- & Hu). apply neighbors_In in Hu; auto. apply K. apply adjacent_sym; auto.
    + unfold even_vertex in E1. cbv zeta in E1. rewrite E1. cbn [bind]. destruct (IH c1 M1) as (c2 & E2 & M2 & L2).
      * intros u w A. rewrite N1. auto.
      * intros w Hw. apply D. right; auto.
      * exists c2. split; auto. split; auto. rewrite L2, L1, <- app_assoc. auto.
Qed.
Lemma even_vertices_odd g : simple_graph g -> forall vs c, made c -> (forall u v, adjacent g u v -> In (edge_name u v) (cn_names c)) ->
  (exists v, In v vs /\ degree g v mod 2 = 1) -> even_vertices g vs c = Err ValueError.
Proof.
  intros G. induction vs as [|v t IH]; intros c M K (w & Hw & O); [destruct Hw|]. cbn [even_vertices].
  destruct (Z.eqb_spec (degree g v mod 2) 1) as [|NE]; auto.
  destruct (made_strict c (even_vertex g v) M) as (c1 & E1 & M1 & N1 & L1).
  - intros cl Hc. eapply equal_clean; eauto. apply incident_names; auto.
  - intros cl z Hc Hz. apply (equal_vars _ _ _ _ Hc) in Hz. apply in_map_iff in Hz as (u & <- & Hu). apply neighbors_In in Hu; auto. apply K. apply adjacent_sym; auto.
  - unfold even_vertex in E1. cbv zeta in E1. rewrite E1. cbn [bind]. apply IH; auto; [intros; rewrite N1; auto|]. destruct Hw as [->|Hw]; [contradiction|eauto].
Qed.
Lemma even_built g : simple_graph g -> (forall v, In v (g_nodes g) -> degree g v mod 2 = 0) ->
  exists c, EvenColoringFormula g = Ok c /\ made c /\ cnf_clauses c = flat_map (even_vertex g) (g_nodes g).
Proof.
  intros G D. unfold EvenColoringFormula.
  destruct (even_vertices_built g G (enumerate_vertices g) (add_variables (map (fun e => edge_name (fst e) (snd e)) (enumerate_edges g)) empty_cnf)) as (c & E & M & L); auto.
  - apply variables_made, made_empty.
  - intros u v A. apply vars_names. apply edge_known; auto.
  - exists c. split; auto. split; auto. rewrite L, vars_clauses. auto.
Qed.
Lemma even_odd g : simple_graph g -> (exists v, In v (g_nodes g) /\ degree g v mod 2 = 1) -> EvenColoringFormula g = Err ValueError.
Proof.
  intros G H. apply even_vertices_odd; auto; [apply variables_made, made_empty|]. intros u v A. apply vars_names. apply edge_known; auto.
Qed.
Lemma even_models g a : simple_graph g -> (forall v, In v (g_nodes g) -> degree g v mod 2 = 0) ->
  (all_hold a (flat_map (even_vertex g) (g_nodes g)) <->
   forall v, In v (g_nodes g) -> 2 * how_many (fun u => a (edge_name u v)) (neighbors g v) = degree g v).
Proof.
  intros G D. rewrite all_hold_flat_map. unfold even_vertex. cbv zeta.
  assert (E : forall v, In v (g_nodes g) -> (all_hold a (equal_to_constraint (map (fun u => edge_name u v) (neighbors g v)) (Z.of_nat (List.length (map (fun u => edge_name u v) (neighbors g v))) / 2)) <->
     2 * how_many (fun u => a (edge_name u v)) (neighbors g v) = degree g v)).
  { intros v Hv. rewrite equal_to_ok, how_many_map, map_length. fold (degree g v). specialize (D v Hv). pose proof (Z.div_mod (degree g v) 2). lia. }
  split; intros H v Hv; apply E; auto.
Qed.
Lemma length_total {A} (l : list A) : Z.of_nat (List.length l) = total (fun _ => 1) l.
Proof. rewrite total_const. lia. Qed.
Lemma total_scale {A} (f : A -> Z) c l : total (fun x => c * f x) l = c * total f l.
Proof. induction l as [|x l IH]; [cbn; lia|]. rewrite !total_cons, IH. lia. Qed.
Lemma even_components g a l : simple_graph g -> (forall v, In v (g_nodes g) -> 2 * how_many (fun u => a (edge_name u v)) (neighbors g v) = degree g v) ->
  NoDup l -> incl l (g_nodes g) -> (forall u w, In u l -> adjacent g u w -> In w l) ->
  Z.of_nat (List.length (filter (fun e => zmem (fst e) l) (g_edges g))) mod 2 = 0.
Proof.
  intros G H N I C.
  set (w := fun u v => if a (edge_name v u) then 1 else 0).
  assert (E1 : total (fun v => 2 * total (w v) (neighbors g v)) l = total (fun v => total (fun _ => 1) (neighbors g v)) l).
  { apply total_ext. intros v Hv. specialize (H v (I v Hv)). rewrite how_many_total in H. unfold degree in H. rewrite length_total in H. exact H. }
  rewrite total_scale, !handshake in E1 by auto.
  assert (E2 : forall f : Z -> Z -> Z, (forall u v, f u v = f v u) ->
    total (fun e => (if zmem (fst e) l then f (fst e) (snd e) else 0) + (if zmem (snd e) l then f (snd e) (fst e) else 0)) (g_edges g) =
    2 * total (fun e => f (fst e) (snd e)) (filter (fun e => zmem (fst e) l) (g_edges g))).
  { intros f S. rewrite total_filter, <- total_scale. apply total_ext. intros [x y] He. cbn [fst snd].
    assert (zmem y l = zmem x l).
    { destruct (zmem x l) eqn:Z1.
      - apply zmem_In in Z1. apply zmem_In. apply (C x); auto. left; auto.
      - apply zmem_false in Z1. apply zmem_false. intros K. apply Z1. apply (C y); auto. right; auto. }
    rewrite H0, (S y x). destruct (zmem x l); lia. }
  rewrite (E2 w) in E1 by (intros; unfold w; rewrite edge_name_sym; auto). rewrite (E2 (fun _ _ => 1)) in E1 by auto.
  rewrite length_total. set (T := total (fun e => w (fst e) (snd e)) _) in E1. replace (total _ _) with (T * 2) by lia. apply Z.mod_mul. lia.
Qed.

(* ---- subset cardinality ---- *)
Definition sc_vars (b : bipartite) : list text := flat_map (fun u => map (fun v => edge_name u v) (left_neighbors b u)) (b_left b).
Definition sc_clauses (b : bipartite) (equalities : bool) : list (list (bool * text)) :=
  flat_map (fun u => let es := map (fun v => edge_name u v) (left_neighbors b u) in
                        if equalities then exactly_half_ceil es else loose_majority_constraint es) (b_left b) ++
  flat_map (fun v => let es := map (fun u => edge_name u v) (right_neighbors b v) in
                        if equalities then exactly_half_floor es else loose_minority_constraint es) (b_right b).
Lemma left_names b u : bipartite_graph b -> NoDup (map (fun v => edge_name u v) (left_neighbors b u)).
Proof. intros G. apply NoDup_map_in; [apply left_NoDup; auto|]. intros x y Hx Hy E. apply edge_name_inj in E. lia. Qed.
Lemma right_names b v : bipartite_graph b -> NoDup (map (fun u => edge_name u v) (right_neighbors b v)).
Proof. intros G. apply NoDup_map_in; [apply right_NoDup; auto|]. intros x y Hx Hy E. apply edge_name_inj in E. lia. Qed.
Lemma sc_built b e : bipartite_graph b -> exists c, SubsetCardinalityFormula b e = Ok c /\ made c /\ cnf_clauses c = sc_clauses b e.
Proof.
  intros G. destruct (build_strict (sc_vars b) (sc_clauses b e)) as (c & A & B & C & _); [| |eauto].
  - intros cl Hc. apply in_app_iff in Hc as [Hc|Hc]; apply in_flat_map in Hc as (x & Hx & Hc); cbv zeta in Hc; destruct e.
    + eapply equal_clean in Hc; [exact Hc|apply left_names; auto].
    + eapply inequality_clean in Hc; [exact Hc|apply left_names; auto].
    + eapply equal_clean in Hc; [exact Hc|apply right_names; auto].
    + eapply inequality_clean in Hc; [exact Hc|apply right_names; auto].
  - intros cl w Hc Hw.
    assert (X : exists u v, In (u, v) (b_edges b) /\ w = edge_name u v).
    { apply in_app_iff in Hc as [Hc|Hc]; apply in_flat_map in Hc as (x & Hx & Hc); cbv zeta in Hc.
      - assert (K : In w (map (fun v => edge_name x v) (left_neighbors b x))) by (destruct e; [eapply equal_vars; eauto|eapply inequality_vars; eauto]).
        apply in_map_iff in K as (v & <- & K). apply left_In in K. eauto.
      - assert (K : In w (map (fun u => edge_name u x) (right_neighbors b x))) by (destruct e; [eapply equal_vars; eauto|eapply inequality_vars; eauto]).
        apply in_map_iff in K as (u & <- & K). apply right_In in K. eauto. }
    destruct X as (u & v & H & ->). apply in_flat_map. exists u. split; [apply (bg_ends b G u v H)|]. apply in_map_iff. exists v. split; auto. apply left_In. auto.
Qed.
Definition at_least_half (equalities : bool) (k n : Z) : Prop := 2 * k >= n /\ (equalities = true -> 2 * k <= n + 1).
Definition at_most_half (equalities : bool) (k n : Z) : Prop := 2 * k <= n /\ (equalities = true -> 2 * k >= n - 1).
Lemma sc_models b e a : bipartite_graph b ->
  (all_hold a (sc_clauses b e) <->
   (forall u, In u (b_left b) -> at_least_half e (how_many (fun v => a (edge_name u v)) (left_neighbors b u)) (Z.of_nat (List.length (left_neighbors b u)))) /\
   (forall v, In v (b_right b) -> at_most_half e (how_many (fun u => a (edge_name u v)) (right_neighbors b v)) (Z.of_nat (List.length (right_neighbors b v))))).
Proof.
  intros G. unfold sc_clauses. rewrite all_hold_app, !all_hold_flat_map. cbv zeta.
  assert (L : forall u, all_hold a (if e then exactly_half_ceil (map (fun v => edge_name u v) (left_neighbors b u)) else loose_majority_constraint (map (fun v => edge_name u v) (left_neighbors b u))) <->
    at_least_half e (how_many (fun v => a (edge_name u v)) (left_neighbors b u)) (Z.of_nat (List.length (left_neighbors b u)))).
  { intros u. unfold at_least_half. destruct e; [rewrite half_ceil_ok|rewrite majority_ok]; rewrite how_many_map, map_length; [lia|]. split; [intros; split; [auto|discriminate]|tauto]. }
  assert (R : forall v, all_hold a (if e then exactly_half_floor (map (fun u => edge_name u v) (right_neighbors b v)) else loose_minority_constraint (map (fun u => edge_name u v) (right_neighbors b v))) <->
    at_most_half e (how_many (fun u => a (edge_name u v)) (right_neighbors b v)) (Z.of_nat (List.length (right_neighbors b v)))).
  { intros u. unfold at_most_half. destruct e; [rewrite half_floor_ok|rewrite minority_ok]; rewrite how_many_map, map_length; [lia|]. split; [intros; split; [auto|discriminate]|tauto]. }
  split; intros [A B]; split; intros x Hx; (apply L, A || apply R, B); auto.
Qed.
Lemma left_count b (f : Z -> Z -> Z) : bipartite_graph b -> total (fun u => total (f u) (left_neighbors b u)) (b_left b) = total (fun e => f (fst e) (snd e)) (b_edges b).
Proof.
  intros G. transitivity (total (fun u => total (fun e => if fst e =? u then f (fst e) (snd e) else 0) (b_edges b)) (b_left b)).
  - apply total_ext. intros u _. unfold left_neighbors. rewrite (total_perm _ _ _ (sort_by_Perm Z.ltb _)).
    transitivity (total (fun e => f u (snd e)) (filter (fun e => fst e =? u) (b_edges b))).
    + generalize (filter (fun e => fst e =? u) (b_edges b)) as l. induction l as [|x l IH]; auto. cbn [map]. rewrite !total_cons, IH. auto.
    + rewrite total_filter. apply total_ext. intros [x y] _. cbn [fst snd]. destruct (Z.eqb_spec x u) as [->|]; auto.
  - rewrite total_swap. apply total_ext. intros [x y] He. cbn [fst snd]. rewrite total_at by apply G. apply (bg_ends b G) in He as [Hx _].
    apply zmem_In in Hx. rewrite Hx. auto.
Qed.
Lemma right_count b (f : Z -> Z -> Z) : bipartite_graph b -> total (fun v => total (fun u => f u v) (right_neighbors b v)) (b_right b) = total (fun e => f (fst e) (snd e)) (b_edges b).
Proof.
  intros G. transitivity (total (fun v => total (fun e => if snd e =? v then f (fst e) (snd e) else 0) (b_edges b)) (b_right b)).
  - apply total_ext. intros v _. unfold right_neighbors. rewrite (total_perm _ _ _ (sort_by_Perm Z.ltb _)).
    transitivity (total (fun e => f (fst e) v) (filter (fun e => snd e =? v) (b_edges b))).
    + generalize (filter (fun e => snd e =? v) (b_edges b)) as l. induction l as [|x l IH]; auto. cbn [map]. rewrite !total_cons, IH. auto.
    + rewrite total_filter. apply total_ext. intros [x y] _. cbn [fst snd]. destruct (Z.eqb_spec y v) as [->|]; auto.
  - rewrite total_swap. apply total_ext. intros [x y] He. cbn [fst snd]. rewrite total_at by apply G. apply (bg_ends b G) in He as [_ Hy].
    apply zmem_In in Hy. rewrite Hy. auto.
Qed.
Lemma total_le {A} (f g : A -> Z) l : (forall x, In x l -> f x <= g x) -> total f l <= total g l.
Proof. induction l as [|x l IH]; intros H; [cbn; lia|]. rewrite !total_cons. specialize (H x (or_introl eq_refl)) as K. assert (total f l <= total g l) by (apply IH; intros; apply H; right; auto). lia. Qed.
Lemma total_squeeze {A} (f g : A -> Z) l : (forall x, In x l -> f x <= g x) -> total g l <= total f l -> forall x, In x l -> f x = g x.
Proof.
  induction l as [|y l IH]; intros H E x Hx; [destruct Hx|]. rewrite !total_cons in E.
  assert (L : total f l <= total g l) by (apply total_le; intros; apply H; right; auto). pose proof (H y (or_introl eq_refl)).
  destruct Hx as [->|Hx]; [lia|]. apply IH; auto; [intros; apply H; right; auto|lia].
Qed.
Lemma sc_even b e : bipartite_graph b -> has_model (sc_clauses b e) ->
  (forall u, In u (b_left b) -> Z.of_nat (List.length (left_neighbors b u)) mod 2 = 0) /\
  (forall v, In v (b_right b) -> Z.of_nat (List.length (right_neighbors b v)) mod 2 = 0).
Proof.
  intros G (a & H). apply sc_models in H as [A B]; auto. set (w := fun u v => if a (edge_name u v) then 1 else 0).
  assert (L : total (fun u => total (fun v => 2 * w u v) (left_neighbors b u)) (b_left b) = total (fun e => 2 * w (fst e) (snd e)) (b_edges b)) by (apply (left_count b (fun u v => 2 * w u v) G)).
  assert (R : total (fun v => total (fun u => 2 * w u v) (right_neighbors b v)) (b_right b) = total (fun e => 2 * w (fst e) (snd e)) (b_edges b)) by (apply (right_count b (fun u v => 2 * w u v) G)).
  assert (L1 : total (fun u => total (fun v => 1) (left_neighbors b u)) (b_left b) = total (fun e => 1) (b_edges b)) by (apply (left_count b (fun u v => 1) G)).
  assert (R1 : total (fun v => total (fun u => 1) (right_neighbors b v)) (b_right b) = total (fun e => 1) (b_edges b)) by (apply (right_count b (fun u v => 1) G)).
  assert (A' : forall u, In u (b_left b) -> total (fun v => 1) (left_neighbors b u) <= total (fun v => 2 * w u v) (left_neighbors b u)).
  { intros u Hu. destruct (A u Hu) as [K _]. rewrite how_many_total, length_total in K. rewrite total_scale. unfold w. lia. }
  assert (B' : forall v, In v (b_right b) -> total (fun u => 2 * w u v) (right_neighbors b v) <= total (fun v => 1) (right_neighbors b v)).
  { intros u Hu. destruct (B u Hu) as [K _]. rewrite how_many_total, length_total in K. rewrite total_scale. unfold w. lia. }
  pose proof (total_le _ _ _ A') as TA. pose proof (total_le _ _ _ B') as TB.
  split.
  - intros u Hu. rewrite length_total. rewrite (total_squeeze _ _ _ A' ltac:(lia) u Hu). rewrite total_scale, Z.mul_comm. apply Z.mod_mul. lia.
  - intros v Hv. rewrite length_total. rewrite <- (total_squeeze _ _ _ B' ltac:(lia) v Hv). rewrite total_scale, Z.mul_comm. apply Z.mod_mul. lia.
Qed.
