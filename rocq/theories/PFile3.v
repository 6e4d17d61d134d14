(* PFile3.v -- reading graphs in the kthlist format *)
From Coq Require Import String Ascii ZArith NArith List Bool Lia Arith Sorted Permutation.
From Verif Require Import Spec SpecInput SpecFile PyBase MSet MText MCnf MFam MFam2 MTrans MFile SpecCnf SpecFam SpecFam2 PText PReader PLib PCnf1 PCnf2 PCnf3 PFam1 PGen6 PFile1.
Import ListNotations.
Open Scope Z_scope.

(* ---- words ---- *)
Lemma strip_word (sp : ascii -> bool) pre w post : w <> [] -> Forall (fun c => sp c = true) pre -> Forall (fun c => sp c = false) w ->
  Forall (fun c => sp c = true) post -> strip sp (pre ++ w ++ post) = w.
Proof.
  intros N H1 H2 H3. unfold strip. rewrite lstrip_app by auto.
  assert (E : lstrip sp (w ++ post) = w ++ post) by (apply lstrip_id; destruct w; [congruence|]; inversion H2; auto).
  rewrite E, rev_app_distr, lstrip_app by (apply Forall_rev; auto).
  rewrite lstrip_id, rev_involutive; auto. apply Forall_rev in H2. destruct (rev w) eqn:K; auto. inversion H2; auto.
Qed.
Lemma numbers_blank t : numbers [] t -> blanks t.
Proof. intros H. inversion H; auto. Qed.
Lemma one_number z a : numbers [z] a -> exists pre n post, a = pre ++ n ++ post /\ blanks pre /\ numeral z n /\ blanks post.
Proof.
  intros H. inversion H; subst.
  - exists pre, n, []. rewrite app_nil_r. repeat split; auto. constructor.
  - exists pre, n, (b :: u). repeat split; auto. constructor; auto. apply numbers_blank; auto.
Qed.
Lemma one_number_int z a tail : numbers [z] a -> spaces tail -> py_int (strip is_uspace (a ++ tail)) = Some z.
Proof.
  intros H T. apply one_number in H as (pre & n & post & -> & A & B & C). rewrite <- !app_assoc. rewrite strip_word.
  - apply numeral_int; auto.
  - apply numeral_word in B. apply B.
  - apply blank_uspace; auto.
  - apply word_nouspace. eapply numeral_word; eauto.
  - apply Forall_app. split; auto. apply blank_uspace; auto.
Qed.
Lemma one_number_first z a tail : numbers [z] a -> exists x u, a ++ tail = x :: u /\ Ascii.eqb x "c" = false.
Proof.
  intros H. pose proof (numbers_chars _ _ H) as C. apply one_number in H as (pre & n & post & -> & A & B & D).
  assert (N : pre ++ n ++ post <> []).
  { intros E. apply app_eq_nil in E as [_ E]. apply app_eq_nil in E as [E _]. apply numeral_word in B. destruct B. contradiction. }
  destruct (pre ++ n ++ post) as [|x u]; [congruence|]. exists x, (u ++ tail). split; auto.
  destruct (C x) as [[-> | ->]|K]; [left; auto|auto|auto|]. destruct (Ascii.eqb_spec x "c") as [->|]; [discriminate K|reflexivity].
Qed.
Lemma strip_nil l : strip is_uspace l = [] -> spaces l.
Proof. intros H. destruct (strip_cut is_uspace l) as (p & q & E & A & B). rewrite H in E. subst l. apply Forall_app. split; auto. Qed.
Lemma strip_spaces l : spaces l -> strip is_uspace l = [].
Proof.
  intros H. unfold strip. assert (E : lstrip is_uspace l = []); [|rewrite E; reflexivity].
  induction H as [|c l H _ IH]; auto. cbn [lstrip]. rewrite H. auto.
Qed.
Lemma numbers_no_colon ts l : numbers ts l -> lacks ":" l.
Proof. intros H K. destruct (numbers_chars _ _ H _ K) as [[E|E]|E]; discriminate. Qed.
Lemma numbers_one_line ts l : numbers ts l -> one_line l.
Proof. intros H K. destruct (numbers_chars _ _ H _ K) as [[E|E]|E]; discriminate. Qed.

(* ---- the lists as the reader processes them ---- *)
Definition add_list (directed : bool) (es : list (Z * Z)) (vs : Z * list Z) : list (Z * Z) :=
  fold_left (fun es x => add_edge directed es (x, fst vs)) (snd vs) es.
Fixpoint color_lists (adj : list (Z * list Z)) (colors : list (Z * Z)) : result (list (Z * Z)) :=
  match adj with [] => Ok colors | (v, us) :: t => c <- bicolor v us colors ;; color_lists t c end.
Definition downward (adj : list (Z * list Z)) : bool := forallb (fun vs => forallb (fun x => fst vs <? x) (snd vs)) adj.
Lemma adjacency_line d b s n v us a c : numbers [v] a -> numbers (us ++ [0]) c -> k_n s = n -> 1 <= v <= n -> (forall u, In u us -> 1 <= u <= n) ->
  kth_line d b s ((a ++ ":"%char :: c) ++ [nl]) =
  (colors <- (if b then bicolor v us (k_colors s) else Ok (k_colors s)) ;;
   Ok (mkKth (k_n s) (add_list d (k_edges s) (v, us)) colors (k_topo s && forallb (fun x => v <? x) us) (k_name s))).
Proof.
  intros Ha Hc En Hv Hu. rewrite <- app_assoc. cbn [app].
  destruct (one_number_first v a (":"%char :: c ++ [nl]) Ha) as (x & t & E & Ex). 
  assert (S : split_on ":" (x :: t) = [a; c ++ [nl]]).
  { rewrite <- E, split_on_app by (eapply numbers_no_colon; eauto). rewrite split_on_lacks; auto.
    apply lacks_app; [eapply numbers_no_colon; eauto|intros [K|[]]; discriminate]. }
  assert (T : strip is_uspace (x :: t) <> []).
  { intros K. apply strip_nil in K. rewrite <- E in K. apply Forall_app in K as [_ K]. inversion K; discriminate. }
  rewrite E. unfold kth_line. rewrite Ex. destruct (strip is_uspace (x :: t)); [congruence|]. rewrite S.
  assert (I : py_int (strip is_uspace a) = Some v) by (rewrite <- (app_nil_r a); apply one_number_int; auto; constructor). rewrite I.
  cbn [of_option bind]. rewrite (numbers_words _ _ [nl] Hc) by (constructor; [reflexivity|constructor]). cbn [bind].
  rewrite app_length, Nat.add_comm. cbn [List.length Nat.add Nat.eqb orb]. rewrite last_last, removelast_last. cbn [Z.eqb negb].
  assert (V : forall z, 1 <= z <= n -> in_vertices (k_n s) z = true) by (intros z Hz; unfold in_vertices; rewrite En; apply andb_true_iff; split; apply Z.leb_le; lia).
  rewrite V by auto. cbn [negb]. assert (Vs : forallb (in_vertices (k_n s)) us = true) by (apply forallb_forall; auto). rewrite Vs. cbn [negb].
  reflexivity.
Qed.
Lemma kth_lines_app d b ls ls' : forall s, kth_lines d b (ls ++ ls') s = (s' <- kth_lines d b ls s ;; kth_lines d b ls' s').
Proof. induction ls as [|l ls IH]; intros s; cbn [app kth_lines]; [reflexivity|]. destruct (kth_line d b s l); cbn [bind]; auto. Qed.
Lemma adjacency_read d b n ls name adj : adjacency_lines n ls name adj -> forall s, (adj = [] \/ k_n s = n) ->
  kth_lines d b (map (fun l => l ++ [nl]) ls) s =
  (colors <- (if b then color_lists adj (k_colors s) else Ok (k_colors s)) ;;
   Ok (mkKth (k_n s) (fold_left (add_list d) adj (k_edges s)) colors (k_topo s && downward adj) (k_name s ++ name))).
Proof.
  induction 1 as [|x t ls name adj H IH|ls name adj H IH|l ls name adj Hl H IH|v us a c ls name adj Ha Hc Hv Hu H IH]; intros s Hs.
  - cbn [map kth_lines]. rewrite app_nil_r, andb_true_r. cbn [fold_left color_lists]. destruct b, s; reflexivity.
  - cbn [map kth_lines]. assert (E : kth_line d b s (("c"%char :: x :: t) ++ [nl]) = Ok (mkKth (k_n s) (k_edges s) (k_colors s) (k_topo s) (k_name s ++ t ++ [nl]))) by reflexivity.
    rewrite E. cbn [bind]. rewrite IH by exact Hs. cbn [k_n k_edges k_colors k_topo k_name]. rewrite <- !app_assoc. reflexivity.
  - cbn [map kth_lines]. assert (E : kth_line d b s (["c"%char] ++ [nl]) = Ok s) by (unfold kth_line; cbn [app tl]; change (Ascii.eqb "c" "c") with true; cbv iota; rewrite app_nil_r; destruct s; reflexivity).
    rewrite E. cbn [bind]. apply IH. exact Hs.
  - cbn [map kth_lines]. assert (E : kth_line d b s (l ++ [nl]) = Ok s).
    { assert (Sp : spaces (l ++ [nl])) by (apply Forall_app; split; [apply blank_uspace; auto|auto]). unfold kth_line.
      rewrite (strip_spaces (l ++ [nl]) Sp). destruct l as [|y l]; [reflexivity|]. inversion Hl as [|? ? Hb _]; subst. destruct Hb as [-> | ->]; reflexivity. }
    rewrite E. cbn [bind]. apply IH. exact Hs.
  - destruct Hs as [Hs|Hs]; [discriminate|]. cbn [map kth_lines]. rewrite (adjacency_line d b s n v us a c) by auto. cbn [color_lists fold_left downward forallb fst snd].
    fold (downward adj). destruct b.
    + destruct (bicolor v us (k_colors s)) as [cs| |]; cbn [bind]; auto. rewrite IH by (right; exact Hs). cbn [k_n k_edges k_colors k_topo k_name]. rewrite andb_assoc. reflexivity.
    + cbn [bind]. rewrite IH by (right; exact Hs). cbn [k_n k_edges k_colors k_topo k_name]. rewrite andb_assoc. reflexivity.
Qed.
Lemma size_line d b s n l : numbers [n] l -> 0 <= n -> kth_line d b s (l ++ [nl]) =
  if 0 <=? k_n s then Err ValueError else Ok (mkKth n (k_edges s) (k_colors s) (k_topo s) (k_name s)).
Proof.
  intros H N. destruct (one_number_first n l [nl] H) as (x & t & E & Ex).
  assert (L : lacks ":" (l ++ [nl])) by (apply lacks_app; [eapply numbers_no_colon; eauto|intros [K|[]]; discriminate]).
  pose proof (one_number_int n l [nl] H ltac:(constructor; [reflexivity|constructor])) as I.
  rewrite E in *. unfold kth_line. rewrite Ex. destruct (strip is_uspace (x :: t)) as [|y u] eqn:Es; [discriminate I|]. rewrite split_on_lacks by auto.
  destruct (0 <=? k_n s); [reflexivity|]. rewrite I. cbn [of_option bind]. destruct (Z.ltb_spec n 0); [lia|reflexivity].
Qed.
Definition residual (n : Z) (colors : list (Z * Z)) : list (Z * Z) :=
  fold_left (fun d v => match dget Z.eqb v d with Some _ => d | None => dset Z.eqb v 1 d end) (range 1 (n + 1)) colors.
Lemma kthlist_lines d b lines name n adj : kthlist_file lines name n adj ->
  kth_lines d b (map (fun l => l ++ [nl]) lines) (mkKth (-1) [] [] true []) =
  (colors <- (if b then color_lists adj [] else Ok []) ;;
   Ok (mkKth n (fold_left (add_list d) adj []) colors (downward adj) name)).
Proof.
  intros (pre & size & post & name1 & name2 & -> & -> & N & H1 & H2 & H3).
  rewrite map_app, kth_lines_app. rewrite (adjacency_read d b n _ _ _ H1) by auto. cbn [color_lists k_colors]. assert (E : (if b then Ok ([] : list (Z * Z)) else Ok []) = Ok []) by (destruct b; reflexivity).
  rewrite E. cbn [bind map kth_lines]. rewrite (size_line d b _ n size H2 N). cbn [k_n Z.leb Z.compare]. cbn [bind].
  rewrite (adjacency_read d b n _ _ _ H3) by auto. reflexivity.
Qed.
Lemma read_kthlist_ok d b lines name n adj : Forall one_line lines -> kthlist_file lines name n adj ->
  read_kthlist d b (ended lines) =
  (colors <- (if b then color_lists adj [] else Ok []) ;;
   Ok (mkFile (range 1 (n + 1)) (fold_left (add_list d) adj []) (if b then residual n colors else colors) (downward adj) name)).
Proof.
  intros O H. pose proof H as (pre & size & post & name1 & name2 & _ & _ & N & _). unfold read_kthlist.
  rewrite <- (app_nil_r (ended lines)), readlines_ended by auto. cbn [readlines]. rewrite app_nil_r, (kthlist_lines d b _ _ _ _ H).
  destruct (if b then color_lists adj [] else Ok []) as [cs| |]; cbn [bind]; auto. cbn [k_n]. destruct (Z.ltb_spec n 0); [lia|]. destruct b; reflexivity.
Qed.

(* ---- edges ---- *)
Lemma same_edge_spec d e e' : same_edge d e e' = true <-> e = e' \/ (d = false /\ e = (snd e', fst e')).
Proof.
  destruct e as [a b], e' as [a' b']. unfold same_edge. cbn [fst snd]. rewrite orb_true_iff, !andb_true_iff, !Z.eqb_eq, negb_true_iff.
  split; [intros [[-> ->]|[[-> ->] ->]]; auto|]. intros [E|[-> E]]; inversion E; auto.
Qed.
(* as arcs, or as edges in either direction *)
Definition joined (d : bool) (es : list (Z * Z)) (u v : Z) : Prop := In (u, v) es \/ (d = false /\ In (v, u) es).
Lemma add_edge_joined d es e u v : joined d (add_edge d es e) u v <-> joined d es u v \/ joined d [e] u v.
Proof.
  unfold add_edge. destruct (existsb (same_edge d e) es) eqn:E.
  - split; auto. intros [H|H]; auto. apply existsb_exists in E as (e' & Hi & E). apply same_edge_spec in E. destruct e as [a b], e' as [a' b'].
    unfold joined in *. cbn [In fst snd] in *. destruct E as [E|[-> E]]; inversion E; subst; destruct H as [[H|[]]|[D [H|[]]]]; inversion H; subst; auto; try discriminate.
  - unfold joined. rewrite !in_app_iff. cbn [In]. tauto.
Qed.
Definition listed_in (d : bool) (adj : list (Z * list Z)) (u v : Z) : Prop := listed adj u v \/ (d = false /\ listed adj v u).
Lemma add_list_joined d vs : forall es u v, joined d (add_list d es vs) u v <-> joined d es u v \/ listed_in d [vs] u v.
Proof.
  destruct vs as [w us]. unfold add_list. cbn [fst snd]. induction us as [|x us IH]; intros es u v; cbn [fold_left].
  - split; auto. intros [H|[(l & [E|[]] & H)|[_ (l & [E|[]] & H)]]]; auto; inversion E; subst; destruct H.
  - rewrite IH, add_edge_joined. unfold joined at 2, listed_in, listed. cbn [In]. split.
    + intros [[H|[[E|[]]|[D [E|[]]]]]|[(l & [E|[]] & H)|[D (l & [E|[]] & H)]]]; auto; inversion E; subst; right.
      * left. exists (u :: us). cbn. auto.
      * right. split; auto. exists (v :: us). cbn. auto.
      * left. exists (x :: l). cbn. auto.
      * right. split; auto. exists (x :: l). cbn. auto.
    + intros [H|[(l & [E|[]] & H)|[D (l & [E|[]] & H)]]]; [auto| |]; inversion E; subst; destruct H as [H|H].
      * subst. left. right. left. left. reflexivity.
      * right. left. exists us. auto.
      * subst. left. right. right. split; [reflexivity|left; reflexivity].
      * right. right. split; auto. exists us. auto.
Qed.
Lemma listed_cons vs adj u v : listed (vs :: adj) u v <-> listed [vs] u v \/ listed adj u v.
Proof. unfold listed. cbn [In]. split; [intros (l & [H|H] & K); [left|right]; exists l; auto|intros [(l & [H|[]] & K)|(l & H & K)]; exists l; auto]. Qed.
Lemma lists_joined d adj : forall es u v, joined d (fold_left (add_list d) adj es) u v <-> joined d es u v \/ listed_in d adj u v.
Proof.
  induction adj as [|vs adj IH]; intros es u v; cbn [fold_left].
  - split; auto. intros [H|[(l & [] & _)|[_ (l & [] & _)]]]; auto.
  - rewrite IH, add_list_joined. unfold listed_in. rewrite (listed_cons vs adj u v), (listed_cons vs adj v u). tauto.
Qed.
(* every edge once *)
Definition once (d : bool) (es : list (Z * Z)) : Prop := NoDup es /\ (d = false -> forall u v, u <> v -> In (u, v) es -> ~ In (v, u) es).
Lemma add_edge_once d es e : once d es -> once d (add_edge d es e).
Proof.
  intros [N A]. unfold add_edge. destruct (existsb (same_edge d e) es) eqn:E; [split; auto|].
  assert (F : forall e', In e' es -> same_edge d e e' = false).
  { intros e' H. destruct (same_edge d e e') eqn:K; auto. exfalso. assert (existsb (same_edge d e) es = true); [apply existsb_exists; eauto|congruence]. }
  split.
  - apply (Permutation_NoDup (Permutation_cons_append es e)). constructor; auto. intros K. apply F in K. assert (same_edge d e e = true) by (apply same_edge_spec; auto). congruence.
  - intros D u v Huv H K. rewrite in_app_iff in H, K. destruct H as [H|[H|[]]], K as [K|[K|[]]].
    + apply (A D u v); auto.
    + subst e. apply F in H. assert (same_edge d (v, u) (u, v) = true) by (apply same_edge_spec; auto). congruence.
    + subst e. apply F in K. assert (same_edge d (u, v) (v, u) = true) by (apply same_edge_spec; auto). congruence.
    + congruence.
Qed.
Lemma lists_once d adj : forall es, once d es -> once d (fold_left (add_list d) adj es).
Proof.
  induction adj as [|[w us] adj IH]; intros es H; cbn [fold_left]; auto. apply IH. unfold add_list. cbn [fst snd]. revert es H.
  induction us as [|x us IHu]; intros es H; cbn [fold_left]; auto. apply IHu, add_edge_once; auto.
Qed.
Lemma once_nil d : once d [].
Proof. split; [constructor|intros _ u v _ []]. Qed.
Lemma downward_spec adj : downward adj = true <-> forall u v, listed adj u v -> v < u.
Proof.
  unfold downward. rewrite forallb_forall. split.
  - intros H u v (us & Hi & Hu). specialize (H _ Hi). cbn [fst snd] in H. rewrite forallb_forall in H. apply Z.ltb_lt. auto.
  - intros H [v us] Hi. cbn [fst snd]. apply forallb_forall. intros u Hu. apply Z.ltb_lt. apply H. exists us. auto.
Qed.
