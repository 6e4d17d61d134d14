(* PFam2.v -- pigeonhole formulas *)
From Coq Require Import String Ascii ZArith NArith List Bool Lia Arith Permutation Sorted.
From Verif Require Import Spec PyBase MText MCnf MFam SpecCnf SpecFam PText PLib PCnf1 PCnf2 PFam1.
Import ListNotations.
Open Scope Z_scope.

Lemma sorted_In {A} (lt : A -> A -> bool) l x : In x (sort_by lt l) <-> In x l.
Proof. split; apply Permutation_in; [|symmetry]; apply sort_by_Perm. Qed.
Lemma sorted_NoDup {A} (lt : A -> A -> bool) l : NoDup l -> NoDup (sort_by lt l).
Proof. apply Permutation_NoDup. symmetry. apply sort_by_Perm. Qed.
Lemma NoDup_filter_map {A B} (f : A -> bool) (g : A -> B) l : NoDup l -> (forall x y, In x l -> In y l -> f x = true -> f y = true -> g x = g y -> x = y) ->
  NoDup (map g (filter f l)).
Proof.
  intros N H. induction N as [|x l Nx N IH]; cbn [filter]; [constructor|].
  assert (IH' : NoDup (map g (filter f l))) by (apply IH; intros; apply H; auto; right; auto).
  destruct (f x) eqn:E; auto. cbn [map]. constructor; auto. intros K. apply in_map_iff in K as (y & E2 & Hy). apply filter_In in Hy as [Hy E3].
  assert (y = x) by (apply H; auto; [right|left]; auto). subst. contradiction.
Qed.

(* ---- mappings and their relations ---- *)
Lemma unary_sat {A B} (m : unary_mapping A B) :
  (forall d, In d (um_domain m) -> NoDup (um_images m d)) -> (forall e, In e (um_range m) -> NoDup (um_counterimages m e)) ->
  (forall e d, In e (um_range m) -> In d (um_counterimages m e) -> In d (um_domain m) /\ In e (um_images m d)) ->
  (forall d e d' e', um_name m d e = um_name m d' e' -> d = d' /\ e = e') ->
  (has_model (um_clauses m) <-> exists r, is_mapping m r).
Proof.
  intros N1 N2 HG I. split.
  - intros (a & Ha). apply unary_models in Ha; auto. eauto.
  - intros (r & Hr). set (dom := flat_map (fun d => map (pair d) (um_images m d)) (um_domain m)).
    exists (values (fun p => um_name m (fst p) (snd p)) dom (fun p => r (fst p) (snd p))). apply unary_models; auto.
    assert (V : forall d e, In d (um_domain m) -> In e (um_images m d) ->
      values (fun p => um_name m (fst p) (snd p)) dom (fun p => r (fst p) (snd p)) (um_name m d e) = r d e).
    { intros d e Hd He. apply (values_at (fun p => um_name m (fst p) (snd p)) dom (fun p => r (fst p) (snd p)) (d, e)).
      - intros [d' e'] _ K. cbn [fst snd] in *. apply I in K as [-> ->]. auto.
      - unfold dom. apply in_flat_map. exists d. split; auto. apply in_map. auto. }
    destruct Hr as (R1 & R2 & R3 & R4 & R5). split; [|split; [|split; [|split]]].
    + intros F d Hd. destruct (R1 F d Hd) as (e & He & E). exists e. split; auto. rewrite V; auto.
    + intros F e He. destruct (R2 F e He) as (d & Hd & E). exists d. split; auto. destruct (HG e d He Hd). rewrite V; auto.
    + intros F e d d' He Hd Hd'. destruct (HG e d He Hd), (HG e d' He Hd'). rewrite !V by auto. eauto.
    + intros F d e e' Hd He He'. rewrite !V by auto. eauto.
    + intros F d d' e e' Hp He He'. pose proof (pairs_In _ _ _ Hp) as [D1 D2]. rewrite !V by auto. eauto.
Qed.

(* ---- the plain pigeonhole principle ---- *)
Lemma php_built p h f o : exists c, PigeonholePrinciple p h f o = Ok c /\ made c /\
  cnf_clauses c = um_clauses (plain_mapping (range 1 (p + 1)) (range 1 (h + 1)) php_name f o true false) /\
  cn_names c = with_new [] (um_variables (plain_mapping (range 1 (p + 1)) (range 1 (h + 1)) php_name f o true false)).
Proof.
  apply build_unsafe. intros cl v Hc Hv. eapply unary_vars; eauto.
Qed.
Lemma php_names_inj i j i' j' : php_name i j = php_name i' j' -> i = i' /\ j = j'.
Proof. apply name2_inj. Qed.
Lemma php_models p h f o a :
  all_hold a (um_clauses (plain_mapping (range 1 (p + 1)) (range 1 (h + 1)) php_name f o true false)) <->
  assigns (fun i => 1 <= i <= p) (fun j => 1 <= j <= h) (fun _ _ => True) f o (fun i j => a (php_name i j) = true).
Proof.
  rewrite unary_models; [|intros; apply range_NoDup|intros; apply range_NoDup]. unfold is_mapping, plain_mapping.
  cbn [um_complete um_surjective um_injective um_functional um_nondecreasing um_domain um_range um_images um_counterimages um_name um_rank].
  assert (D : forall i, In i (range 1 (p + 1)) <-> 1 <= i <= p) by (intros; rewrite range_In; lia).
  assert (R : forall i, In i (range 1 (h + 1)) <-> 1 <= i <= h) by (intros; rewrite range_In; lia).
  split.
  - intros (A & B & C & E & _). split.
    + intros d Hd. destruct (A eq_refl d) as (e & He & Re); [apply D; auto|]. exists e. split; [apply R|]; auto.
    + intros d d' e Hd Hd' He _ _ R1 R2. apply (C eq_refl e d d'); auto; [apply R|apply D|apply D]; auto.
    + intros F d e e' Hd He He' _ _ R1 R2. apply (E F d e e'); auto; [apply D|apply R|apply R]; auto.
    + intros F e He. destruct (B F e) as (d & Hd & Rd); [apply R; auto|]. exists d. split; [apply D|]; auto.
  - intros [A B C E]. split; [|split; [|split; [|split]]]; try discriminate.
    + intros _ d Hd. apply D in Hd. destruct (A d Hd) as (e & He & _ & Re). exists e. split; auto. apply R. auto.
    + intros F e He. apply R in He. destruct (E F e He) as (d & Hd & _ & Rd). exists d. split; auto. apply D. auto.
    + intros _ e d d' He Hd Hd'. apply R in He. apply D in Hd. apply D in Hd'. eapply B; eauto.
    + intros F d e e' Hd He He'. apply D in Hd. apply R in He. apply R in He'. eapply C; eauto.
Qed.
(* an injective assignment of pigeons to holes *)
Lemma choose_images {A B} (D : list A) (P : A -> B -> Prop) : (forall d, In d D -> exists e, P d e) -> exists l, Forall2 P D l.
Proof.
  induction D as [|d D IH]; intros H; [exists []; constructor|]. destruct (H d) as (e & He); [left; auto|].
  destruct IH as (l & Hl); [intros; apply H; right; auto|]. exists (e :: l). constructor; auto.
Qed.
Lemma Forall2_In_r {A B} (P : A -> B -> Prop) D l e : Forall2 P D l -> In e l -> exists d, In d D /\ P d e.
Proof. induction 1 as [|x y D l Hp F IH]; [intros []|]. intros [<-|He]; [exists x; split; [left|]; auto|]. destruct (IH He) as (d & Hd & K). exists d. split; [right|]; auto. Qed.
Lemma injective_length {A B} (D : list A) (R : list B) (r : A -> B -> Prop) : NoDup D ->
  (forall d, In d D -> exists e, In e R /\ r d e) ->
  (forall d d' e, In d D -> In d' D -> In e R -> r d e -> r d' e -> d = d') -> (List.length D <= List.length R)%nat.
Proof.
  intros N T I. destruct (choose_images D (fun d e => In e R /\ r d e) T) as (l & Hl).
  assert (L : List.length l = List.length D) by (clear -Hl; induction Hl; cbn [List.length]; congruence). rewrite <- L.
  apply NoDup_incl_length.
  - clear L T. induction Hl as [|d e D l [Hd Hr] F IH]; [constructor|]. inversion N as [|? ? N1 N2]; subst. constructor.
    + intros K. destruct (Forall2_In_r _ _ _ _ F K) as (d' & Hd' & He' & Hr'). assert (d = d').
      { apply (I d d' e); auto; [left|right]; auto. } subst. contradiction.
    + apply IH; auto. intros; eapply I; eauto; right; auto.
  - intros e He. destruct (Forall2_In_r _ _ _ _ Hl He) as (d & _ & K & _). auto.
Qed.
Lemma between_length n : 0 <= n -> Z.of_nat (List.length (range 1 (n + 1))) = n.
Proof. intros. rewrite range_length. lia. Qed.
Lemma assigns_size p h f o r : 0 <= p -> 0 <= h ->
  assigns (fun i => 1 <= i <= p) (fun j => 1 <= j <= h) (fun _ _ => True) f o r ->
  p <= h /\ (o = true -> f = true -> p = h) /\ (o = true -> p = 0 -> h = 0).
Proof.
  intros Hp Hh [A B C E].
  assert (L : p <= h).
  { rewrite <- (between_length p Hp), <- (between_length h Hh). apply Nat2Z.inj_le.
    apply (injective_length _ _ r); [apply range_NoDup| |].
    - intros d Hd. apply range_In in Hd. destruct (A d) as (e & He & _ & Re); [lia|]. exists e. split; auto. apply range_In. lia.
    - intros d d' e Hd Hd' He. apply range_In in Hd. apply range_In in Hd'. apply range_In in He. apply B; auto; lia. }
  split; auto. split.
  - intros Ho Hf. assert (h <= p); [|lia]. rewrite <- (between_length p Hp), <- (between_length h Hh). apply Nat2Z.inj_le.
    apply (injective_length _ _ (fun e d => r d e)); [apply range_NoDup| |].
    + intros e He. apply range_In in He. destruct (E Ho e) as (d & Hd & _ & Rd); [lia|]. exists d. split; auto. apply range_In. lia.
    + intros e e' d He He' Hd. apply range_In in Hd. apply range_In in He. apply range_In in He'. intros; apply (C Hf d); auto; lia.
  - intros Ho H0. destruct (Z.eq_dec h 0); auto. destruct (E Ho 1) as (d & Hd & _); lia.
Qed.
Lemma assigns_exists p h f o : 0 <= p -> p <= h -> (o = true -> f = true -> p = h) -> (o = true -> p = 0 -> h = 0) ->
  assigns (fun i => 1 <= i <= p) (fun j => 1 <= j <= h) (fun _ _ => True) f o (fun i j => if f then i = j else i = Z.min j p).
Proof.
  intros H0 H1 H2 H3. split.
  - intros d Hd. exists d. split; [lia|]. split; auto. destruct f; lia.
  - intros d d' e _ _ _ _ _. destruct f; lia.
  - intros -> d e e'. lia.
  - intros -> e He. destruct f.
    + specialize (H2 eq_refl eq_refl). exists e. split; [lia|auto].
    + specialize (H3 eq_refl). exists (Z.min e p). split; [lia|auto].
Qed.
Lemma php_satisfiable p h f o : 0 <= p -> 0 <= h ->
  (has_model (um_clauses (plain_mapping (range 1 (p + 1)) (range 1 (h + 1)) php_name f o true false)) <->
   p <= h /\ (o = true -> f = true -> p = h) /\ (o = true -> p = 0 -> h = 0)).
Proof.
  intros Hp Hh. split.
  - intros (a & Ha). apply php_models in Ha. eapply assigns_size; eauto.
  - intros (A & B & C). pose proof (assigns_exists p h f o Hp A B C) as G.
    set (dom := flat_map (fun i => map (pair i) (range 1 (h + 1))) (range 1 (p + 1))).
    exists (values (fun q => php_name (fst q) (snd q)) dom (fun q => if f then fst q =? snd q else fst q =? Z.min (snd q) p)).
    apply php_models.
    assert (V : forall i j, 1 <= i <= p -> 1 <= j <= h ->
      (values (fun q => php_name (fst q) (snd q)) dom (fun q => if f then fst q =? snd q else fst q =? Z.min (snd q) p) (php_name i j) = true <->
       if f then i = j else i = Z.min j p)).
    { intros i j Hi Hj. rewrite (values_at (fun q => php_name (fst q) (snd q)) dom _ (i, j)).
      - cbn [fst snd]. destruct f; apply Z.eqb_eq.
      - intros [i' j'] _ K. cbn [fst snd] in K. apply php_names_inj in K as [-> ->]. auto.
      - unfold dom. apply in_flat_map. exists i. split; [apply range_In; lia|]. apply in_map. apply range_In. lia. }
    destruct G as [G1 G2 G3 G4]. split.
    + intros d Hd. destruct (G1 d Hd) as (e & He & _ & K). exists e. rewrite V; auto.
    + intros d d' e Hd Hd' He _ _. rewrite !V by auto. apply G2; auto.
    + intros F d e e' Hd He He' _ _. rewrite !V by auto. apply G3; auto.
    + intros F e He. destruct (G4 F e He) as (d & Hd & _ & K). exists d. rewrite V; auto.
Qed.

(* ---- on a bipartite graph ---- *)
Definition gphp_mapping (b : bipartite) f o := mkUnary (b_left b) (b_right b) (left_neighbors b) (right_neighbors b)
    (fun r => rank_of r (b_right b) 1) php_name true f o true false.
Lemma left_In b u v : In v (left_neighbors b u) <-> In (u, v) (b_edges b).
Proof.
  unfold left_neighbors. rewrite sorted_In, in_map_iff. split.
  - intros ([x y] & <- & H). apply filter_In in H as [H E]. apply Z.eqb_eq in E. cbn in *. subst. auto.
  - intros H. exists (u, v). split; auto. apply filter_In. split; auto. apply Z.eqb_refl.
Qed.
Lemma right_In b u v : In u (right_neighbors b v) <-> In (u, v) (b_edges b).
Proof.
  unfold right_neighbors. rewrite sorted_In, in_map_iff. split.
  - intros ([x y] & <- & H). apply filter_In in H as [H E]. apply Z.eqb_eq in E. cbn in *. subst. auto.
  - intros H. exists (u, v). split; auto. apply filter_In. split; auto. apply Z.eqb_refl.
Qed.
Lemma left_NoDup b u : bipartite_graph b -> NoDup (left_neighbors b u).
Proof.
  intros G. apply sorted_NoDup, NoDup_filter_map; [apply G|]. intros [x y] [x' y'] _ _ E E' K. apply Z.eqb_eq in E. apply Z.eqb_eq in E'. cbn in *. subst. auto.
Qed.
Lemma right_NoDup b v : bipartite_graph b -> NoDup (right_neighbors b v).
Proof.
  intros G. apply sorted_NoDup, NoDup_filter_map; [apply G|]. intros [x y] [x' y'] _ _ E E' K. apply Z.eqb_eq in E. apply Z.eqb_eq in E'. cbn in *. subst. auto.
Qed.
Lemma gphp_built b f o : bipartite_graph b -> exists c, GraphPigeonholePrinciple b f o = Ok c /\ made c /\
  cnf_clauses c = um_clauses (gphp_mapping b f o).
Proof.
  intros G. destruct (build_unsafe (um_variables (gphp_mapping b f o)) (um_clauses (gphp_mapping b f o))) as (c & A & B & C & _).
  - intros cl v Hc Hv. eapply unary_vars; eauto. cbn. intros e d He Hd. apply right_In in Hd. split; [apply (bg_ends b G d e Hd)|apply left_In; auto].
  - eauto.
Qed.
Lemma gphp_mapping_rel b f o r : bipartite_graph b -> (is_mapping (gphp_mapping b f o) r <->
  assigns (fun i => In i (b_left b)) (fun j => In j (b_right b)) (fun i j => In (i, j) (b_edges b)) f o (fun i j => r i j = true)).
Proof.
  intros G. unfold is_mapping, gphp_mapping.
  cbn [um_complete um_surjective um_injective um_functional um_nondecreasing um_domain um_range um_images um_counterimages um_name um_rank].
  split.
  - intros (A & B & C & E & _). split.
    + intros d Hd. destruct (A eq_refl d Hd) as (e & He & Re). apply left_In in He. exists e. split; [apply (bg_ends b G d e He)|auto].
    + intros d d' e Hd Hd' He M1 M2 R1 R2. apply (C eq_refl e d d'); auto; apply right_In; auto.
    + intros F d e e' Hd He He' M1 M2 R1 R2. apply (E F d e e'); auto; apply left_In; auto.
    + intros F e He. destruct (B F e He) as (d & Hd & Rd). apply right_In in Hd. exists d. split; [apply (bg_ends b G d e Hd)|auto].
  - intros [A B C E]. split; [|split; [|split; [|split]]]; try discriminate.
    + intros _ d Hd. destruct (A d Hd) as (e & He & M & Re). exists e. split; auto. apply left_In. auto.
    + intros F e He. destruct (E F e He) as (d & Hd & M & Rd). exists d. split; auto. apply right_In. auto.
    + intros _ e d d' He Hd Hd'. apply right_In in Hd. apply right_In in Hd'. destruct (bg_ends b G _ _ Hd), (bg_ends b G _ _ Hd'). eapply B; eauto.
    + intros F d e e' Hd He He'. apply left_In in He. apply left_In in He'. destruct (bg_ends b G _ _ He), (bg_ends b G _ _ He'). eapply C; eauto.
Qed.
Lemma gphp_models b f o a : bipartite_graph b ->
  (all_hold a (um_clauses (gphp_mapping b f o)) <->
   assigns (fun i => In i (b_left b)) (fun j => In j (b_right b)) (fun i j => In (i, j) (b_edges b)) f o (fun i j => a (php_name i j) = true)).
Proof.
  intros G. rewrite unary_models; [apply (gphp_mapping_rel b f o (fun i j => a (php_name i j))); auto|intros; apply left_NoDup; auto|intros; apply right_NoDup; auto].
Qed.
Lemma assigns_ext (D R : Z -> Prop) (may : Z -> Z -> Prop) f o (r r' : Z -> Z -> Prop) : (forall d e, D d -> R e -> may d e -> (r d e <-> r' d e)) ->
  assigns D R may f o r -> assigns D R may f o r'.
Proof.
  intros H [A B C E]. split.
  - intros d Hd. destruct (A d Hd) as (e & He & M & K). exists e. split; auto. split; auto. apply H; auto.
  - intros d d' e Hd Hd' He M M' K K'. apply (B d d' e); auto; apply H; auto.
  - intros F d e e' Hd He He' M M' K K'. apply (C F d e e'); auto; apply H; auto.
  - intros F e He. destruct (E F e He) as (d & Hd & M & K). exists d. split; auto. split; auto. apply H; auto.
Qed.
Lemma gphp_satisfiable b f o : bipartite_graph b ->
  (has_model (um_clauses (gphp_mapping b f o)) <->
   exists r : Z -> Z -> bool,
     assigns (fun i => In i (b_left b)) (fun j => In j (b_right b)) (fun i j => In (i, j) (b_edges b)) f o (fun i j => r i j = true)).
Proof.
  intros G. rewrite unary_sat.
  - split.
    + intros (r & Hr). apply gphp_mapping_rel in Hr; auto. eauto.
    + intros (r & Hr). exists r. apply gphp_mapping_rel; auto.
  - intros; apply left_NoDup; auto.
  - intros; apply right_NoDup; auto.
  - cbn. intros e d He Hd. apply right_In in Hd. split; [apply (bg_ends b G d e Hd)|apply left_In; auto].
  - apply php_names_inj.
Qed.
(* a choice function on a finite set *)
Lemma choose_function (D : list Z) (P : Z -> Z -> Prop) : NoDup D -> (forall d, In d D -> exists e, P d e) ->
  exists f : Z -> Z, forall d, In d D -> P d (f d).
Proof.
  intros N. induction N as [|x D Nx N IH]; intros H; [exists (fun z => z); intros ? []|].
  destruct IH as (f & Hf); [intros; apply H; right; auto|]. destruct (H x) as (e & He); [left; auto|].
  exists (fun d => if d =? x then e else f d). intros d [<-|Hd]; [rewrite Z.eqb_refl; auto|].
  destruct (Z.eqb_spec d x); [subst; contradiction|auto].
Qed.
Lemma surjective_of_length (L R : list Z) (f : Z -> Z) : NoDup L -> (forall d, In d L -> In (f d) R) ->
  (forall d d', In d L -> In d' L -> f d = f d' -> d = d') -> (List.length R <= List.length L)%nat ->
  forall e, In e R -> exists d, In d L /\ f d = e.
Proof.
  intros N M I Len e He.
  assert (ND : NoDup (map f L)).
  { clear -N I. induction N as [|x l Nx N IH]; cbn [map]; constructor.
    - intros K. apply in_map_iff in K as (y & E & Hy). assert (y = x) by (apply I; auto; [right|left]; auto). subst. contradiction.
    - apply IH. intros; apply I; auto; right; auto. }
  assert (In e (map f L)).
  { apply (@NoDup_length_incl _ (map f L) R ND); [rewrite map_length; auto|intros y Hy; apply in_map_iff in Hy as (d & <- & Hd); auto|auto]. }
  apply in_map_iff in H as (d & E & Hd). eauto.
Qed.
Lemma gphp_matching b f o : bipartite_graph b -> (o = true -> f = true) ->
  (has_model (um_clauses (gphp_mapping b f o)) <->
   (exists mate : Z -> Z, (forall u, In u (b_left b) -> In (u, mate u) (b_edges b)) /\
      forall u u', In u (b_left b) -> In u' (b_left b) -> mate u = mate u' -> u = u') /\
   (o = true -> List.length (b_left b) = List.length (b_right b))).
Proof.
  intros G FO. rewrite gphp_satisfiable by auto. split.
  - intros (r & [A B C E]). split.
    + destruct (choose_function (b_left b) (fun d e => In (d, e) (b_edges b) /\ r d e = true)) as (m & Hm).
      * apply G.
      * intros d Hd. destruct (A d Hd) as (e & _ & K). eauto.
      * exists m. split; [apply Hm|]. intros u u' Hu Hu' E1. destruct (Hm u Hu) as [M1 R1], (Hm u' Hu') as [M2 R2]. rewrite <- E1 in *.
        apply (B u u' (m u)); auto. apply (bg_ends b G u _ M1).
    + intros Ho. specialize (FO Ho). apply Nat.le_antisymm.
      * apply (injective_length _ _ (fun d e => In (d, e) (b_edges b) /\ r d e = true)); [apply G| |].
        -- intros d Hd. destruct (A d Hd) as (e & He & K). eauto.
        -- intros d d' e Hd Hd' He [M1 R1] [M2 R2]. apply (B d d' e); auto.
      * apply (injective_length _ _ (fun e d => In (d, e) (b_edges b) /\ r d e = true)); [apply G| |].
        -- intros e He. destruct (E Ho e He) as (d & Hd & K). eauto.
        -- intros e e' d He He' Hd [M1 R1] [M2 R2]. apply (C FO d e e'); auto.
  - intros ((m & M & I) & Len). exists (fun i j => m i =? j). split.
    + intros d Hd. exists (m d). split; [apply (bg_ends b G d _ (M d Hd))|]. split; auto. apply Z.eqb_refl.
    + intros d d' e Hd Hd' He _ _ E1 E2. apply Z.eqb_eq in E1. apply Z.eqb_eq in E2. apply I; auto. congruence.
    + intros _ d e e' _ _ _ _ _ E1 E2. apply Z.eqb_eq in E1. apply Z.eqb_eq in E2. congruence.
    + intros Ho e He. specialize (Len Ho). destruct (surjective_of_length (b_left b) (b_right b) m) with (e := e) as (d & Hd & <-); auto.
      * apply G.
      * intros d Hd. apply (bg_ends b G d _ (M d Hd)).
      * rewrite Len. auto.
      * exists d. split; auto. split; [apply M; auto|apply Z.eqb_refl].
Qed.
