(* PFile5.v -- kthlist: bipartite graphs *)
From Coq Require Import String Ascii ZArith NArith List Bool Lia Arith Sorted Permutation.
From Verif Require Import Spec SpecInput SpecFile PyBase MSet MText MCnf MFam MFam2 MTrans MFile SpecCnf SpecFam SpecFam2 PText PReader PLib PCnf1 PCnf2 PCnf3 PFam1 PFam2 PFam4 PFam15 PGen6 PFile1 PFile3 PFile4.
Import ListNotations.
Open Scope Z_scope.

Notation cget w d := (dget Z.eqb w d).
Definition valid_colors (d : list (Z * Z)) : Prop := forall w k, cget w d = Some k -> k = 0 \/ k = 1.
Lemma cget_set k v (d : list (Z * Z)) w : cget w (dset Z.eqb k v d) = if w =? k then Some v else cget w d.
Proof.
  destruct (Z.eqb_spec w k) as [->|N].
  - apply (dget_dset_same Z.eqb Z.eqb_spec).
  - apply (dget_dset_other Z.eqb Z.eqb_spec). auto.
Qed.
Lemma cget_sets us (c : Z) : forall (d : list (Z * Z)) w, cget w (fold_left (fun d s => dset Z.eqb s c d) us d) = if zmem w us then Some c else cget w d.
Proof.
  induction us as [|u us IH]; intros d w; cbn [fold_left]; [reflexivity|]. rewrite IH, cget_set. cbn [zmem].
  destruct (zmem w us); [rewrite orb_true_r; reflexivity|]. rewrite orb_false_r. reflexivity.
Qed.
(* the colours a line finds *)
Definition found (v : Z) (us : list Z) (d : list (Z * Z)) : list Z :=
  flat_map (fun s => match cget s d with Some c => [c] | None => [] end) us ++ match cget v d with Some c => [1 - c] | None => [] end.
Lemma found_In v us d c : In c (found v us d) <-> (exists u, In u us /\ cget u d = Some c) \/ cget v d = Some (1 - c).
Proof.
  unfold found. rewrite in_app_iff, in_flat_map. split.
  - intros [(u & Hu & K)|K].
    + left. exists u. split; auto. destruct (cget u d); [destruct K as [->|[]]; auto|destruct K].
    + right. destruct (cget v d) as [x|]; [destruct K as [K|[]]|destruct K]. f_equal. lia.
  - intros [(u & Hu & E)|E]; [left; exists u; split; auto; rewrite E; left; auto|right; rewrite E; left; lia].
Qed.
Lemma bicolor_cases v us d : 
  (exists c, (forall x, In x (found v us d) -> x = c) /\ (found v us d = [] -> c = 1) /\ (In c (found v us d) \/ c = 1) /\
     bicolor v us d = Ok (fold_left (fun d s => dset Z.eqb s c d) us (dset Z.eqb v (1 - c) d))) \/
  ((exists x y, In x (found v us d) /\ In y (found v us d) /\ x <> y) /\ bicolor v us d = Err ValueError).
Proof.
  unfold bicolor. fold (found v us d). destruct (found v us d) as [|c t] eqn:E.
  - left. exists 1. split; [intros x []|]. auto.
  - destruct (forallb (Z.eqb c) t) eqn:F.
    + left. exists c. rewrite forallb_forall in F. split; [intros x [<-|H]; auto; symmetry; apply Z.eqb_eq; auto|]. split; [discriminate|]. split; [left; left; auto|reflexivity].
    + right. split; [|reflexivity]. assert (exists x, In x t /\ c <> x) as (x & Hx & Nx).
      { clear E. induction t as [|y t IH]; [discriminate|]. cbn [forallb] in F. destruct (Z.eqb_spec c y) as [->|N]; [cbn in F; destruct (IH F) as (x & A & B); exists x; split; auto; right; auto|exists y; split; auto; left; auto]. }
      exists c, x. split; [left; auto|]. split; [right; auto|auto].
Qed.
Lemma bicolor_ok v us d d' : bicolor v us d = Ok d' -> ~ In v us -> valid_colors d ->
  valid_colors d' /\ (forall w k, cget w d = Some k -> cget w d' = Some k) /\
  exists c, cget v d' = Some (1 - c) /\ (forall u, In u us -> cget u d' = Some c).
Proof.
  intros E N V. destruct (bicolor_cases v us d) as [(c & A & B & C & E')|(_ & E')]; [|congruence]. rewrite E' in E. injection E as <-.
  assert (C01 : c = 0 \/ c = 1).
  { destruct C as [C|C]; auto. apply found_In in C as [(u & _ & C)|C]; apply V in C; lia. }
  assert (G : forall w, cget w (fold_left (fun d s => dset Z.eqb s c d) us (dset Z.eqb v (1 - c) d)) = if zmem w us then Some c else if w =? v then Some (1 - c) else cget w d).
  { intros w. rewrite cget_sets, cget_set. reflexivity. }
  split; [|split].
  - intros w k H. rewrite G in H. destruct (zmem w us); [injection H as <-; auto|]. destruct (w =? v); [assert (k = 1 - c) by congruence; lia|eauto].
  - intros w k H. rewrite G. destruct (zmem w us) eqn:M.
    + apply zmem_In in M. rewrite (A k); auto. apply found_In. left. eauto.
    + destruct (Z.eqb_spec w v) as [->|_]; auto. rewrite <- (A (1 - k)); [f_equal; lia|]. apply found_In. right. rewrite H. f_equal. lia.
  - exists c. split.
    + rewrite G. destruct (zmem v us) eqn:M; [apply zmem_In in M; contradiction|]. rewrite Z.eqb_refl. reflexivity.
    + intros u Hu. rewrite G. apply zmem_In in Hu. rewrite Hu. reflexivity.
Qed.
Definition no_loops (adj : list (Z * list Z)) : Prop := forall v, ~ listed adj v v.
Lemma color_lists_ok adj : no_loops adj -> forall d d', color_lists adj d = Ok d' -> valid_colors d ->
  valid_colors d' /\ (forall w k, cget w d = Some k -> cget w d' = Some k) /\
  forall u v, listed adj u v -> exists c, cget v d' = Some (1 - c) /\ cget u d' = Some c.
Proof.
  induction adj as [|[v us] adj IH]; intros NL d d' E V; cbn [color_lists] in E.
  - injection E as <-. split; auto. split; auto. intros u v (l & [] & _).
  - apply bind_ok in E as (d1 & E1 & E). assert (N : ~ In v us) by (intros K; apply (NL v); exists us; split; [left; auto|auto]).
    destruct (bicolor_ok v us d d1 E1 N V) as (V1 & X1 & c & Hv & Hu).
    destruct (IH (fun w K => NL w (proj2 (listed_cons _ _ _ _) (or_intror K))) d1 d' E V1) as (V2 & X2 & L).
    split; auto. split; auto. intros a b K. apply listed_cons in K as [(l & [K|[]] & Hl)|K]; auto. inversion K; subst. exists c. split; auto.
Qed.
Lemma residual_get n (d : list (Z * Z)) w : cget w (residual n d) = match cget w d with Some k => Some k | None => if (1 <=? w) && (w <=? n) then Some 1 else None end.
Proof.
  unfold residual. assert (G : forall l (d : list (Z * Z)), cget w (fold_left (fun d v => match cget v d with Some _ => d | None => dset Z.eqb v 1 d end) l d) =
    match cget w d with Some k => Some k | None => if zmem w l then Some 1 else None end).
  { induction l as [|v l IH]; intros e; cbn [fold_left]; [cbn; destruct (cget w e); reflexivity|]. rewrite IH. cbn [zmem].
    destruct (cget v e) as [k|] eqn:Ev.
    - destruct (cget w e) eqn:Ew; [reflexivity|]. destruct (Z.eqb_spec w v) as [->|]; [congruence|]. reflexivity.
    - rewrite cget_set. destruct (Z.eqb_spec w v) as [->|]; [rewrite Ev; reflexivity|]. reflexivity. }
  rewrite G. destruct (cget w d); auto. destruct (zmem w (range 1 (n + 1))) eqn:M.
  - apply zmem_In, range_In in M. destruct (Z.leb_spec 1 w); [|lia]. destruct (Z.leb_spec w n); [|lia]. reflexivity.
  - destruct ((1 <=? w) && (w <=? n)) eqn:L; auto. apply andb_true_iff in L as [L1 L2]. apply Z.leb_le in L1, L2.
    assert (In w (range 1 (n + 1))) by (apply range_In; lia). apply zmem_In in H. congruence.
Qed.
(* the graph that comes out when the colouring succeeds *)
Definition bip_file (n : Z) (adj : list (Z * list Z)) (colors : list (Z * Z)) (name : text) : file_graph :=
  mkFile (range 1 (n + 1)) (edges_of false adj) (residual n colors) (downward adj) name.
Lemma has_color_spec f k v : has_color f k v = true <-> cget v (f_colors f) = Some k.
Proof. unfold has_color. destruct (cget v (f_colors f)) as [c|]; [rewrite Z.eqb_eq; split; congruence|split; discriminate]. Qed.
Lemma filter_sort (p : Z -> bool) a b : sort_by Z.ltb (filter p (range a b)) = filter p (range a b).
Proof.
  apply sort_by_id. pose proof (range_sorted a b) as S. induction S as [|x l S IH F]; [constructor|]. cbn [filter]. destruct (p x); auto. constructor; auto.
  apply Forall_forall. intros y Hy. apply filter_In in Hy as [Hy _]. rewrite Forall_forall in F. apply F in Hy. unfold le_of. destruct (Z.ltb_spec y x); auto; lia.
Qed.
Lemma bip_ok n adj colors name : (forall u v, listed adj u v -> 1 <= u <= n /\ 1 <= v <= n) -> no_loops adj -> color_lists adj [] = Ok colors ->
  let b := to_bipartite (bip_file n adj colors name) in
  bipartite_graph b /\ (forall w, In w (b_left b) \/ In w (b_right b) <-> 1 <= w <= n) /\
  (forall w, In w (b_left b) <-> cget w colors = Some 0 /\ 1 <= w <= n) /\
  (forall u v, In (u, v) (b_edges b) <-> In u (b_left b) /\ (listed adj u v \/ listed adj v u)).
Proof.
  intros R NL E b. assert (V0 : valid_colors []) by (intros w k K; discriminate).
  destruct (color_lists_ok adj NL [] colors E V0) as (V & _ & L).
  set (f := bip_file n adj colors name).
  assert (VR : valid_colors (f_colors f)).
  { intros w k H. cbn [f_colors f bip_file] in H. rewrite residual_get in H. destruct (cget w colors) eqn:Ew; [injection H as <-; eauto|]. destruct ((1 <=? w) && (w <=? n)); [injection H as <-; auto|discriminate]. }
  assert (HL : forall w, In w (b_left b) <-> cget w colors = Some 0 /\ 1 <= w <= n).
  { intros w. unfold b, to_bipartite. cbn [b_left f_vertices bip_file]. rewrite filter_sort, filter_In, range_In, has_color_spec. cbn [f_colors bip_file]. rewrite residual_get. split.
    - intros [H1 H2]. split; [|lia]. destruct (cget w colors); [congruence|]. destruct ((1 <=? w) && (w <=? n)); discriminate.
    - intros [H1 H2]. rewrite H1. split; [lia|reflexivity]. }
  assert (HR : forall w, In w (b_right b) <-> cget w colors <> Some 0 /\ 1 <= w <= n).
  { intros w. unfold b, to_bipartite. cbn [b_right f_vertices bip_file]. rewrite filter_sort, filter_In, range_In, has_color_spec. cbn [f_colors bip_file]. rewrite residual_get. split.
    - intros [H1 H2]. split; [|lia]. destruct (cget w colors); [congruence|discriminate].
    - intros [H1 H2]. split; [lia|]. destruct (cget w colors) as [k|] eqn:Ew.
      + destruct (V w k Ew) as [-> | ->]; [congruence|reflexivity].
      + destruct (Z.leb_spec 1 w); [|lia]. destruct (Z.leb_spec w n); [|lia]. reflexivity. }
  set (es := edges_of false adj).
  assert (OE : forall u v, listed adj u v \/ listed adj v u -> (In u (b_left b) /\ In v (b_right b)) \/ (In v (b_left b) /\ In u (b_right b))).
  { intros u v H. assert (K : (1 <= u <= n /\ 1 <= v <= n) /\ exists c, cget v colors = Some (1 - c) /\ cget u colors = Some c).
    { destruct H as [H|H]; split; auto.
      - apply R in H. tauto.
      - destruct (L _ _ H) as (c & A & B). exists (1 - c). split; auto. rewrite B. f_equal. lia. }
    destruct K as [[K1 K2] (c & A & B)]. rewrite !HL, !HR. destruct (V _ _ B) as [-> | ->]; [left|right]; repeat split; auto; try lia; rewrite ?A, ?B; discriminate. }
  set (orient := fun e : Z * Z => if has_color f 0 (fst e) then e else (snd e, fst e)).
  assert (EB : b_edges b = map orient es) by reflexivity.
  assert (OL : forall a, has_color f 0 a = true -> 1 <= a <= n -> In a (b_left b)).
  { intros a H K. unfold b, to_bipartite. cbn [b_left f_vertices bip_file]. rewrite filter_sort, filter_In, range_In. split; [lia|exact H]. }
  assert (OL' : forall a, In a (b_left b) -> has_color f 0 a = true).
  { intros a H. unfold b, to_bipartite in H. cbn [b_left f_vertices bip_file] in H. rewrite filter_sort, filter_In in H. apply H. }
  assert (AP : forall v, In v (b_left b) -> ~ In v (b_right b)) by (intros v H K; apply HL in H; apply HR in K; tauto).
  assert (IE : forall u v, In (u, v) (b_edges b) <-> In u (b_left b) /\ (listed adj u v \/ listed adj v u)).
  { intros u v. rewrite EB. split.
    - intros H. apply in_map_iff in H as ([x y] & H & Hi). unfold orient in H. cbn [fst snd] in H.
      assert (J : listed adj x y \/ listed adj y x) by (apply edges_undirected; auto). pose proof (OE x y J) as O.
      destruct (has_color f 0 x) eqn:Hc; inversion H; subst.
      + split; auto. destruct O as [[O _]|[_ O]]; auto. apply OL; auto. apply HR in O. tauto.
      + split; [|tauto]. destruct O as [[O _]|[O _]]; auto. apply OL' in O. congruence.
    - intros [Hl J]. pose proof (OE u v J) as O. assert (Hv : has_color f 0 v = false).
      { destruct (has_color f 0 v) eqn:Hc; auto. exfalso. destruct O as [[_ O]|[O O']]; [|apply (AP u); auto]. apply (AP v); auto. apply OL; auto. apply HR in O. tauto. }
      apply edges_undirected in J. fold es in J. apply in_map_iff. destruct J as [J|J]; [exists (u, v)|exists (v, u)]; split; auto; unfold orient; cbn [fst snd].
      + rewrite OL' by auto. reflexivity.
      + rewrite Hv. reflexivity. }
  split; [split|split; [|split; auto]].
  - unfold b, to_bipartite. cbn [b_left f_vertices bip_file]. rewrite filter_sort. apply NoDup_filter, range_NoDup.
  - unfold b, to_bipartite. cbn [b_right f_vertices bip_file]. rewrite filter_sort. apply NoDup_filter, range_NoDup.
  - rewrite EB. destruct (lists_once false adj [] (once_nil false)) as [N1 N2]. fold (edges_of false adj) in N1, N2. fold es in N1, N2. specialize (N2 eq_refl).
    assert (Irr : forall u v, In (u, v) es -> u <> v) by (intros u v H E1; subst v; assert (J : listed adj u u \/ listed adj u u) by (apply edges_undirected; auto); apply (NL u); tauto).
    clear - N1 N2 Irr. induction es as [|[x y] es IH]; [constructor|]. inversion N1; subst. cbn [map]. constructor.
    + intros K. apply in_map_iff in K as ([x' y'] & K & Hi). unfold orient in K. cbn [fst snd] in K.
      assert (((x' = x /\ y' = y) \/ (x' = y /\ y' = x))) as [[-> ->]|[-> ->]] by (destruct (has_color f 0 x), (has_color f 0 x'); inversion K; auto); [contradiction|].
      apply (N2 x y); [apply Irr; left; auto|left; auto|right; auto].
    + apply IH; auto.
      * intros u v Huv H K. apply (N2 u v Huv); right; auto.
      * intros u v H. apply Irr. right; auto.
  - intros u v H. apply IE in H as [H1 H2]. split; auto. destruct (OE u v H2) as [[_ O]|[_ O]]; auto. exfalso. apply (AP u); auto.
  - exact AP.
  - intros w. rewrite HL, HR. split; [tauto|]. intros H. destruct (cget w colors) as [k|] eqn:Ew; [|right; split; auto; discriminate]. destruct (V _ _ Ew) as [-> | ->]; [left|right]; auto. split; auto. discriminate.
Qed.
(* targets on the left, sources on the right: always accepted *)
Definition sided (adj : list (Z * list Z)) : Prop := forall u v w us, listed adj u v -> In (w, us) adj -> u <> w.
Lemma sided_colors adj0 : sided adj0 -> forall adj d, incl adj adj0 ->
  (forall w k, cget w d = Some k -> (k = 0 /\ (exists us, In (w, us) adj0)) \/ (k = 1 /\ exists v, listed adj0 w v)) ->
  exists d', color_lists adj d = Ok d' /\
    (forall w k, cget w d' = Some k -> (k = 0 /\ (exists us, In (w, us) adj0)) \/ (k = 1 /\ exists v, listed adj0 w v)) /\
    (forall w k, cget w d = Some k -> cget w d' = Some k) /\ (forall w us, In (w, us) adj -> cget w d' = Some 0).
Proof.
  intros SD. induction adj as [|[v us] adj IH]; intros d I C; cbn [color_lists].
  - exists d. split; auto. split; auto. split; auto. intros w us [].
  - assert (Hv : In (v, us) adj0) by (apply I; left; auto).
    assert (F : forall x, In x (found v us d) -> x = 1).
    { intros x Hx. apply found_In in Hx as [(u & Hu & Hx)|Hx]; apply C in Hx as [[E (us' & K)]|[E (v' & K)]]; auto; try lia.
      - exfalso. apply (SD u v u us'); auto. exists us; auto.
      - exfalso. apply (SD v v' v us); auto. }
    destruct (bicolor_cases v us d) as [(c & A & B & D & E)|((x & y & Hx & Hy & N) & _)]; [|exfalso; apply N; rewrite (F x), (F y); auto].
    assert (c = 1) as -> by (destruct D as [D|D]; auto).
    rewrite E. cbn [bind]. set (d1 := fold_left (fun d s => dset Z.eqb s 1 d) us (dset Z.eqb v (1 - 1) d)).
    assert (NV : ~ In v us) by (intros K; apply (SD v v v us); auto; exists us; auto).
    assert (G : forall w, cget w d1 = if zmem w us then Some 1 else if w =? v then Some 0 else cget w d) by (intros w; unfold d1; rewrite cget_sets, cget_set; reflexivity).
    destruct (IH d1) as (d' & E' & P1 & P2 & P3).
    + intros x Hx. apply I. right; auto.
    + intros w k H. rewrite G in H. destruct (zmem w us) eqn:M; [injection H as <-; right; split; auto; exists v, us; split; auto; apply zmem_In; auto|].
      destruct (Z.eqb_spec w v) as [->|_]; [injection H as <-; left; eauto|auto].
    + exists d'. split; auto. split; auto. split.
      * intros w k H. apply P2. rewrite G. destruct (zmem w us) eqn:M.
        { apply zmem_In in M. apply C in H as [[-> (us' & K)]|[-> _]]; auto. exfalso. apply (SD w v w us'); auto. exists us; auto. }
        destruct (Z.eqb_spec w v) as [->|_]; auto. apply C in H as [[-> _]|[_ (v' & K)]]; auto. exfalso. apply (SD v v' v us); auto.
      * intros w l [H|H]; [|eauto]. inversion H; subst. apply P2. rewrite G. destruct (zmem w l) eqn:M; [apply zmem_In in M; contradiction|]. rewrite Z.eqb_refl. reflexivity.
Qed.
