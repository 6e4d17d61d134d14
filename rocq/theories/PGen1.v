(* PGen1.v -- a program logic for the circuits of MGen.v, and its two instances (simulation, generation). *)
From Coq Require Import ZArith List Bool Lia.
From Verif Require Import MGen.
Import ListNotations.
Open Scope Z_scope.

Definition val := Z -> bool.
Definition bval (r : val) (b : bit) : bool :=
  match b with Bool x => x | BitVar v => r v | NotBitVar v => negb (r v) end.
Definition b2z (b : bool) : Z := if b then 1 else 0.
(* value of a list of bits, least significant first *)
Fixpoint nval (r : val) (bs : list bit) : Z :=
  match bs with [] => 0 | b :: t => b2z (bval r b) + 2 * nval r t end.
Definition below (v : Z) (b : bit) : Prop :=
  match b with Bool _ => True | BitVar x | NotBitVar x => 1 <= x < v end.
Definition belows (v : Z) (bs : list bit) : Prop := Forall (below v) bs.
Definition agree (v : Z) (r r' : val) : Prop := forall x, 1 <= x < v -> r x = r' x.
Definition const (b : bit) : Prop := match b with Bool _ => True | _ => False end.

Definition gate_true (r : val) (g : gate) : Prop :=
  match g with
  | GAnd v a b => bval r v = bval r a && bval r b
  | GOr v a b => bval r v = bval r a || bval r b
  | GXor v a b => bval r v = xorb (bval r a) (bval r b)
  | GMux v s a b => bval r v = if bval r s then bval r b else bval r a
  | GAssert v x => bval r v = x
  end.
Definition gates_true (r : val) (ds : list gate) : Prop := Forall (gate_true r) ds.
Definition gate_inputs (g : gate) : list bit :=
  match g with GAnd _ a b | GOr _ a b | GXor _ a b => [a; b] | GMux _ s a b => [s; a; b] | GAssert v _ => [] end.
Definition gate_output (g : gate) : bit :=
  match g with GAnd v _ _ | GOr v _ _ | GXor v _ _ | GMux v _ _ _ | GAssert v _ => v end.
Definition is_assert (g : gate) : Prop := match g with GAssert _ _ => True | _ => False end.
(* well-formed between v0 and v1: assertions on earlier variables; other gates have a new variable as output
   and earlier variables as inputs *)
Definition gate_ok (v0 v1 : Z) (g : gate) : Prop :=
  match g with
  | GAssert b _ => below v1 b /\ ~ const b
  | _ => exists x, gate_output g = BitVar x /\ v0 <= x < v1 /\
           Forall (fun b => below x b /\ ~ const b) (gate_inputs g)
  end.

(* worlds: the next fresh variable, an initial assumption, the gates so far; what is known about the variables *)
Record world := W { wv : Z; wB : val -> Prop; wds : list gate }.
Definition wP (w : world) (r : val) : Prop := wB w r /\ gates_true r (wds w).
Definition good (w : world) : Prop :=
  1 <= wv w /\ (forall r r', agree (wv w) r r' -> wP w r -> wP w r') /\ (exists r, wP w r).
Definition le (w w' : world) : Prop := wv w <= wv w' /\ (forall r, wP w' r -> wP w r).

Lemma le_refl w : le w w.
Proof. split; auto. lia. Qed.
Lemma le_trans w1 w2 w3 : le w1 w2 -> le w2 w3 -> le w1 w3.
Proof. intros [] []; split; auto. lia. Qed.
Lemma below_mono v v' b : v <= v' -> below v b -> below v' b.
Proof. destruct b; simpl; auto; lia. Qed.
Lemma belows_mono v v' bs : v <= v' -> belows v bs -> belows v' bs.
Proof. intros H. apply Forall_impl. intros b. apply below_mono; auto. Qed.
Lemma below_notBit v b : below v b -> below v (notBit b).
Proof. destruct b; auto. Qed.
Lemma bval_notBit r b : bval r (notBit b) = negb (bval r b).
Proof. destruct b; simpl; auto. rewrite negb_involutive. auto. Qed.
Lemma bval_agree v r r' b : agree v r r' -> below v b -> bval r b = bval r' b.
Proof. destruct b; simpl; intros H L; auto; rewrite (H _ L); auto. Qed.
Lemma nval_agree v r r' bs : agree v r r' -> belows v bs -> nval r bs = nval r' bs.
Proof.
  intros H L. induction L as [|b bs Hb L IH]; auto. cbn [nval]. rewrite IH, (bval_agree v r r' b); auto.
Qed.
Lemma agree_sym v r r' : agree v r r' -> agree v r' r.
Proof. intros H x L. symmetry; auto. Qed.
Lemma agree_trans v r1 r2 r3 : agree v r1 r2 -> agree v r2 r3 -> agree v r1 r3.
Proof. intros H1 H2 x L. rewrite H1, H2; auto. Qed.
Lemma agree_mono v v' r r' : v <= v' -> agree v' r r' -> agree v r r'.
Proof. intros H A x L. apply A; lia. Qed.

(* the program logic: [spec m w Q] -- run in world w, m does not fail and ends with a result and a later
   world satisfying Q *)
Record logic {M : Type -> Type} (K : circuit M) := Logic {
  ok : world -> Prop;
  spec : forall A, M A -> world -> (A -> world -> Prop) -> Prop;
  ok_good : forall w, ok w -> good w;
  spec_ret : forall A (a : A) w (Q : A -> world -> Prop), ok w -> Q a w -> spec A (ret K a) w Q;
  spec_bind : forall A B (m : M A) (f : A -> M B) w Q Q', ok w -> spec A m w Q ->
    (forall a w', le w w' -> ok w' -> Q a w' -> spec B (f a) w' Q') -> spec B (bindM K m f) w Q';
  spec_conseq : forall A (m : M A) w (Q Q' : A -> world -> Prop), ok w -> spec A m w Q ->
    (forall a w', le w w' -> ok w' -> Q a w' -> Q' a w') -> spec A m w Q';
  spec_not1 : forall w a, ok w -> below (wv w) a ->
    spec bit (not1 K a) w (fun r w' => below (wv w') r /\ forall f, wP w' f -> bval f r = negb (bval f a));
  spec_assert1 : forall w a x, ok w -> below (wv w) a -> (forall f, wP w f -> bval f a = x) ->
    spec unit (assert1 K a x) w (fun _ w' => True);
  spec_and2 : forall w a b, ok w -> below (wv w) a -> below (wv w) b ->
    spec bit (and2 K a b) w (fun r w' => below (wv w') r /\
      forall f, wP w' f -> bval f r = bval f a && bval f b);
  spec_or2 : forall w a b, ok w -> below (wv w) a -> below (wv w) b ->
    spec bit (or2 K a b) w (fun r w' => below (wv w') r /\
      forall f, wP w' f -> bval f r = bval f a || bval f b);
  spec_xor2 : forall w a b, ok w -> below (wv w) a -> below (wv w) b ->
    spec bit (xor2 K a b) w (fun r w' => below (wv w') r /\
      forall f, wP w' f -> bval f r = xorb (bval f a) (bval f b));
  spec_mux3 : forall w s a b, ok w -> below (wv w) s -> below (wv w) a -> below (wv w) b ->
    spec bit (mux3 K s a b) w (fun r w' => below (wv w') r /\
      forall f, wP w' f -> bval f r = if bval f s then bval f b else bval f a) }.
Arguments ok {M K}. Arguments spec {M K} _ {A}.

(* ---- simulation ---- *)
Definition std_spec (A : Type) (m : std A) (w : world) (Q : A -> world -> Prop) : Prop :=
  exists a, m = Std a /\ Q a w.
Lemma below_1 b : below 1 b -> exists x, b = Bool x.
Proof. destruct b; simpl; intros; [eauto|lia|lia]. Qed.
Definition std_logic : logic std_circuit.
Proof.
  refine {| ok := fun w => good w /\ wv w = 1; spec := std_spec |}.
  - tauto.
  - intros A a w Q _ H. exists a; auto.
  - intros A B m f w Q Q' O (a & -> & H) F. apply F; auto. apply le_refl.
  - intros A m w Q Q' O (a & -> & H) F. exists a. split; auto. apply F; auto. apply le_refl.
  - intros w a [_ O] H. rewrite O in H. destruct (below_1 a H) as [x ->]. exists (Bool (negb x)). simpl. auto.
  - intros w a x [G O] H F. rewrite O in H. destruct (below_1 a H) as [y ->]. exists tt. split; auto.
    destruct G as (_ & _ & f & Hf). specialize (F f Hf). simpl in F. subst. simpl. rewrite Bool.eqb_reflx. auto.
  - intros w a b [_ O] Ha Hb. rewrite O in Ha, Hb. destruct (below_1 a Ha) as [x ->], (below_1 b Hb) as [y ->].
    eexists. split; [reflexivity|]. simpl. auto.
  - intros w a b [_ O] Ha Hb. rewrite O in Ha, Hb. destruct (below_1 a Ha) as [x ->], (below_1 b Hb) as [y ->].
    eexists. split; [reflexivity|]. simpl. auto.
  - intros w a b [_ O] Ha Hb. rewrite O in Ha, Hb. destruct (below_1 a Ha) as [x ->], (below_1 b Hb) as [y ->].
    eexists. split; [reflexivity|]. simpl. auto.
  - intros w s a b [_ O] Hs Ha Hb. rewrite O in Hs. destruct (below_1 s Hs) as [x ->].
    exists (if x then b else a). split; [destruct x; reflexivity|]. simpl. destruct x; auto.
Defined.

(* ---- generation ---- *)
Definition after (w : world) (v1 : Z) (ds : list gate) : world := W v1 (wB w) (wds w ++ ds).
Lemma after_P w v1 ds r : wP (after w v1 ds) r <-> wP w r /\ gates_true r ds.
Proof. unfold wP, after. cbn [wB wds]. unfold gates_true. rewrite Forall_app. tauto. Qed.
Lemma after_nil w : after w (wv w) [] = w.
Proof. destruct w. unfold after. cbn. rewrite app_nil_r. auto. Qed.
Lemma after_app w v1 ds v2 ds2 : after (after w v1 ds) v2 ds2 = after w v2 (ds ++ ds2).
Proof. unfold after. cbn. rewrite app_assoc. auto. Qed.
Definition run_ok (w : world) (v1 : Z) (ds : list gate) : Prop :=
  wv w <= v1 /\ Forall (gate_ok (wv w) v1) ds /\
  (forall r, wP w r -> exists r', agree (wv w) r r' /\ gates_true r' ds) /\
  (forall r r', gates_true r ds -> gates_true r' ds -> agree (wv w) r r' -> agree v1 r r').
Definition sym_spec (A : Type) (m : sym A) (w : world) (Q : A -> world -> Prop) : Prop :=
  exists a v1 ds, m (wv w) = Done a v1 ds /\ run_ok w v1 ds /\ Q a (after w v1 ds).

Lemma below_bval_gate v b r r' : below v b -> agree v r r' -> bval r b = bval r' b.
Proof. intros. eapply bval_agree; eauto. Qed.
Lemma gate_ok_below v0 v1 g : gate_ok v0 v1 g -> below v1 (gate_output g) \/ exists x, gate_output g = BitVar x /\ v0 <= x < v1.
Proof. destruct g; simpl; intros H; [right|right|right|right|left]; try tauto; destruct H as (x & E & H & _); eauto. Qed.
Lemma gate_true_agree v0 v1 g r r' : 1 <= v0 -> gate_ok v0 v1 g -> agree v1 r r' -> gate_true r g -> gate_true r' g.
Proof.
  intros H0 Hg A.
  assert (Hi : forall b, In b (gate_output g :: gate_inputs g) -> bval r b = bval r' b).
  { intros b [<-|Hb].
    - destruct (gate_ok_below _ _ _ Hg) as [H|(x & -> & Hx)]; [eapply bval_agree; eauto|]. simpl. apply A; lia.
    - destruct g; try destruct Hb; destruct Hg as (x & _ & Hx & F); rewrite Forall_forall in F;
        (apply (bval_agree v1); auto; apply (below_mono x); [lia|]; apply F; simpl in *; tauto). }
  destruct g; simpl in *; rewrite <- ?Hi by tauto; auto.
Qed.
Lemma gates_true_agree v0 v1 ds r r' : 1 <= v0 -> Forall (gate_ok v0 v1) ds -> agree v1 r r' ->
  gates_true r ds -> gates_true r' ds.
Proof.
  intros H0 F A G. unfold gates_true in *. rewrite Forall_forall in *. intros g Hg.
  eapply gate_true_agree; eauto.
Qed.
Lemma after_good w v1 ds : good w -> run_ok w v1 ds -> good (after w v1 ds).
Proof.
  intros (G1 & G2 & r & Hr) (R1 & R2 & R3 & R4). split; [cbn; lia|]. split.
  - intros x y A. rewrite !after_P. intros [P D]. cbn [wv after] in *. split.
    + apply (G2 x); auto. apply (agree_mono _ v1); auto.
    + eapply gates_true_agree; eauto.
  - destruct (R3 r Hr) as (r' & A & D). exists r'. apply after_P. split; auto. apply (G2 r); auto.
Qed.
Lemma after_le w v1 ds : run_ok w v1 ds -> le w (after w v1 ds).
Proof. intros (R & _). split; cbn [wv after]; [auto|]. intros r H. apply after_P in H. tauto. Qed.
Lemma gate_ok_mono v0 v0' v1 v1' g : v0' <= v0 -> v1 <= v1' -> gate_ok v0 v1 g -> gate_ok v0' v1' g.
Proof.
  intros H0 H1. destruct g; simpl; try (intros (x & E & L & F); exists x; split; auto; split; auto; lia).
  intros [H Hn]; split; auto. eapply below_mono; eauto.
Qed.
Lemma run_ok_app w v1 ds v2 ds2 : good w -> run_ok w v1 ds -> run_ok (after w v1 ds) v2 ds2 ->
  run_ok w v2 (ds ++ ds2).
Proof.
  intros (G1 & G2 & _) (R1 & R2 & R3 & R4) (S1 & S2 & S3 & S4). cbn [wv after] in *. split; [lia|]. split; [|split].
  - apply Forall_app. split.
    + eapply Forall_impl; [|exact R2]. intros g. apply gate_ok_mono; lia.
    + eapply Forall_impl; [|exact S2]. intros g. apply gate_ok_mono; lia.
  - intros r Hr. destruct (R3 r Hr) as (r1 & A1 & D1). destruct (S3 r1) as (r2 & A2 & D2).
    { apply after_P. split; auto. apply (G2 r); auto. }
    exists r2. split; [apply (agree_trans _ _ r1); auto; apply (agree_mono _ v1); auto|].
    apply Forall_app. split; auto. eapply gates_true_agree; eauto.
  - intros r r' D D' A. unfold gates_true in *. rewrite Forall_app in D, D'. apply S4; try tauto. apply R4; tauto.
Qed.
Lemma run_ok_nil w : run_ok w (wv w) [].
Proof.
  split; [lia|]. split; [constructor|]. split; auto. intros r _. exists r. split; [intros x _; auto|constructor].
Qed.
(* a gate with a new output variable computing f *)
Lemma new_gate_spec w (g : bit -> gate) (f : val -> bool) : good w ->
  (forall r v, gate_true r (g (BitVar v)) <-> r v = f r) ->
  (forall v, gate_output (g (BitVar v)) = BitVar v /\ ~ is_assert (g (BitVar v))) ->
  (forall r r', agree (wv w) r r' -> f r = f r') ->
  Forall (fun b => below (wv w) b /\ ~ const b) (gate_inputs (g (BitVar (wv w)))) ->
  sym_spec bit (new_gate g) w (fun r w' => below (wv w') r /\ forall x, wP w' x -> bval x r = f x).
Proof.
  intros (G1 & G2 & G3) Hg Ho Hf Hi. exists (BitVar (wv w)), (wv w + 1), [g (BitVar (wv w))].
  split; [reflexivity|]. split.
  - split; [lia|]. split.
    + constructor; [|constructor]. unfold gate_ok. destruct (Ho (wv w)) as [O1 O2].
      destruct (g (BitVar (wv w))) eqn:E; try (exists (wv w); split; auto; split; [lia|auto]). exfalso; apply O2; simpl; auto.
    + split.
      * intros r Hr. set (r' := fun x => if x =? wv w then f r else r x).
        assert (A : agree (wv w) r r').
        { intros x L. unfold r'. destruct (Z.eqb_spec x (wv w)); [lia|auto]. }
        exists r'. split; auto. constructor; [|constructor]. apply Hg. unfold r' at 1. rewrite Z.eqb_refl. auto.
      * intros r r' D D' A x L. unfold gates_true in *. rewrite Forall_forall in D, D'.
        specialize (D _ (or_introl eq_refl)). specialize (D' _ (or_introl eq_refl)).
        apply Hg in D. apply Hg in D'. destruct (Z.eq_dec x (wv w)) as [->|]; [|apply A; lia].
        rewrite D, D'. auto.
  - cbn [wv after below bval]. split; [lia|]. intros x Hx. apply after_P in Hx as [_ D]. unfold gates_true in D. rewrite Forall_forall in D.
    apply Hg. apply D. left; auto.
Qed.
Lemma sym_ret_spec A (a : A) w (Q : A -> world -> Prop) : Q a w -> sym_spec A (sym_ret a) w Q.
Proof.
  intros H. exists a, (wv w), []. split; [reflexivity|]. split; [apply run_ok_nil|]. rewrite after_nil. auto.
Qed.
Lemma sym_and2_spec w a b : good w -> below (wv w) a -> below (wv w) b ->
  sym_spec bit (sym_and2 a b) w (fun r w' => below (wv w') r /\ forall f, wP w' f -> bval f r = bval f a && bval f b).
Proof.
  intros G Ha Hb.
  assert (N : ~ const a -> ~ const b ->
    sym_spec bit (new_gate (fun v => GAnd v a b)) w (fun r w' => below (wv w') r /\ forall f, wP w' f -> bval f r = bval f a && bval f b)).
  { intros Ca Cb. apply (new_gate_spec w (fun v => GAnd v a b) (fun f => bval f a && bval f b)); simpl; try tauto.
    - intros r r' A. rewrite (bval_agree _ _ _ a A), (bval_agree _ _ _ b A); auto.
    - repeat constructor; auto. }
  assert (R : forall c, below (wv w) c -> (forall f, bval f c = bval f a && bval f b) ->
    sym_spec bit (sym_ret c) w (fun r w' => below (wv w') r /\ forall f, wP w' f -> bval f r = bval f a && bval f b)).
  { intros c Hc H. apply sym_ret_spec. split; auto. }
  destruct a as [[]|x|x], b as [[]|y|y]; try (apply R; simpl; auto; intros; rewrite ?andb_true_r, ?andb_false_r; auto; fail);
    apply N; simpl; auto.
Qed.
Lemma sym_or2_spec w a b : good w -> below (wv w) a -> below (wv w) b ->
  sym_spec bit (sym_or2 a b) w (fun r w' => below (wv w') r /\ forall f, wP w' f -> bval f r = bval f a || bval f b).
Proof.
  intros G Ha Hb.
  assert (N : ~ const a -> ~ const b ->
    sym_spec bit (new_gate (fun v => GOr v a b)) w (fun r w' => below (wv w') r /\ forall f, wP w' f -> bval f r = bval f a || bval f b)).
  { intros Ca Cb. apply (new_gate_spec w (fun v => GOr v a b) (fun f => bval f a || bval f b)); simpl; try tauto.
    - intros r r' A. rewrite (bval_agree _ _ _ a A), (bval_agree _ _ _ b A); auto.
    - repeat constructor; auto. }
  assert (R : forall c, below (wv w) c -> (forall f, bval f c = bval f a || bval f b) ->
    sym_spec bit (sym_ret c) w (fun r w' => below (wv w') r /\ forall f, wP w' f -> bval f r = bval f a || bval f b)).
  { intros c Hc H. apply sym_ret_spec. split; auto. }
  destruct a as [[]|x|x], b as [[]|y|y]; try (apply R; simpl; auto; intros; rewrite ?orb_true_r, ?orb_false_r; auto; fail);
    apply N; simpl; auto.
Qed.
Lemma sym_xor2_spec w a b : good w -> below (wv w) a -> below (wv w) b ->
  sym_spec bit (sym_xor2 a b) w (fun r w' => below (wv w') r /\ forall f, wP w' f -> bval f r = xorb (bval f a) (bval f b)).
Proof.
  intros G Ha Hb.
  assert (N : ~ const a -> ~ const b ->
    sym_spec bit (new_gate (fun v => GXor v a b)) w (fun r w' => below (wv w') r /\ forall f, wP w' f -> bval f r = xorb (bval f a) (bval f b))).
  { intros Ca Cb. apply (new_gate_spec w (fun v => GXor v a b) (fun f => xorb (bval f a) (bval f b))); simpl; try tauto.
    - intros r r' A. rewrite (bval_agree _ _ _ a A), (bval_agree _ _ _ b A); auto.
    - repeat constructor; auto. }
  assert (R : forall c, below (wv w) c -> (forall f, bval f c = xorb (bval f a) (bval f b)) ->
    sym_spec bit (sym_ret c) w (fun r w' => below (wv w') r /\ forall f, wP w' f -> bval f r = xorb (bval f a) (bval f b))).
  { intros c Hc H. apply sym_ret_spec. split; auto. }
  destruct a as [[]|x|x], b as [[]|y|y];
    try (apply R; simpl; auto; intros f; try destruct (f x); try destruct (f y); reflexivity);
    apply N; simpl; auto.
Qed.
Lemma sym_spec_conseq A m w (Q Q' : A -> world -> Prop) : good w -> sym_spec A m w Q ->
  (forall a w', le w w' -> good w' -> Q a w' -> Q' a w') -> sym_spec A m w Q'.
Proof.
  intros G (a & v1 & ds & E & R & H) F. exists a, v1, ds. split; auto. split; auto.
  apply F; auto; [apply after_le|apply after_good]; auto.
Qed.
Lemma sym_mux3_spec w s a b : good w -> below (wv w) s -> below (wv w) a -> below (wv w) b ->
  sym_spec bit (sym_mux3 s a b) w (fun r w' => below (wv w') r /\
    forall f, wP w' f -> bval f r = if bval f s then bval f b else bval f a).
Proof.
  intros G Hs Ha Hb.
  assert (N : ~ const s -> ~ const a -> ~ const b ->
    sym_spec bit (new_gate (fun v => GMux v s a b)) w (fun r w' => below (wv w') r /\ forall f, wP w' f -> bval f r = if bval f s then bval f b else bval f a)).
  { intros Cs Ca Cb. apply (new_gate_spec w (fun v => GMux v s a b) (fun f => if bval f s then bval f b else bval f a)); simpl; try tauto.
    - intros r r' A. rewrite (bval_agree _ _ _ a A), (bval_agree _ _ _ b A), (bval_agree _ _ _ s A); auto.
    - repeat constructor; auto. }
  assert (R : forall c, below (wv w) c -> (forall f, bval f c = if bval f s then bval f b else bval f a) ->
    sym_spec bit (sym_ret c) w (fun r w' => below (wv w') r /\ forall f, wP w' f -> bval f r = if bval f s then bval f b else bval f a)).
  { intros c Hc H. apply sym_ret_spec. split; auto. }
  assert (An : forall x y, below (wv w) x -> below (wv w) y ->
     (forall f, (bval f x && bval f y) = if bval f s then bval f b else bval f a) ->
     sym_spec bit (sym_and2 x y) w (fun r w' => below (wv w') r /\ forall f, wP w' f -> bval f r = if bval f s then bval f b else bval f a)).
  { intros x y Hx Hy H. eapply sym_spec_conseq; [auto|apply sym_and2_spec; auto|]. intros r w' _ _ [K1 K2].
    split; auto. intros f Hf. rewrite K2; auto. }
  assert (O : forall x y, below (wv w) x -> below (wv w) y ->
     (forall f, (bval f x || bval f y) = if bval f s then bval f b else bval f a) ->
     sym_spec bit (sym_or2 x y) w (fun r w' => below (wv w') r /\ forall f, wP w' f -> bval f r = if bval f s then bval f b else bval f a)).
  { intros x y Hx Hy H. eapply sym_spec_conseq; [auto|apply sym_or2_spec; auto|]. intros r w' _ _ [K1 K2].
    split; auto. intros f Hf. rewrite K2; auto. }
  destruct s as [[]|z|z]; [apply R; simpl; auto|apply R; simpl; auto| |];
  destruct a as [[]|x|x], b as [[]|y|y]; unfold sym_mux3;
    first [ apply R; [simpl; auto|simpl; intros f; destruct (f z); reflexivity]
          | apply N; simpl; auto
          | apply An; [simpl; auto|simpl; auto|simpl; intros f; destruct (f z); try destruct (f x); try destruct (f y); reflexivity]
          | apply O; [simpl; auto|simpl; auto|simpl; intros f; destruct (f z); try destruct (f x); try destruct (f y); reflexivity] ].
Qed.

Definition sym_logic : logic sym_circuit.
Proof.
  refine {| ok := good; spec := sym_spec |}.
  - tauto.
  - intros A a w Q _ H. apply sym_ret_spec; auto.
  - intros A B m f w Q Q' G (a & v1 & ds & E & R & H) F.
    destruct (F a (after w v1 ds) (after_le _ _ _ R) (after_good _ _ _ G R) H) as (b & v2 & ds2 & E2 & R2 & H2).
    exists b, v2, (ds ++ ds2). split; [|split].
    + cbn [bindM sym_circuit]. unfold sym_bind. rewrite E. cbn [wv after] in E2. rewrite E2. auto.
    + eapply run_ok_app; eauto.
    + rewrite <- (after_app w v1 ds v2 ds2). auto.
  - apply sym_spec_conseq.
  - intros w a G H. apply sym_ret_spec. split; [apply below_notBit; auto|]. intros; apply bval_notBit.
  - intros w a x G H F. cbn [assert1 sym_circuit]. unfold sym_assert1.
    assert (N : ~ const a -> sym_spec unit (fun v => Done tt v [GAssert a x]) w (fun _ _ => True)).
    { intros C. exists tt, (wv w), [GAssert a x]. split; [reflexivity|]. split; auto. split; [lia|].
      split; [constructor; [split; auto|constructor]|]. split.
      - intros r Hr. exists r. split; [intros y _; auto|]. constructor; [|constructor]. simpl. auto.
      - intros r r' _ _ A. auto. }
    destruct a as [y|y|y]; [|apply N; simpl; auto|apply N; simpl; auto].
    destruct G as (_ & _ & r & Hr). specialize (F r Hr). simpl in F. subst x. rewrite Bool.eqb_reflx. apply sym_ret_spec. auto.
  - exact sym_and2_spec.
  - exact sym_or2_spec.
  - exact sym_xor2_spec.
  - exact sym_mux3_spec.
Defined.
