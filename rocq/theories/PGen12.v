(* PGen12.v -- simulations that fail. *)
From Coq Require Import ZArith List Bool Lia Arith.
From Verif Require Import Spec MGen SpecGen PGen1 PGen2 PGen3 PGen4.
Import ListNotations.
Open Scope Z_scope.

Lemma std_nots l : belows 1 l -> exists zs, mapM std_circuit (not1 std_circuit) l = Std zs /\ belows 1 zs /\
  Forall2 (fun x y => forall f, bval f y = negb (bval f x)) l zs.
Proof.
  induction l as [|b l IH]; intros H; [exists []; repeat split; constructor|]. inversion H as [|? ? H1 H2]; subst.
  destruct (IH H2) as (zs & E & B & F). apply below_1 in H1 as [x ->]. exists (Bool (negb x) :: zs).
  cbn [mapM not1 std_circuit bindM std_bind]. cbn [not1 std_circuit] in E. rewrite E. cbn [ret std_circuit].
  split; auto. split; constructor; cbn; auto.
Qed.
Lemma test_sub_negative x y : 0 <= x < y -> test_sub x y = None.
Proof.
  intros H. unfold test_sub, subt. set (xs := int2bits x). set (ys := int2bits y). set (size := max (length xs) (length ys)).
  assert (Bx : belows 1 xs) by apply int2bits_consts. assert (By : belows 1 ys) by apply int2bits_consts.
  destruct (std_nots (padded size ys)) as (zs & E & B & F); [apply (padded_below 1); auto|].
  cbn [bindM std_circuit]. change (fun a : bit => match a with Bool x0 => Std (Bool (negb x0)) | _ => StdFails PatternFailed end) with (not1 std_circuit).
  change {| ret := _; bindM := _; failM := _; not1 := _; assert1 := _; and2 := _; or2 := _; xor2 := _; mux3 := _ |} with std_circuit.
  rewrite E. cbn [std_bind not1 std_circuit low negb].
  change {| ret := _; bindM := _; failM := _; not1 := _; assert1 := _; and2 := _; or2 := _; xor2 := _; mux3 := _ |} with std_circuit.
  destruct (n_adder_carry_spec std_circuit std_logic std_world (padded size xs) zs (Bool true) std_world_ok) as ([sum co] & -> & A1 & A2 & A3 & A4).
  { apply (padded_below 1); auto. } { exact B. } { cbn. auto. }
  assert (Lz : length zs = size) by (rewrite <- (f2_length _ _ _ F), padded_length; auto).
  cbn [std_bind fst snd] in *. assert (W : wP std_world (fun _ => false)) by (split; cbn; auto; constructor).
  specialize (A4 _ W). rewrite padded_length, Lz, Nat.max_id in A3, A4.
  rewrite nval_padded in A4 by lia. rewrite (nval_negated (fun _ => false) (padded size ys) zs) in A4.
  2: { clear -F. induction F; constructor; auto. }
  rewrite padded_length, nval_padded in A4 by lia. unfold xs at 1 in A4. unfold ys at 1 in A4. rewrite !int2bits_nval in A4 by lia.
  destruct (below_1 co A2) as [c ->]. cbn [bval b2z] in A4. pose proof (nval_range (fun _ => false) sum) as R. rewrite A3 in R.
  destruct c; cbn [b2z] in A4; [lia|]. reflexivity.
Qed.
Lemma carry_save_zero a x y : x = 0 \/ y = 0 -> test_multiplier a CarrySave x y = None.
Proof.
  unfold test_multiplier. cbn [multiplier_of]. destruct (Z.eq_dec y 0) as [->|Ny]; [intros _; reflexivity|]. intros [->|]; [|congruence].
  change (int2bits 0) with (@nil bit). unfold carry_save_multiplier. destruct (int2bits y) as [|b t]; [reflexivity|]. cbn.
  destruct t; reflexivity.
Qed.
