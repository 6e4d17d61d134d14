(* PProg.v -- the program around an arbitrary solver. *)
From Coq Require Import String Ascii ZArith List Bool Lia Permutation Sorted.
From Verif Require Import Spec PyBase MSet MText MQueue MDb MSolver MMain MStack SpecInput SpecRun SpecStack PLib PMain PUnits PP5.
Import ListNotations.
Open Scope Z_scope.

Lemma run_with_eq hash solve a cnf fi mi db : clauses cnf <> [] ->
  (forall h, solve (set_hash cnf h) db = solve cnf db) ->
  run_with hash solve a cnf fi mi db = (out <- solve cnf db ;; report a cnf fi mi out).
Proof.
  intros Hc Hs. unfold run_with. destruct (get_hash_ok hash cnf Hc) as (h & s' & E).
  destruct (clauses cnf) eqn:Ec; [congruence|]. cbn [andb]. rewrite E. cbn [bind].
  apply get_hash_shape in E as [->| ->]; [reflexivity|]. rewrite Hs. reflexivity.
Qed.
Lemma main_plain hash solve a i db s : get_cnf_set i = Ok s -> clauses s <> [] ->
  a_factorize a = false -> a_multiply a = None -> (forall h, solve (set_hash s h) db = solve s db) ->
  main_with hash solve a i db = catch (out <- solve s db ;; report a s None None out).
Proof.
  intros Hg Hc Hf Hm Hs. unfold main_with. rewrite Hg. cbn [bind]. unfold preprocess_with. rewrite Hf, Hm.
  rewrite run_with_eq by auto. reflexivity.
Qed.
Lemma limited_hash limit hash ifl fuel lf o root db h :
  solve_set_limited limit hash ifl fuel lf o (set_hash root h) db = solve_set_limited limit hash ifl fuel lf o root db.
Proof.
  unfold solve_set_limited. pose proof (prepare_root_hash h hash lf o root) as Q. unfold PMain.H in Q. rewrite Q. reflexivity.
Qed.

(* reading unit clauses *)
Lemma reads_singles : forall vs i G, reads i (singles vs) G -> (forall v, In v vs -> 0 < v) -> map snd G = singles vs.
Proof.
  induction vs as [|v vs IH]; intros i G H P; cbn [singles map] in H; inversion H; subst; auto.
  - exfalso. match goal with Hc : complementary _ |- _ => destruct Hc as (x & X0 & [<-|[]] & [Hx|[]]) end. specialize (P _ (or_introl eq_refl)). lia.
  - cbn [map snd singles]. f_equal; [|eapply IH; [eassumption|]; intros w Hw; apply P; right; auto].
    match goal with Ha : forall l, In l d <-> _, Hb : distinct_vars d |- _ => rename Ha into J4; rename Hb into J5 end.
    destruct d as [|a d].
    + exfalso. apply (proj2 (J4 v)). left; auto.
    + assert (a = v) as -> by (destruct (proj1 (J4 a) (or_introl eq_refl)) as [->|[]]; auto).
      destruct d as [|b d]; auto. exfalso.
      assert (b = v) as -> by (destruct (proj1 (J4 b) (or_intror (or_introl eq_refl))) as [->|[]]; auto).
      unfold distinct_vars in J5. cbn in J5. inversion J5; subst. match goal with Hn : ~ _ |- False => apply Hn end. left. auto.
Qed.
