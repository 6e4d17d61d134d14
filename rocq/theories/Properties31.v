(* Properties31.v -- generated by tools/genprops.py from PP31.v: property theorems, their
   assumptions, and examples showing that the hypotheses are met.  Proofs are in PP31.v. *)
From Coq Require Import String Ascii ZArith List Bool Lia Arith Permutation.
From Verif Require Import Spec SpecInput SpecFile SpecCnf SpecFam SpecTrans PyBase MSet MText MCnf MFam MFam2 MTrans MFile MTool MGraph MGenCmd SpecTool SpecGraph SpecGenCmd SpecPipe.
From Verif Require Import PLib PCnf1 PCnf2 PP16 PP21 PGenCmd0 PGenCmd3 PGenCmd7 PGenCmd8 PPipe1 PPipe4 PPipe5.
Import ListNotations.
From Verif Require Import PP31.
Open Scope Z_scope.

(* C92: cnfgen ... -T t prints the formula that cnfgen ... | dimacstransform t prints; only the comments at the
   beginning differ, and with -q on both sides there are none.  The two ways also fail together, for a compression
   by a graph of another size *)
Theorem C92_pipe : forall E pl pt header prog w0 ws l ts w t input verbose out,
  understood pl pt prog w0 ws l (map Some ts) -> ~ In (txt "-T") w -> pt w = Gives (Some t) -> drawn t ->
  cnfgen E pl pt header (typed prog w0 ws) input = Gives out ->
  let run := cnfgen E pl pt header (typed prog w0 (ws ++ [w])) input in
  (exists out1 out2, dimacstransform t verbose out = Ok out1 /\ run = Gives out2 /\ same_formula out1 out2 /\
     (verbose = false -> pl_verbose l = false -> out1 = out2)) \/
  (compresses t /\ dimacstransform t verbose out = Err SystemExit /\ run = Exits (-1)).
Proof. exact p_C92_pipe. Qed.
Print Assumptions C92_pipe.

(* C92: and where cnfgen without the last -T prints nothing, it ends in the same way with it *)
Theorem C92_failures : forall E pl pt header prog w0 ws l ts w t input,
  understood pl pt prog w0 ws l ts -> ~ In (txt "-T") w -> pt w = Gives (Some t) ->
  let before := cnfgen E pl pt header (typed prog w0 ws) input in
  let after := cnfgen E pl pt header (typed prog w0 (ws ++ [w])) input in
  (pl_latex l = false -> (forall out, before <> Gives out) -> after = before) /\
  ((forall out, before <> Gives out) -> forall out, after <> Gives out).
Proof. exact p_C92_failures. Qed.
Print Assumptions C92_failures.

(* C92: several transformations: a pipeline of one dimacstransform after another *)
Theorem C92_pipeline : forall E pl pt header prog w0 ws l ts input verbose out,
  understood pl pt prog w0 ws l (map Some ts) -> Forall drawn ts ->
  cnfgen E pl pt header (typed prog w0 []) input = Gives out ->
  let run := cnfgen E pl pt header (typed prog w0 ws) input in
  (exists out1 out2, pipe ts verbose out = Ok out1 /\ run = Gives out2 /\ same_formula out1 out2 /\
     (verbose = false -> pl_verbose l = false -> out1 = out2)) \/
  (Exists compresses ts /\ pipe ts verbose out = Err SystemExit /\ run = Exits (-1)).
Proof. exact p_C92_pipeline. Qed.
Print Assumptions C92_pipeline.

(* C92: kthlist2pebbling t is kthlist2pebbling none | dimacstransform t, and prints the formula of cnfgen peb -T t
   on the same input *)
Theorem C92_pebbling : forall t verbose verbose0 input out, drawn t -> kthlist2pebbling T_none verbose0 input = Ok out ->
  (exists out1 out2, dimacstransform t verbose out = Ok out1 /\ kthlist2pebbling t verbose input = Ok out2 /\ same_formula out1 out2 /\
     (verbose = false -> out1 = out2) /\
     (forall E pl pt header prog w0 w l, understood pl pt prog w0 [w] l [Some t] -> pl_latex l = false -> pl_generator l = Some (G_peb (D_stdin F_kthlist)) ->
        exists out3, cnfgen E pl pt header (typed prog w0 [w]) input = Gives out3 /\ same_formula out2 out3 /\
          (verbose = false -> pl_verbose l = false -> out2 = out3))) \/
  (compresses t /\ dimacstransform t verbose out = Err SystemExit /\ kthlist2pebbling t verbose input = Err SystemExit /\
     (forall E pl pt header prog w0 w l, understood pl pt prog w0 [w] l [Some t] -> pl_generator l = Some (G_peb (D_stdin F_kthlist)) ->
        cnfgen E pl pt header (typed prog w0 [w]) input = Exits (-1))).
Proof. exact p_C92_pebbling. Qed.
Print Assumptions C92_pebbling.

(* cnfgen -q php 2 1 -T or 2 and cnfgen -q php 2 1 | dimacstransform -q or 2: the same text *)
Definition php_words : list text := [txt "-q"; txt "php"; txt "2"; txt "1"].
Definition php_quiet : parsed_line := mkParsedLine (Some (G_php 2 1 false false)) false false.
Definition parse_or (w : list text) : outcome (option transformation) := if list_eq_dec (list_eq_dec ascii_dec) w [txt "or"; txt "2"] then Gives (Some (T_or 2)) else Exits 2.
Example ex_C92_pipe : exists out out', let php := cnfgen (fun _ => some_chance) (fun _ => Gives php_quiet) parse_or (txt "A header" ++ [nl]) in
  php (typed (txt "cnfgen") php_words []) [] = Gives out /\
  dimacstransform (T_or 2) false out = Ok out' /\ php (typed (txt "cnfgen") php_words [[txt "or"; txt "2"]]) [] = Gives out' /\ out <> out'.
Proof. eexists. eexists. cbv zeta. split; [vm_compute; reflexivity|]. split; [vm_compute; reflexivity|]. split; [vm_compute; reflexivity|]. discriminate. Qed.
Example ex_C92_understood : understood (fun _ => Gives php_quiet) parse_or (txt "cnfgen") php_words [[txt "or"; txt "2"]] php_quiet (map Some [T_or 2]) /\ Forall drawn [T_or 2].
Proof.
  split; [|repeat constructor]. constructor; [|constructor; [|constructor]| |repeat constructor]; try reflexivity.
  - intros H. cbn [In php_words] in H. repeat (destruct H as [H|H]; [vm_compute in H; discriminate|]). destruct H.
  - intros H. cbn [In] in H. repeat (destruct H as [H|H]; [vm_compute in H; discriminate|]). destruct H.
Qed.
(* reversing a list is a way of shuffling that looks at places only *)
Example ex_C92_drawn : drawn (T_shuffle (mkShuffling false false false (@rev text) (@rev Z) (fun _ => 1))).
Proof. split; [constructor; intros; [symmetry; apply Permutation_rev|symmetry; apply Permutation_rev|left; reflexivity]|]. intros f l. symmetry. apply map_rev. Qed.
(* two vertices and one arc, exclusive ors of two variables *)
Example ex_C92_pebbling : exists out out', kthlist2pebbling T_none true (ended [txt "2"; txt "1 : 0"; txt "2 : 1 0"]) = Ok out /\
  dimacstransform (T_xor 2) false out = Ok out' /\ kthlist2pebbling (T_xor 2) false (ended [txt "2"; txt "1 : 0"; txt "2 : 1 0"]) = Ok out'.
Proof. eexists. eexists. split; [vm_compute; reflexivity|]. split; vm_compute; reflexivity. Qed.
