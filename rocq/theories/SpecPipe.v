(* SpecPipe.v -- programs connected by pipes.  Definitions only. *)
From Coq Require Import String Ascii ZArith List Bool.
From Verif Require Import Spec SpecInput SpecFile PyBase MText MCnf MFam MFam2 MFile MTrans MTool SpecFam SpecTool.
Import ListNotations.
Open Scope Z_scope.

(* what argparse, the reader of graphs and random deliver: a bipartite graph for a compression; random.shuffle permutes the
   places of a list, whatever is in them, so the same seed moves the variables of two formulas alike *)
Definition drawn (t : transformation) : Prop :=
  match t with
  | T_shuffle s => fair_shuffling s /\ forall (f : text -> text) l, sh_variables s (map f l) = map f (sh_variables s l)
  | T_xorcomp b | T_majcomp b => bipartite_graph b
  | _ => True
  end.
(* two files with the same contents after the comments at the beginning *)
Definition same_formula (o1 o2 : text) : Prop := exists cs1 cs2 rest,
  Forall (fun l => one_line l /\ hd_error l = Some "c"%char) cs1 /\ Forall (fun l => one_line l /\ hd_error l = Some "c"%char) cs2 /\
  o1 = ended cs1 ++ "p"%char :: rest /\ o2 = ended cs2 ++ "p"%char :: rest.
(* dimacstransform t1 | dimacstransform t2 | ... *)
Fixpoint pipe (ts : list transformation) (verbose : bool) (input : text) : result text :=
  match ts with [] => Ok input | t :: rest => out <- dimacstransform t verbose input ;; pipe rest verbose out end.
