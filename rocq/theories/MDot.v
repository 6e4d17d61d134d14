(* MDot.v -- the labels of the drawn graph (PatternSolver.py:353-356, 505-509). *)
From Coq Require Import String Ascii ZArith List Bool.
From Verif Require Import Spec PyBase MSet MText MQueue MDb MSolver MMain MProc MShare MCli MReport.
Import ListNotations.
Open Scope Z_scope.

(* the sets handed to dot.node with the names of their boxes, in order *)
Definition dot_boxes (l : list dotcmd) : list (digest * cset) :=
  flat_map (fun c => match c with DotNode i s => [(i, s)] | _ => [] end) l.

(* PatternSolver.py:354-355, second argument of dot.node, from child_str_after on.  Simplification: the line before
   it, child_str_before (the set as evaluate made it), is left out.  "\\n" is a backslash and an n. *)
Definition node_label (s : cset) : result text :=
  after <- to_pretty s ;;
  Ok (after ++ mark ++ txt "fnm = " ++ str_list (final_names_map s) ++ mark ++
      txt "ov = " ++ str_dict (original_values s) ++ mark ++
      txt "sol = " ++ str_solution (Some (evaluated_vars s)) ++
      txt ", highest occuring var = " ++ str_Z (highest_occurring_var s)).

(* PatternSolver.py:482 and 508-509 for the first box, :353-355 for the others *)
Definition dot_labels (root : cset) (l : list dotcmd) : result (list (digest * text)) :=
  before <- to_pretty root ;;
  match dot_boxes l with
  | [] => Ok []
  | (i, r) :: t =>
      after <- to_pretty r ;;
      rest <- mapM (fun b => lb <- node_label (snd b) ;; Ok (fst b, lb)) t ;;
      Ok ((i, before ++ mark ++ after) :: rest)
  end.
