(* SpecSabry.v -- vocabulary for the generator's command line and the script.  Definitions only. *)
From Coq Require Import String Ascii ZArith List Bool.
From Verif Require Import PyBase MText.
Import ListNotations.
Open Scope Z_scope.

(* a text of comments only *)
Definition only_comments (t : text) : Prop := Forall (fun l => l = [] \/ exists r, l = "c"%char :: r) (split_on newline t).
(* what is in a file after these files were written, one after the other *)
Fixpoint content (written : list (text * text)) (name : text) : option text :=
  match written with
  | [] => None
  | (f, t) :: more =>
      match content more name with
      | Some u => Some u
      | None => if text_eqb f name then Some t else None
      end
  end.
(* a number of the shell *)
Definition shell_sized (z : Z) : Prop := - 2 ^ 63 <= z < 2 ^ 63.
Definition benchmark_file (i : text) : text := txt "../inputs/test_cases/Benchmarks/Factoring" ++ i ++ txt ".txt".
