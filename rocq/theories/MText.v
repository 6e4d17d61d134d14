(* MText.v -- textual side of Set.py: Set(str_input), serialize_properties,
   deserialize_properties; and of InputReader.py. *)
From Coq Require Import String Ascii ZArith List Bool.
From Verif Require Import PyBase MSet.
Import ListNotations.
Open Scope Z_scope.

(* all-or-nothing map, None = some element raised ValueError *)
Fixpoint mapO {A B} (f : A -> option B) (l : list A) : option (list B) :=
  match l with
  | [] => Some []
  | x :: t => match f x, mapO f t with Some y, Some ys => Some (y :: ys) | _, _ => None end
  end.

(* Set.py:45-56: replace '(' and ')', split at '&' and '|', int(), frozenset.
   A frozenset has no defined enumeration order; the model enumerates in order of first
   occurrence (Properties: clause_enumeration_irrelevant justifies this). *)
Definition parse_clause (t : text) : option (list Z) :=
  option_map dedup (mapO py_int (split_on "|"%char t)).
Definition parse_clauses (t : text) : option (list (list Z)) :=
  mapO parse_clause (split_on "&"%char (remove_char ")"%char (remove_char "("%char t))).

(* Set.py:58-64, InputReader.py:142-149: Clause objects numbered from i are added in order *)
Fixpoint add_numbered (s : cset) (i : Z) (cls : list (list Z)) : cset :=
  match cls with
  | [] => s
  | c :: t => add_numbered (add_clause s (with_index (clause_init c) i)) (i + 1) t
  end.

(* Set.py:43-67: an exception while parsing is printed and leaves the set empty *)
Definition set_of_text (t : text) : cset :=
  match t with
  | [] => empty_set
  | _ => match parse_clauses t with
         | Some cls => add_numbered empty_set 1 cls
         | None => empty_set
         end
  end.

(* ---- Set.py:107-126: serialize_properties ---- *)
Definition comma := txt ",".
Definition str_dict (d : list (Z * Z)) : text :=
  txt "{" ++ join (txt ", ") (map (fun kv => str_Z (fst kv) ++ txt ": " ++ str_Z (snd kv)) d)
  ++ txt "}".
Definition str_list (l : list Z) : text := txt "[" ++ join (txt ", ") (map str_Z l) ++ txt "]".
Definition true_keys (d : list (Z * bool)) : list Z := map fst (filter snd d).
Definition false_keys (d : list (Z * bool)) : list Z :=
  map fst (filter (fun kv => negb (snd kv)) d).
Definition serialize_properties (s : cset) : text :=
  (join comma (map str_Z (true_keys (evaluated_vars s))) ++ txt "-"
   ++ join comma (map str_Z (false_keys (evaluated_vars s))))
  ++ txt "|" ++ str_dict (original_values s) ++ txt "|" ++ str_list (final_names_map s).

(* ---- Set.py:77-103: deserialize_properties ---- *)
(* ast.literal_eval on the shapes written by str(dict) / str(list): the text between the brackets
   is split at commas (and colons) and each part read as an integer. *)
Definition drop_last {A} (l : list A) : list A := rev (tl (rev l)).
Definition inner (open close : ascii) (t : text) : option text :=
  match t, rev t with
  | o :: _, c :: _ =>
      if Ascii.eqb o open && Ascii.eqb c close && (2 <=? List.length t)%nat
      then Some (drop_last (tl t)) else None
  | _, _ => None
  end.
Definition parse_pair (t : text) : option (Z * Z) :=
  match split_on ":"%char t with
  | [a; b] => match py_int a, py_int b with Some x, Some y => Some (x, y) | _, _ => None end
  | _ => None
  end.
Definition literal_eval_dict (t : text) : option (list (Z * Z)) :=
  match inner "{"%char "}"%char t with
  | None => None
  | Some [] => Some []
  | Some b => option_map (dupdate Z.eqb []) (mapO parse_pair (split_on ","%char b))
  end.
Definition literal_eval_list (t : text) : option (list Z) :=
  match inner "["%char "]"%char t with
  | None => None
  | Some [] => Some []
  | Some b => mapO py_int (split_on ","%char b)
  end.

(* {v: flag for v in map(int, vars.split(','))}, skipped for the empty string *)
Definition eval_vars_part (flag : bool) (t : text) : result (list (Z * bool)) :=
  match t with
  | [] => Ok []
  | _ => l <- of_option ValueError (mapO py_int (split_on ","%char t)) ;;
         Ok (map (fun v => (v, flag)) l)
  end.
Definition parse_evaluated (t : text) : result (list (Z * bool)) :=
  match t with
  | [] => Ok []
  | _ =>
      match split_on "-"%char t with
      | [tv; fv] =>
          a <- eval_vars_part true tv ;;
          b <- eval_vars_part false fv ;;
          Ok (dupdate Z.eqb (dupdate Z.eqb [] a) b)
      | _ => Err ValueError
      end
  end.
Definition deserialize_properties (s : cset) (properties : text) : result cset :=
  match split_on "|"%char properties with
  | [ev; ov; fn] =>
      e <- parse_evaluated ev ;;
      o <- match ov with [] => Ok [] | _ => of_option ValueError (literal_eval_dict ov) end ;;
      f <- match fn with [] => Ok [] | _ => of_option ValueError (literal_eval_list fn) end ;;
      Ok (set_names (set_original (set_evaluated s e) o) f)
  | _ => Err ValueError
  end.

(* Set(body, properties=properties) (Set.py:31-71) *)
Definition set_init (body properties : text) : result cset :=
  match properties with
  | [] => Ok (set_of_text body)
  | _ => deserialize_properties (set_of_text body) properties
  end.

(* ---- InputReader.py ---- *)
Inductive input :=
| InSL (t : text)            (* -l: the text itself *)
| InSLF (content : text)     (* -lf: content of the file, newlines already translated to \n *)
| InDimacs (content : text). (* -d *)

Definition newline : ascii := ascii_of_nat 10.

(* InputReader.py:109-132: the tokens of one clause line.  State: literals of the open clause and
   the closed clauses so far (as literal lists; frozenset() is applied when the Clause is built). *)
Fixpoint dimacs_tokens (toks : list text) (cl : list Z) (done : list (list Z))
  : result (list Z * list (list Z)) :=
  match toks with
  | [] => Ok (cl, done)
  | [] :: t => dimacs_tokens t cl done
  | el :: t =>
      match py_int el with
      | None => Err OtherException
      | Some iel =>
          if (iel =? 0) then
            match cl with
            | [] => dimacs_tokens t cl done
            | _ => if (3 <? List.length cl)%nat then Err OtherException
                   else dimacs_tokens t [] (done ++ [dedup cl])
            end
          else dimacs_tokens t (cl ++ [iel]) done
      end
  end.

(* InputReader.py:91-135: the loop over the lines after the first.  readline() at end of file
   returns '', which is also what a blank line strips to: both end the loop. *)
Fixpoint dimacs_lines (ls : list text) (cl : list Z) (done : list (list Z))
  : result (list Z * list (list Z)) :=
  match ls with
  | [] => Ok (cl, done)
  | l :: t =>
      let dline := strip is_uspace l in
      match dline with
      | [] => Ok (cl, done)
      | _ =>
          if starts_with (txt "c") dline then dimacs_lines t cl done
          else if starts_with (txt "p") dline then
            match split_ws dline with
            | [_; _; _; _] => dimacs_lines t cl done
            | _ => Err OtherException
            end
          else
            '(cl', done') <- dimacs_tokens (split_on " "%char dline) cl done ;;
            dimacs_lines t cl' done'
      end
  end.

(* InputReader.py:77-153.  The first line is consumed unseen; an empty file has no lines. *)
Definition parse_dimacs (content : text) : result cset :=
  '(cl, done) <- dimacs_lines (tl (split_on newline content)) [] [] ;;
  let all := match cl with [] => done | _ => done ++ [dedup cl] end in
  Ok (add_numbered empty_set 1 all).

(* InputReader.py:45-64 and 158-172.  For -l, get_cnf_set uses [seq] without assigning it. *)
Definition get_cnf_set (i : input) : result cset :=
  match i with
  | InSL [] => Err OtherException
  | InSL _ => Err UnboundLocalError
  | InSLF content => Ok (set_of_text (hd [] (split_on newline content)))
  | InDimacs content => parse_dimacs content
  end.

Example slf_ex :
  raws (set_of_text (txt "(6|3|-5)&2|-2|1&3|1|3")) = [[3; -5; 6]; [1; 3]].
Proof. reflexivity. Qed.
Example dimacs_ex :
  match get_cnf_set (InDimacs (txt "c x
p cnf 3 2
1 -1 0
2 1 0")) with Ok s => raws s | _ => [] end = [[1; 2]].
Proof. reflexivity. Qed.
