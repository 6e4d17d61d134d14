(* MArgs.v -- the command line of main.py as words: main.py:136-169 and 188, and the part of Python's argparse module that this parser uses (the
   version of Python 3.11.10: parse_args, _parse_known_args, _parse_optional, _get_option_tuples, _match_argument, _get_values,
   FileType).  Simplifications: words are ASCII; messages are not modelled, only exit statuses; the environment gives the
   content of the files that can be opened and of the standard input. *)
From Coq Require Import String Ascii ZArith List Bool.
From Verif Require Import PyBase MSet MText MQueue MDb MSolver MMain MProc MShare MCli.
Import ListNotations.
Open Scope Z_scope.

(* the options, main.py:138-169 and argparse's own -h *)
Inductive opt :=
| Ohelp | Ov | Ovv | Oq | Oqn | Ol | Olf | Od | Og | Os | Ons | Ot | Oe | Overify | Ordb | Ogdb | Ognm | Oz | Othief | Ofact
| Omult | Om | Oversion.
Definition opt_eqb (a b : opt) : bool :=
  match a, b with
  | Ohelp, Ohelp | Ov, Ov | Ovv, Ovv | Oq, Oq | Oqn, Oqn | Ol, Ol | Olf, Olf | Od, Od | Og, Og | Os, Os | Ons, Ons | Ot, Ot
  | Oe, Oe | Overify, Overify | Ordb, Ordb | Ogdb, Ogdb | Ognm, Ognm | Oz, Oz | Othief, Othief | Ofact, Ofact | Omult, Omult
  | Om, Om | Oversion, Oversion => true
  | _, _ => false
  end.
(* parser._option_string_actions, in the order of the calls of add_argument *)
Definition option_table : list (text * opt) :=
  [(txt "-h", Ohelp); (txt "--help", Ohelp);
   (txt "-v", Ov); (txt "--verbos", Ov); (txt "-vv", Ovv); (txt "--very-verbos", Ovv); (txt "-q", Oq); (txt "--quiet", Oq);
   (txt "-qn", Oqn); (txt "--quiet-but-unique-nodes", Oqn);
   (txt "-l", Ol); (txt "--line-input", Ol); (txt "-lf", Olf); (txt "--line-input-file", Olf); (txt "-d", Od); (txt "--dimacs", Od);
   (txt "-g", Og); (txt "--output-graph-file", Og); (txt "-s", Os); (txt "--output-solution-file", Os);
   (txt "-ns", Ons); (txt "--no-stats", Ons); (txt "-t", Ot); (txt "--threads", Ot); (txt "-e", Oe); (txt "--exit-upon-solving", Oe);
   (txt "-verify", Overify); (txt "--verify", Overify); (txt "-rdb", Ordb); (txt "--use-runtime-db", Ordb);
   (txt "-gdb", Ogdb); (txt "--use-global-db", Ogdb); (txt "-gnm", Ognm); (txt "--gdb-no-mem", Ognm);
   (txt "-z", Oz); (txt "--sort-by-size", Oz); (txt "-thief", Othief); (txt "--thief-method", Othief);
   (txt "-fact", Ofact); (txt "--factorize", Ofact); (txt "-mult", Omult); (txt "--multiply", Omult);
   (txt "-m", Om); (txt "--mode", Om); (txt "--version", Oversion)].
(* the number of values an option takes: nargs *)
Definition arity (o : opt) : nat :=
  match o with Ol | Olf | Od | Og | Ot | Om => 1%nat | Omult => 2%nat | _ => 0%nat end.

Fixpoint find_option (w : text) (l : list (text * opt)) : option opt :=
  match l with [] => None | (s, o) :: t => if text_eqb s w then Some o else find_option w t end.
Definition lookup (w : text) : option opt := find_option w option_table.
(* str.partition('=') *)
Fixpoint partition_eq (w : text) : option (text * text) :=
  match w with
  | [] => None
  | c :: t => if Ascii.eqb c "="%char then Some ([], t)
              else match partition_eq t with Some (a, b) => Some (c :: a, b) | None => None end
  end.
Definition is_dash (c : ascii) : bool := Ascii.eqb c "-"%char.
Definition second_dash (w : text) : bool := match w with _ :: c :: _ => is_dash c | _ => false end.
(* _negative_number_matcher, the pattern ^-\d+$|^-\d*\.\d+$ ; $ also matches before a final newline *)
Definition dec_digit (c : ascii) : bool := match digit_val c with Some _ => true | None => false end.
Definition chop_newline (w : text) : text := match rev w with c :: r => if Ascii.eqb c newline then rev r else w | [] => w end.
Fixpoint skip_digits (w : text) : text := match w with c :: t => if dec_digit c then skip_digits t else w | [] => [] end.
Definition some_digits (w : text) : bool := match w with [] => false | _ => forallb dec_digit w end.
Definition negative_number (w : text) : bool :=
  match chop_newline w with
  | c :: t => is_dash c && (some_digits t || match skip_digits t with d :: t' => Ascii.eqb d "."%char && some_digits t' | [] => false end)
  | [] => false
  end.

(* _get_option_tuples: the option strings a word may stand for, with the value it carries (true: after =) *)
Definition option_tuples (w : text) : list (text * opt * option (bool * text)) :=
  if second_dash w
  then let '(p, e) := match partition_eq w with Some (p, v) => (p, Some (true, v)) | None => (w, None) end in
       map (fun so => (so, e)) (filter (fun so => starts_with p (fst so)) option_table)
  else map (fun so => (so, if text_eqb (fst so) (firstn 2 w) then Some (false, skipn 2 w) else None))
           (filter (fun so => text_eqb (fst so) (firstn 2 w) || starts_with w (fst so)) option_table).

(* _parse_optional.  NoOpt: looks like an option but is none; two: the option string begins with two dashes *)
Inductive class := Arg | NoOpt | Ambiguous | Opt (o : opt) (two : bool) (e : option (bool * text)).
Definition classify (w : text) : class :=
  match w with
  | [] => Arg
  | c :: t =>
      if negb (is_dash c) then Arg
      else match lookup w with
      | Some o => Opt o (second_dash w) None
      | None =>
          match t with
          | [] => Arg
          | _ =>
              match (match partition_eq w with Some (s, v) => option_map (fun o => Opt o (second_dash s) (Some (true, v))) (lookup s) | None => None end) with
              | Some cl => cl
              | None =>
                  match option_tuples w with
                  | [(s, o, e)] => Opt o (second_dash s) e
                  | _ :: _ => Ambiguous
                  | [] => if negative_number w then Arg else if existsb (Ascii.eqb " "%char) w then Arg else NoOpt
                  end
              end
          end
      end
  end.
(* the first loop of _parse_known_args: after -- everything is an argument; -- itself is neither an option nor one.
   None: an ambiguous word, which ends the program at once *)
Fixpoint classes (ws : list text) : option (list (text * class)) :=
  match ws with
  | [] => Some []
  | w :: t =>
      if text_eqb w (txt "--") then Some ((w, NoOpt) :: map (fun v => (v, Arg)) t)
      else match classify w with
           | Ambiguous => None
           | c => option_map (cons (w, c)) (classes t)
           end
  end.

(* consume_optional: what a word that carries a value comes to.  The options collected first take no value *)
Inductive consumed :=
| CError
| CExtra (fs : list opt)                  (* these options, and then something unknown *)
| CValue (fs : list opt) (o : opt) (v : text)
| CNext (fs : list opt) (o : opt).        (* the values of o are the next words *)
Fixpoint cluster (fs : list opt) (o : opt) (ex : text) : consumed :=
  match ex with
  | [] => CError
  | c :: ex' =>
      if is_dash c then CError
      else match lookup ["-"%char; c] with
      | None => CExtra (fs ++ [o])
      | Some o' =>
          match ex' with
          | [] => CNext (fs ++ [o]) o'
          | e0 :: ex'' =>
              let sep := Ascii.eqb e0 "="%char in
              match arity o' with
              | 1%nat => CValue (fs ++ [o]) o' (if sep then ex'' else ex')
              | 2%nat => CError
              | _ => if sep then CError else cluster (fs ++ [o]) o' ex'
              end
          end
      end
  end.
Definition consume_word (o : opt) (two : bool) (e : option (bool * text)) : consumed :=
  match e with
  | None => CNext [] o
  | Some (sep, ex) =>
      match arity o with
      | 1%nat => CValue [] o ex
      | 2%nat => CError
      | _ => if two || sep then CError else cluster [] o ex
      end
  end.

(* an option with the words given as its values; the namespace is the list of these, the newest first *)
Definition setting : Type := opt * list text.
Record surroundings := mkSurroundings { files : text -> option text; stdin : text }.
(* argparse.FileType('r'): the name and the content *)
Definition open_file (s : surroundings) (w : text) : option (text * text) :=
  if text_eqb w (txt "-") then Some (txt "<stdin>", stdin s) else option_map (pair w) (files s w).
Definition mode_of (w : text) : option mode :=
  if text_eqb w (txt "flo") then Some MODE_FLO else if text_eqb w (txt "flop") then Some MODE_FLOP
  else if text_eqb w (txt "lo") then Some MODE_LO else if text_eqb w (txt "lou") then Some MODE_LOU
  else if text_eqb w (txt "normal") then Some MODE_NORMAL else None.
(* _get_values: whether the values can be converted *)
Definition values_ok (s : surroundings) (x : setting) : bool :=
  match x with
  | (Olf, [w]) | (Od, [w]) => given (open_file s w)
  | (Ot, [w]) => given (py_int w)
  | (Om, [w]) => given (mode_of w)
  | (Omult, [a; b]) => given (py_int a) && given (py_int b)
  | _ => true
  end.
(* main.py:139-147: the two groups *)
Definition group (o : opt) : list opt :=
  match o with
  | Ov | Ovv | Oq | Oqn => [Ov; Ovv; Oq; Oqn]
  | Ol | Olf | Od => [Ol; Olf; Od]
  | _ => []
  end.
Definition conflict (ns : list setting) (o : opt) : bool :=
  existsb (fun o' => negb (opt_eqb o' o) && existsb (fun x => opt_eqb (fst x) o') ns) (group o).
(* take_action *)
Inductive step := Go (ns : list setting) | Stop (status : Z).
Definition take_action (s : surroundings) (ns : list setting) (x : setting) : step :=
  match fst x with
  | Ohelp | Oversion => if negb (values_ok s x) then Stop 2 else Stop 0
  | o => if negb (values_ok s x) then Stop 2 else if conflict ns o then Stop 2 else Go (x :: ns)
  end.
Fixpoint take_actions (s : surroundings) (ns : list setting) (xs : list setting) : step :=
  match xs with
  | [] => Go ns
  | x :: t => match take_action s ns x with Go ns' => take_actions s ns' t | Stop k => Stop k end
  end.
Definition flags (fs : list opt) : list setting := map (fun o => (o, [])) fs.

(* the namespace *)
Fixpoint newest (o : opt) (ns : list setting) : option (list text) :=
  match ns with [] => None | (o', vs) :: t => if opt_eqb o' o then Some vs else newest o t end.
Definition flag (o : opt) (ns : list setting) : bool := given (newest o ns).
Definition value (o : opt) (ns : list setting) : option text := match newest o ns with Some [w] => Some w | _ => None end.
Definition opened (s : surroundings) (o : opt) (ns : list setting) : option (text * text) :=
  match value o ns with Some w => open_file s w | None => None end.
Definition cli_of (s : surroundings) (ns : list setting) : cli :=
  mkCli (flag Ov ns) (flag Ovv ns) (flag Oq ns) (flag Oqn ns) (value Ol ns) (opened s Olf ns) (opened s Od ns) (value Og ns)
    (flag Os ns) (flag Ons ns)
    (match value Ot ns with Some w => match py_int w with Some z => z | None => 1 end | None => 1 end)
    (flag Oe ns) (flag Overify ns) (flag Ordb ns) (flag Ogdb ns) (flag Ognm ns) (flag Oz ns) (flag Othief ns) (flag Ofact ns)
    (match newest Omult ns with
     | Some [a; b] => match py_int a, py_int b with Some x, Some y => Some (x, y) | _, _ => None end
     | _ => None end)
    (match value Om ns with Some w => match mode_of w with Some m => m | None => MODE_FLO end | None => MODE_FLO end).

Inductive parsed := Exits (status : Z) | Parsed (c : cli).
(* the end of _parse_known_args and parse_args: the input is required, no word may be left over *)
Definition finish (s : surroundings) (ns : list setting) (extras : bool) : parsed :=
  if negb (flag Ol ns || flag Olf ns || flag Od ns) then Exits 2 else if extras then Exits 2 else Parsed (cli_of s ns).
(* the second loop of _parse_known_args *)
Fixpoint consume (s : surroundings) (items : list (text * class)) (ns : list setting) (extras : bool) {struct items} : parsed :=
  match items with
  | [] => finish s ns extras
  | (w, Opt o two e) :: rest =>
      match consume_word o two e with
      | CError => Exits 2
      | CExtra fs => match take_actions s ns (flags fs) with Go ns' => consume s rest ns' true | Stop k => Exits k end
      | CValue fs o' v =>
          match take_actions s ns (flags fs ++ [(o', [v])]) with Go ns' => consume s rest ns' extras | Stop k => Exits k end
      | CNext fs o' =>
          match arity o' with
          | 0%nat => match take_actions s ns (flags fs ++ [(o', [])]) with Go ns' => consume s rest ns' extras | Stop k => Exits k end
          | 1%nat => match rest with
                     | (v, Arg) :: rest' =>
                         match take_actions s ns (flags fs ++ [(o', [v])]) with Go ns' => consume s rest' ns' extras | Stop k => Exits k end
                     | _ => Exits 2
                     end
          | _ => match rest with
                 | (v1, Arg) :: (v2, Arg) :: rest' =>
                     match take_actions s ns (flags fs ++ [(o', [v1; v2])]) with Go ns' => consume s rest' ns' extras | Stop k => Exits k end
                 | _ => Exits 2
                 end
          end
      end
  | _ :: rest => consume s rest ns true
  end.
Definition parse_args (s : surroundings) (words : list text) : parsed :=
  match classes words with None => Exits 2 | Some items => consume s items [] false end.

(* main.py from the words of the command line *)
Definition program (s : surroundings) (e : env) (fuel lf : nat) (words : list text) (db : table) : result ending :=
  match parse_args s words with Exits k => Ok (Exit k) | Parsed c => command e fuel lf c db end.
