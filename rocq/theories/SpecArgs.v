(* SpecArgs.v -- vocabulary of the property about the words of the command line.  Definitions only. *)
From Coq Require Import String Ascii ZArith List Bool.
From Verif Require Import PyBase MSet MText MQueue MDb MSolver MMain MProc MShare MCli SpecCli MArgs.
Import ListNotations.
Open Scope Z_scope.

(* the options as the help text lists them: the ways to write each one, and how many values follow *)
Definition documented : list (opt * list string * nat) :=
  [(Ohelp, ["-h"; "--help"], 0%nat); (Ov, ["-v"; "--verbos"], 0%nat); (Ovv, ["-vv"; "--very-verbos"], 0%nat);
   (Oq, ["-q"; "--quiet"], 0%nat); (Oqn, ["-qn"; "--quiet-but-unique-nodes"], 0%nat);
   (Ol, ["-l"; "--line-input"], 1%nat); (Olf, ["-lf"; "--line-input-file"], 1%nat); (Od, ["-d"; "--dimacs"], 1%nat);
   (Og, ["-g"; "--output-graph-file"], 1%nat); (Os, ["-s"; "--output-solution-file"], 0%nat); (Ons, ["-ns"; "--no-stats"], 0%nat);
   (Ot, ["-t"; "--threads"], 1%nat); (Oe, ["-e"; "--exit-upon-solving"], 0%nat); (Overify, ["-verify"; "--verify"], 0%nat);
   (Ordb, ["-rdb"; "--use-runtime-db"], 0%nat); (Ogdb, ["-gdb"; "--use-global-db"], 0%nat); (Ognm, ["-gnm"; "--gdb-no-mem"], 0%nat);
   (Oz, ["-z"; "--sort-by-size"], 0%nat); (Othief, ["-thief"; "--thief-method"], 0%nat); (Ofact, ["-fact"; "--factorize"], 0%nat);
   (Omult, ["-mult"; "--multiply"], 2%nat); (Om, ["-m"; "--mode"], 1%nat); (Oversion, ["--version"], 0%nat)]%string.
Definition written (s : text) (o : opt) : Prop := exists names n, In (o, names, n) documented /\ exists name, In name names /\ s = txt name.
Definition takes (o : opt) (n : nat) : Prop := exists names, In (o, names, n) documented.
Definition an_option (s : text) : Prop := exists o, written s o.
Definition begins (p s : text) : Prop := exists r, s = p ++ r.

(* p stands for o: it is the beginning of exactly one way to write an option, and its first letter alone is no option *)
Definition abbreviates (p : text) (o : opt) : Prop :=
  exists s, written s o /\ begins p s /\ (forall s', an_option s' -> begins p s' -> s' = s) /\
  exists c d r, p = c :: d :: r /\ ~ an_option [c; d].

(* options of one letter written together after one dash: the last one may take a value *)
Inductive letters : text -> list opt -> opt -> option text -> Prop :=
| letters_last c o : written ["-"%char; c] o -> letters [c] [] o None
| letters_value c o x v : written ["-"%char; c] o -> takes o 1 -> x <> "="%char -> letters (c :: x :: v) [] o (Some (x :: v))
| letters_equals c o v : written ["-"%char; c] o -> takes o 1 -> letters (c :: "="%char :: v) [] o (Some v)
| letters_more c o t fs o' e : written ["-"%char; c] o -> takes o 0 -> letters t fs o' e -> letters (c :: t) (o :: fs) o' e.

(* what a word that begins with a dash says: options without values, one more option, and its value if it is part of the word *)
Inductive says : text -> list opt -> opt -> option text -> Prop :=
| says_exactly s o : written s o -> says s [] o None
| says_equals s o v : written s o -> takes o 1 -> says (s ++ "="%char :: v) [] o (Some v)
| says_abbreviated p o : abbreviates p o -> says p [] o None
| says_abbreviated_equals p o v : begins (txt "--") p -> abbreviates p o -> takes o 1 -> says (p ++ "="%char :: v) [] o (Some v)
| says_letters t fs o e : letters t fs o e ->
    (forall s, an_option s -> ~ begins ("-"%char :: t) s) ->
    (forall s v, an_option s -> (2 < List.length s)%nat -> "-"%char :: t <> s ++ "="%char :: v) ->
    says ("-"%char :: t) fs o e.

(* words that can be the value of an option: those without a leading dash, the dash itself, and words that cannot be meant as an
   option and are a negative number or contain a blank *)
Definition digits (t : text) : Prop := Forall (fun c => In c (txt "0123456789")) t.
Definition negative (w : text) : Prop :=
  exists t nl, w = "-"%char :: t ++ nl /\ (nl = [] \/ nl = [newline]) /\
    (digits t /\ t <> [] \/ exists a b, t = a ++ "."%char :: b /\ digits a /\ digits b /\ b <> []).
Definition resembles (w s : text) : Prop :=
  begins w s \/ (exists v, w = s ++ "="%char :: v) \/ (exists c d r, w = c :: d :: r /\ s = [c; d]) \/
  (exists p v, w = p ++ "="%char :: v /\ begins (txt "--") p /\ begins p s).
Definition value_word (w : text) : Prop :=
  ~ begins (txt "-") w \/ w = txt "-" \/
  ((forall s, an_option s -> ~ resembles w s) /\ (negative w \/ In " "%char w)).

(* a word that asks for the help text or the version: -h, --help, --version, an abbreviation, or letters with an h *)
Definition asks_for_help (w : text) : Prop :=
  says w [] Ohelp None \/ says w [] Oversion None \/ exists a b, w = "-"%char :: a ++ "h"%char :: b.

(* the command line as a sequence of options with their values *)
Inductive line_reads : list text -> list (opt * list text) -> Prop :=
| reads_nothing : line_reads [] []
| reads_joined w fs o v ws ss : says w fs o (Some v) -> line_reads ws ss ->
    line_reads (w :: ws) (map (fun f => (f, [])) fs ++ (o, [v]) :: ss)
| reads_separate w fs o vs ws ss : says w fs o None -> takes o (List.length vs) -> Forall value_word vs -> line_reads ws ss ->
    line_reads (w :: vs ++ ws) (map (fun f => (f, [])) fs ++ (o, vs) :: ss).

(* a file that can be opened: the name the program sees, and the content *)
Definition opens (s : surroundings) (w name content : text) : Prop :=
  w <> txt "-" /\ name = w /\ files s w = Some content \/
  w = txt "-" /\ name = txt "<stdin>" /\ content = stdin s.
Definition valid (s : surroundings) (o : opt) (vs : list text) : Prop :=
  match o with
  | Olf | Od => forall w, In w vs -> exists name content, opens s w name content
  | Ot | Omult => forall w, In w vs -> exists z, py_int w = Some z
  | Om => forall w, In w vs -> In w [txt "flo"; txt "flop"; txt "lo"; txt "lou"; txt "normal"]
  | _ => True
  end.
Definition uses (o : opt) (ss : list (opt * list text)) : Prop := exists vs, In (o, vs) ss.
Record acceptable (s : surroundings) (ss : list (opt * list text)) : Prop := mkAcceptable {
  ac_no_help : ~ uses Ohelp ss;
  ac_no_version : ~ uses Oversion ss;
  ac_values : forall o vs, In (o, vs) ss -> valid s o vs;
  ac_input : exists o, In o [Ol; Olf; Od] /\ uses o ss /\ forall o', In o' [Ol; Olf; Od] -> uses o' ss -> o' = o;
  ac_verbosity : forall o o', In o [Ov; Ovv; Oq; Oqn] -> In o' [Ov; Ovv; Oq; Oqn] -> uses o ss -> uses o' ss -> o' = o
}.

(* what is handed to the program: of several uses of an option the last one counts *)
Definition last_use (o : opt) (vs : list text) (ss : list (opt * list text)) : Prop :=
  exists a b, ss = a ++ (o, vs) :: b /\ ~ uses o b.
Record configures (s : surroundings) (ss : list (opt * list text)) (c : cli) : Prop := mkConfigures {
  cf_flags : Forall (fun fo : (cli -> bool) * opt => fst fo c = true <-> uses (snd fo) ss)
    [(c_v, Ov); (c_vv, Ovv); (c_q, Oq); (c_qn, Oqn); (c_solution_file, Os); (c_no_stats, Ons); (c_exit, Oe); (c_verify, Overify);
     (c_rdb, Ordb); (c_gdb, Ogdb); (c_gnm, Ognm); (c_sort_by_size, Oz); (c_thief, Othief); (c_factorize, Ofact)];
  cf_line : forall w, c_line c = Some w <-> last_use Ol [w] ss;
  cf_graph : forall w, c_graph c = Some w <-> last_use Og [w] ss;
  cf_line_file : forall name content, c_line_file c = Some (name, content) <-> exists w, last_use Olf [w] ss /\ opens s w name content;
  cf_dimacs : forall name content, c_dimacs c = Some (name, content) <-> exists w, last_use Od [w] ss /\ opens s w name content;
  cf_threads : forall n, c_threads c = n <-> (exists w, last_use Ot [w] ss /\ py_int w = Some n) \/ (~ uses Ot ss /\ n = 1);
  cf_multiply : forall x y, c_multiply c = Some (x, y) <->
    exists a b, last_use Omult [a; b] ss /\ py_int a = Some x /\ py_int b = Some y;
  cf_mode : forall m, c_mode c = m <-> last_use Om [mode_name m] ss \/ (~ uses Om ss /\ m = MODE_FLO)
}.
(* the uses of one option, in their order *)
Definition of_option (o : opt) (ss : list (opt * list text)) : list (opt * list text) := filter (fun x => opt_eqb (fst x) o) ss.

(* started with these words, the program ends so *)
Definition program_ends (s : surroundings) (e : env) (ws : list text) (db : table) (r : ending) : Prop :=
  exists N, forall fuel lf, (N <= fuel)%nat -> (N <= lf)%nat -> program s e fuel lf ws db = Ok r.
