(* SpecCli.v -- vocabulary of the properties about the command line.  Definitions only. *)
From Coq Require Import String Ascii ZArith List Bool.
From Verif Require Import Spec PyBase MSet MText MQueue MDb MSolver MMain MProc MShare MCli SpecInput SpecRun SpecProc SpecShare.
Import ListNotations.
Open Scope Z_scope.

(* exactly one input is given *)
Definition one_input (c : cli) : Prop :=
  (c_line c <> None /\ c_line_file c = None /\ c_dimacs c = None) \/
  (c_line c = None /\ c_line_file c <> None /\ c_dimacs c = None) \/
  (c_line c = None /\ c_line_file c = None /\ c_dimacs c <> None).
(* no two of -v, -vv, -q, -qn *)
Definition one_verbosity (c : cli) : Prop :=
  ~ (c_v c = true /\ c_vv c = true) /\ ~ (c_v c = true /\ c_q c = true) /\ ~ (c_v c = true /\ c_qn c = true) /\
  ~ (c_vv c = true /\ c_q c = true) /\ ~ (c_vv c = true /\ c_qn c = true) /\ ~ (c_q c = true /\ c_qn c = true).
(* a command line the program accepts *)
Record proper (c : cli) : Prop := mkProper {
  pr_input : one_input c;
  pr_verbosity : one_verbosity c;
  pr_threads : 0 <= c_threads c;
  pr_gnm : c_gnm c = true -> c_gdb c = true;
  pr_multiply : forall a b, c_multiply c = Some (a, b) -> 1 < a /\ 1 < b
}.

(* started with this command line, on this content of the global table of its mode, the program ends so *)
Definition command_ends (e : env) (c : cli) (db : table) (r : ending) : Prop :=
  exists N, forall fuel lf, (N <= fuel)%nat -> (N <= lf)%nat -> command e fuel lf c db = Ok r.

(* the file read *)
Definition reads_file (c : cli) (name : text) (i : input) : Prop :=
  (exists content, c_line_file c = Some (name, content) /\ i = InSLF content) \/
  (exists content, c_dimacs c = Some (name, content) /\ i = InDimacs content).

(* no worker fails, every process gets its turn again and again; with -gdb the table is fresh and accepts
   insertions; -gnm only without workers *)
Definition reliable (e : env) (c : cli) (db : table) : Prop :=
  (forall k, e_worker_fails e k = false) /\ fair (e_arrived e) /\
  fair_sched (max_threads (e_cpus e) (c_threads c)) (e_sched e) /\
  (c_gdb c = true -> db = [] /\ forall h, e_insert_fails e h = false) /\
  (c_gnm c = true -> c_threads c = 1).

(* the same command line with another number of threads *)
Definition with_threads (c : cli) (t : Z) : cli :=
  mkCli (c_v c) (c_vv c) (c_q c) (c_qn c) (c_line c) (c_line_file c) (c_dimacs c) (c_graph c) (c_solution_file c)
        (c_no_stats c) t (c_exit c) (c_verify c) (c_rdb c) (c_gdb c) (c_gnm c) (c_sort_by_size c) (c_thief c)
        (c_factorize c) (c_multiply c) (c_mode c).

(* a file name as stem and extension: the extension starts at the last dot of the last component, unless
   only dots precede it there *)
Inductive stem_of : text -> text -> Prop :=
| stem_plain dir dots base : (dir = [] \/ exists d, dir = d ++ ["/"%char]) ->
    Forall (fun a => a = "."%char) dots -> ~ In "."%char base -> ~ In "/"%char base ->
    stem_of (dir ++ dots ++ base) (dir ++ dots ++ base)
| stem_ext dir dots ch base ext : (dir = [] \/ exists d, dir = d ++ ["/"%char]) ->
    Forall (fun a => a = "."%char) dots -> ch <> "."%char -> ~ In "/"%char (ch :: base) ->
    ~ In "."%char ext -> ~ In "/"%char ext ->
    stem_of (dir ++ dots ++ ch :: base ++ "."%char :: ext) (dir ++ dots ++ ch :: base).

(* the name of the mode as given on the command line *)
Definition mode_name (m : mode) : text :=
  txt (match m with
       | MODE_FLO => "flo" | MODE_FLOP => "flop" | MODE_LO => "lo" | MODE_LOU => "lou" | MODE_NORMAL => "normal"
       end).
