# Formal model of GridSAT/NDP (Rocq / Coq 8.16.1)

The repository is a SAT solver in Python.  It reads a CNF, brings it into a normal form
("l.o. condition"), branches on the first variable, normalises both cofactors, and explores the
resulting DAG of formulas breadth first, merging nodes that have the same printed text (by SHA-1).
Around that core there are input readers, a work queue (in memory or in a Postgres table), a global
table of solved sets, a process pool, graph statistics and two arithmetic front ends (factorise,
multiply).

## Method

*Shallow executable model.*  Each Python function becomes a total Gallina function that mirrors it
branch by branch.  Python exceptions are values (`Err e`), loops that are not structurally
recursive take fuel and return the separate value `OutOfFuel`.  Theorems are about runs that do
not run out of fuel *and* prove that enough fuel exists.  Python dicts are association lists in
insertion order; `list.sort`/`sorted` is a stable insertion sort (any stable sort gives the same
list).  SHA-1 is a parameter `hash`; theorems that depend on it assume only that no two *different
nodes of that run* collide.

*Independent specification.*  `Spec.v` defines literals, assignments, truth of a clause and a CNF,
satisfiability, reachability etc. without reference to the model.  Property theorems are stated
with these notions in `Properties*.v`, which contain only `Theorem ... exact ...` and
`Print Assumptions`, plus non-vacuity examples.

## What is modelled, per property

| id | model | proof |
|----|-------|-------|
| C01-C03 | `Clause.__init__`, `__lt__` on literal lists | permutation / sortedness; order isomorphism with a lexicographic key order |
| C04 | `Set.add_clause` fold | induction over the clause list |
| C05,C06 | `Set.rename_vars` with its names map, counts and `final_names_map` | invariant of the traversal (map is a bijection onto 1..k) |
| C07 | `to_lo_condition` loop with fuel | strictly decreasing numeric code of the clause sequence |
| C08,C09 | `is_in_lo_state`, loop | characterisation of the checker; counterexample by computation |
| C10 | whole normalisation | composition of renamings and permutations |
| C11 | `Set.evaluate` | Shannon expansion, clause by clause |
| C12 | `substitute_vars` | induction on the clause list |
| C13-C16 | `to_string`, `Set(str)`, (de)serialisation on ASCII texts | split/join and decimal round trips |
| C17 | `InputReader.get_cnf_set`, `Main` | case analysis |
| C18-C20 | `__parse_dimacs_file` on file contents, line by line | induction over lines |
| C21-C28 | `process_nodes_queue`, `solve_set` (gdb off), both queues | loop invariants relating each node to the root formula; measure on variables |
| C29-C31 | `SuperQueue` + runtime table; `unique_queue=True` as a separate small model | refinement to a list; C31 covers both storages: in-memory (never the same item twice), and DB (first removal after an insertion raises) |
| C32,C33 | DFS statistics | invariant on visit counts, closure |
| C34,C35 | split and collecting loop (`MProc.v`), with an arbitrary arrival schedule | each worker run is a search of its own (`PProc2`); graph of the union of all searches (`cover`, `PProc3`); merging is order independent; non-termination invariant for failed workers |
| C36-C38,C40 | global table as a map, `solve_set` with `-gdb` | simulation with the gdb-off run; the final table is characterised row by row; counterexamples; histories of table operations |
| C39 | an interrupted first run is any prefix (`exec`) of its loop; the second run starts on the table left | replay: rows in the table come from expanded nodes, a loaded child equals the computed one but without name maps (`PReplay`, `PResume`, `PResumed`) |
| C41-C43 | `Factorizer`, `Multiply`, decoding in `solve_set` | restriction semantics; bit lists |
| C44 | `format_solution` | round trip with a reader defined in the specification |
| C45 | queue depths | invariant |
| C46 | calls on the graphviz object | invariant relating commands to `nodes_children` |
| C47 | `Main` on a file | composition of reader, preprocessing and search theorems |
| C48 | `process_nodes_queue` with workers on a shared table (`MShare.v`): a schedule interleaves worker iterations and collecting rounds | each worker refined by its own search with the losses against the table (`PShare1`), joint invariant over crew (`PShare2`), ranking for fair schedules (`PShare3`), union of all searches covers the single search (`PShare4`, `PShare5`) |
| C49 | same model, -gnm | invariant "a dead worker stays dead"; concrete fair schedule, replayed by kernel computation and then closed by the invariant (`PShare6`) |
| C50 | `evaluate`, `to_lo_condition`, queue on clauses with their numbers | induction over `searched`: clause-by-clause correspondence kept by branching (with injective names), renaming and reading back (`PThief`) |
| C51 | the two sorts, renaming loop | insertion sort is sorted and stable; renaming keeps the profile (length, number) of the clauses; counterexample for the runtime DB by computation |
| C52 | `tools/sabry_cnf_gen.hs` (`MGen.v`): circuits over an abstract gate monad, run symbolically; clauses of the gates | a small program logic over both interpretations (`PGen1`): every circuit computes its arithmetic function for every satisfying assignment, is complete and determined by its inputs (`PGen2`, `PGen3`), hence the models are the factorisations (`PGen4`, `PGen5`) |
| C53 | the text the generator prints; reader and solver on it | text is a DIMACS file in the sense of `SpecInput` (`PGen6`); composition with C47 |
| C54, C55 | `-fact` / `-mult` on a generated file | the hypotheses of C42/C43 hold for every generated array multiplier: outputs are positive variables, pairwise different, none an input; clauses keep an unassigned literal after preprocessing (`PGen7`-`PGen11`); counterexample for the recursive multiplier by kernel computation |
| C56 | the generator's `test_*` functions (simulation) | the same program logic at the other interpretation; `PGen12` for the failures |
| C57 | the recursion limit bounds what can be reported | sufficiency: every edge of the graph of formulas loses a variable, so the depth of the recursion is at most the number of variables (`PStack`); necessity: on `x1 & ... & xn` every formula met is `x1 & ... & xk`, one for each k, so the recursion needs n calls (`PUnits`) |
| C58 | `main.py:133-261` (`MCli.v`): parsed arguments, checks, choice of input and solver, files, messages (the words themselves: C95) | case analysis; `os.path.splitext` against a declarative stem (`SpecCli.stem_of`) |
| C59-C61 | `command` = the whole program around the solver with one process, with workers (`MProc`), or with workers on a shared table (`MShare`) | one composition proof for an arbitrary solver that is sound and exact (`PProg2`), instantiated with C21-C23, C34, C48 (`PCli`), then with the generator's theorems |
| C62 | same | the collecting loop leaves drawing and counters alone, the queue is empty after handing out (`PSplit`); concrete run by computation |
| C63 | `MSession.v`: the database as a map from table names to tables, `delete_gdb.py`, `tools/create_global_table.py`; `SpecSession.session`: sequences of events, one after the other.  A run killed or failed has applied an arbitrary list of statements (more than the program could send) | every statement keeps rows, contents and solved sets (`PSession.grows`); a run is a list of statements: induction over the loop, the workers' iterations and the final update; induction over the session |
| C64 | same | the row of the normalised input is found solved after the first run, stays so (C63), and the second run takes it as the answer before looking at anything else; then the lines of the report |
| C65 | `software/cnfgen/cnfformula/cnf.py:786-1081` (`MCnf.v`): the builders on lists, with `itertools.combinations` and `product` | induction on the list: some k-subset is true iff at least k elements are (`PCnf1`); parity: the only clause over all variables an assignment falsifies |
| C66 | `cnf.py:70-484`: a formula object is the list of names and of compressed clauses; `SpecCnf.made`: objects obtainable by public calls | invariant of `made` (numbers are positions of known names), compression and decompression are inverse (`PCnf2`) |
| C67 | `cnf.py:486-570`, `cnfgen.py:255-263`; NDP's reader and program | the text is a DIMACS file in the sense of `SpecInput` (`PCnf3`), composition with C59 |
| C68 | `cnf.py:1085-1440` (`MCnf.v`: mapping objects), `families/pigeonhole.py:16-223` (`MFam.v`) | constraint builders (C65) applied to rows and columns (`PFam1-3`); pigeonhole principle for relations; matchings by choice over finite lists |
| C69 | `families/counting.py:18-92` | subsets as increasing lists, double counting (`PFam4`) |
| C70 | `families/ordering.py:18-154`; `SpecFam.ordered_by`, `linked` | a minimal counterexample in a set without minimum, also for Knuth's restricted transitivity (`PFam5`); conversely breadth-first distance from the planted minimum |
| C71 | `families/ramsey.py:16-115`, `cliquecoloring.py:14-103`; `int(sqrt(.))` exact below 2^52 | `PFam6`; x = y in a Pythagorean triple excluded by the irrationality of the square root of 2 |
| C72 | `families/coloring.py:20-141`, `dominatingset.py:18-109`. Python below 3.10: `collections.Iterable` no longer exists later; the missing `raise` before two `ValueError`s is modelled as is | `PFam7`, `PFam8`; handshake; conversely an Euler tour of every component, coloured alternately (`PFam9`) |
| C73 | `families/subsetcardinality.py:16-119` | double counting on both sides; conversely alternating closed walks, which are even in a bipartite graph (`PFam9`) |
| C74 | `families/graphisomorphism.py:19-108`; `SpecFam.isomorphism` | clause groups as conditions on the relation (`PFam10`) |
| C75 | `families/tseitin.py:16-53`; `SpecFam.charge_at`, `odd_vertex` | double counting of edge ends; conversely pairs of odd vertices joined by a path whose edges are flipped (`PFam11`) |
| C76 | `families/subgraph.py:25-256`; `SpecFam2.placement`, `matches`, `active`, `induced_copy`, `clique` | clause groups as conditions on the relation `S_{i,j}`, a relation as a list of vertices, lists as assignments (`PFam12`-`PFam14`) |
| C77 | `families/pebbling.py:28-337`, `graphs.py:377-399`; `SpecFam2.acyclic`, `sink`, `stones_fit`, `stone_allowed` | peeling off vertices without predecessors decides acyclicity; induction along the arcs (`PFam15`, `PFam16`) |
| C78 | `families/randomformulas.py:16-122`; the outcomes of `random` and the iteration order of a set are a parameter (`MTrans.randomness`), constrained by `SpecTrans.lawful`; `SpecTrans.k_clause`, `binomial` | the loop keeps a duplicate-free list of clauses of the right shape; the dense sampler enumerates exactly those clauses (`PTrans1`) |
| C79 | `transformations/substitutions.py:20-526`; `SpecTrans.replaced_by`, `faithful`, `selects`, `compressed_true` | a product of clause sets holds when one of them does; each literal's clauses say that the function has that value (`PTrans2`-`PTrans6`) |
| C80 | `transformations/shuffle.py:16-81`; `SpecTrans.flipped` | placement by a permutation fills every position once; flipping the assignment maps models to models (`PTrans7`) |
| C81 | all families of `MFam.v`, `MFam2.v` | adding declared clauses never changes the list of names; the declared names are pairwise different because decimal forms are (`PNames.v`) |
| C82 | `families/simple.py` | `build_plain` |
| C83 | `utils/__init__.py`; `MFile.dimacs2cnf`; the grammar is `SpecFile.formula_file`, independent of the reader | induction on the lines of the grammar; `split()` of numbers separated by blanks; the writer's lines belong to the grammar (`PFile1`, `PFile2`) |
| C84 | `graphs.py:190-300,480-606,744-789`; `MFile.readGraph_kthlist`, `write*_kthlist`; the grammar is `SpecFile.kthlist_file` | the reader folds the lists into a duplicate-free set of edges; the greedy colouring never changes a colour (`PFile3`-`PFile6`) |
| C85 | `graphs.py:612-669,815-833`; `MFile.read_dimacs_graph`, `write_dimacs_graph`; the grammar is `SpecFile.edge_file` | an edge is an adjacency list of length one, so C84's lemmas apply (`PFile7`) |
| C86 | `graphs.py:866-1132`; `MGraph.bipartite_shift`, `bipartite_random_left_regular`, `bipartite_random_regular`, `dag_pyramid`, `dag_complete_binary_tree`; the outcomes of `random` are parameters | degrees by counting; for the regular graph an invariant: the edges are the pairs of slots (A[j], B[j]) for distinct j below i (`PGraph1`, `PGraph2`); order of names for the DAGs (`PGraph3`) |
| C87 | `graphs.py:1134-1225`, `cmdline.py:487-504,724-743`; `MGraph.sample_missing_simple`, `sample_missing_bipartite`, `plant_clique`, `plant_biclique`, `add_edges`, `add_missing_edges` | the missing pairs are counted by orienting every edge along the order of the vertices (`PGraph4`); invariant of the sampling loop (`PGraph5`) |
| C88 | `utils/cnfshuffle.py`, `utils/dimacstransform.py`, `utils/kthlist2pebbling.py` (`MTool.v`): read, transform, write; the header rules; random choices are parameters | the reader's and writer's theorems (C82), the transformations (C78-C80) on formulas whose variables are named 1..n, and the order in which the substitutions create the new variables (`PTool1`-`PTool4`) |
| C89 | `utils/solver.py`, `CNF.is_satisfiable` (`MSat.v`): the machine (which commands start, what they answer) is a parameter; result files and outputs are parsed as in the code, with bytes never equal to text | the writer's theorems (C82) show the solver the right file; words of the result file; names against numbers (`PSat1.v`); an exhaustive solver shows that correct solvers exist |
| C90 | `cnfgen.py`, the graph helpers of `cmdline.py`, `build_cnf` of the 30 subcommands in `families/*.py` (`MGenCmd.v`); argparse is a parameter (it delivers the subcommand with its options), except for the checks of `cmdline.py`; `SpecGenCmd`: the graph that options describe, the question of every subcommand, what `networkx` and `random` promise (`fair`) | graphs from options (`PGenCmd1`, `PGenCmd2`, with C84-C87), every family by its property C68-C82 (`PGenCmd4`, `PGenCmd5`), transformations by C79, C80 (`PGenCmd3`), splitting at -T by induction (`PGenCmd6`, `PGenCmd7`); circulant graphs and prefixes of lists show that the outcomes assumed of `networkx` and `random` exist (`PGenCmd8`) |
| C91 | `tools/factorize.py` (`MFloat.v`): doubles of at least 1 as multiples of 2^-52, rounding to nearest even of quotients, roots and sums (compared with Python's results on 450 random values); not the step counts and the duration | rounding does not cross a representable number (`PFloat.v`); the half below a divisor above the root is representable; the first divisor found is prime |
| C92 | the models of C88 and C90 connected: the text that cnfgen prints is the input of dimacstransform (`SpecPipe.v`); random.shuffle permutes places, whatever is in them | every transformation is natural in the names of the variables (`PPipe1.v`-`PPipe3.v`: the new names are equal for equal places only); whatever is built or transformed was made with the public operations (`PPipe4.v`); then through the file, C83 (`PPipe5.v`) |
| C93 | `cnf.py:566-705` (`MLatex.v`); a strict reader of the rows (`SpecLatex.v`) that knows nothing of the formula | induction over the clauses with the page position (`PLatex.v`): the lines of the text, paged, are row texts; a row text read back gives its clause; the text of a document as one list of lines (`document_of`) |
| C94 | `tools/sabry_cnf_gen.hs:674-712` with the order of evaluation and what is printed before an error, `tools/multiple_set_gen.sh` with 64-bit arithmetic (`MSabry.v`); other notations of numbers and the buffering of interrupted output are parameters | known names: the text is that of `gen_main` (C53); a failing adder makes every multiplier fail that needs one (`PSabry.v`); induction on the loop; then C53, C54 |
| C95 | `main.py:136-188` and the part of Python 3.11's `argparse` it uses (`MArgs.v`): classification of words, prefixes, clusters, values, groups, types, actions. Compared with the real `argparse` of the sandbox on 9000 random lines (own script, only the standard library) | a grammar of lines (`SpecArgs.line_reads`) against the two passes of the parser: word by word sound and complete (`PArgs.v`), then induction on the line; settings against the namespace; then C58, C59 |
| C96 | `PatternSolver.py:568-631`, `configs.py:80-85` (`MReport.v`): the text of the report, built with two-character marks that are replaced at the end. Parameters: the time in thousandths of a second, the hash, the memory in bytes (below 2^53, where the divisions by 1024 are exact; compared with the real function on 300000 random numbers). The progress messages printed before the report are left out | the report is `join` of lines without marks, hence `split` gives them back; each kind of line is recognised by its words, numbers end at the first character that is not a digit (`number_then`); then C58, C59, C61, C95 |
| C97 | `PatternSolver.py:353-356, 482, 508-509` (`MDot.v`): the labels handed to graphviz, made from the sets that the drawing commands carry. Left out: the first line of the labels of inner nodes (the clauses as `evaluate` made them), the labels and colours of redundant nodes and leaves, what graphviz makes of the calls | loop invariant: the boxes drawn are the recorded sets, each but the first a child of an expanded one; then the node invariant (every set stands for the input under its path) and C50; the counts of `rename_vars` survive the sorting that follows; the parts of a label end at characters that cannot occur in them. For commands, with or without workers (`PSplit2.v`): what a run draws is what its main process had drawn when its loop ended or, when the queue first held one set per worker, handed out |
| C98 | `graphs.py:22-375` (`MFormat.v`: table of formats, `os.path.splitext`, the arguments, opening and emptying the file); networkx's readers and writers are parameters; `SpecFormat.v` has the table and what an extension is | the last dot and slash of a name by cases (`PFormat.v`); a kthlist read as bipartite has labels by an invariant of its lines; round trip from C84 and C85 |

## Files

* `Spec.v`, `SpecInput.v`, `SpecFile.v`: notions independent of the model (assignments, restriction, DIMACS and
  single-line texts, number of a bit list, graph reachability).
* `SpecRun.v`, `SpecProc.v`, `SpecShare.v`, `SpecThief.v`, `SpecGen.v`, `SpecStack.v`, `SpecCli.v`, `SpecSession.v`, `SpecCnf.v`, `SpecFam.v`, `SpecFam2.v`, `SpecTrans.v` and the other `Spec*.v`: vocabulary that must mention model objects (a run ends with an
  outcome, the sets met by a search, histories, schedules).  Definitions only.
* `PyBase.v`, `M*.v`: the model.  Every definition cites the lines it models.
* `P*.v`: proofs.  `PPn.v` states and proves each property under the name `p_Cnn_...`;
  `Propertiesn.v` (generated by `tools/genprops.py`) restates it verbatim as `Cnn_...`, followed by
  `Print Assumptions` and the non-vacuity examples.

## Trusted base

1. Coq 8.16.1's kernel (with `vm_compute`, used for concrete examples and counterexamples).
2. `Print Assumptions` answers "Closed under the global context" for every theorem in
   `Properties*.v`: no axiom, neither ours nor the standard library's, is used.  No functor, module
   type, section-less variable, admitted proof or plugin is used.
3. That the model describes the code.  Line by line this can be checked with the comments; the
   deliberate simplifications are the following.

| file | modelled | not modelled / simplified |
|------|----------|---------------------------|
| `Clause.py` | everything | a `frozenset` is enumerated in order of first occurrence; C01 shows the order is irrelevant for distinct variables |
| `Set.py` | everything used by the program: `Set(str)`, `add_clause`, `rename_vars`, `to_lo_condition` with all modes, `is_in_lo_state`, `evaluate`, `substitute_vars`, `to_string`, `get_hash`, (de)serialisation | `print_*` helpers; `ast.literal_eval` only on the shapes that `str(dict)`/`str(list)` produce; texts are ASCII; SHA-1 is the parameter `hash` |
| `InputReader.py` | all three inputs; file contents as text | opening files; for `-lf` the trailing newline kept by `readline` (removed by `int()`'s whitespace stripping) |
| `SuperQueue.py` | both storages and both uniqueness settings | |
| `DbAdaptor.py` | runtime table, all statements on the global table used by the solver, failure of an `INSERT` (parameter `insert_fails`), aborted transactions of the runtime table | connecting, creating tables, the aborted transaction after a failed global `INSERT` (the code issues no rollback), ids/dates/mapping columns |
| `PatternSolver.py` | `process_nodes_queue` incl. splitting and polling, `get_children_from_gdb`, `save_parent_children`, statistics, `solve_set`, `format_solution`, `verify_solution`, the labels of the drawn graph (`MDot.v`), the text of the report (`MReport.v`), graphviz calls; `MStack.v`: the same with a limit on the nested calls of `get_node_subgraph_stats` (`RecursionError`) | other log messages, how time and memory are measured, process scheduling other than: arbitrary arrival times, failing workers, dying workers; with `-gdb` (`MShare.v`) arbitrary interleavings of worker iterations, where an iteration is atomic: exact without `-gnm` (the one table access of an iteration is the commit of its INSERT; the primary key is deferred, so a duplicate is refused, and rolled back, there), some interleavings are missing with `-gnm` (C49 only uses one that exists) |
| `Factorizer.py`, `Multiply.py` | everything | printing |
| `main.py` | `Main` from reader to report, around an arbitrary solver (`main_with`); the command line with its checks, files written and messages (`MCli.command`); its words as argparse reads them, files opened on the way, exit statuses (`MArgs.program`) | the texts argparse prints, words outside ASCII, progress output, file system errors on writing |
| `configs.py` | constants used | database and logging configuration |
| `tools/sabry_cnf_gen.hs` | adders, subtracter, Wallace tree, the three multipliers, both interpretations, the formula and the printed text | comments inside the formula (filtered by the source before printing), notations of the number other than decimal (a parameter of `MSabry.v`, which models the arguments), Haskell's laziness (a failing part that is not demanded would not fail); the infinite supply of names is its first element.  The printed text was compared with the generated files in `inputs/test_cases` (equal up to the final newline for Factoring5/40/60, the clause part for 10/17/25/80) |
| `delete_gdb.py`, `tools/create_global_table.py` | everything (`MSession.v`) | index names (shared by all tables), rights, other users of the database; runs overlapping in time |
| `software/cnfgen/cnfformula/cnf.py` | formula object, constraint builders, DIMACS output, unary and binary mappings (`MCnf.v`), LaTeX output (`MLatex.v`; names are texts: for integer names, as those of pebbling formulas of some graphs, `name.find` raises AttributeError) | descriptions of variables, headers (comments, given as text), `_coherent`; floats `int(n/2)` as exact division |
| `software/cnfgen/cnfformula/families/*.py` | `MFam.v`, `MFam2.v`: pigeonhole, counting, ramsey (lower bound, Pythagorean triples), cliquecoloring, simple, coloring, dominatingset, subsetcardinality, ordering, tseitin, graphisomorphism, subgraph, pebbling, randomformulas (`MTrans.v`; the random module is a parameter) | `argparse`, headers; vertices are integers; the subcommands are in `MGenCmd.v` |
| `software/cnfgen/cnfformula/transformations/*.py` | `MTrans.v`: all substitutions, `Shuffle` with given permutations | headers, command line, drawing the permutations of `Shuffle` at random, the final coherence `assert` of a substitution (C79 shows that it cannot fail) |
| `software/cnfgen/cnfformula/utils/__init__.py` | `MFile.v`: `dimacs2compressed_clauses`, `dimacs2cnf` | opening files, other helpers; lines end with newline characters |
| `software/cnfgen/cnfformula/graphs.py` | `MFile.v`: kthlist and DIMACS edge formats, matrices (writing; reading never succeeds in Python 3). `MGraph.v`: the constructed graphs (866-1132) and `sample_missing_edges` (1134-1225), with the outcomes of `random` as parameters . `MFormat.v`: choosing the format, opening the file | gml and dot themselves (networkx: a parameter), multigraphs; networkx is assumed to be a version below 2.4 (the code uses `G.node`) |
| `software/cnfgen/cnfformula/utils/cnfshuffle.py`, `dimacstransform.py`, `kthlist2pebbling.py` | `MTool.v`: reading the input, the transformation chosen by the subcommand, the headers, the output text | argparse, `-i`/`-o` files, seeds, a missing subcommand, signals; the graph of a compression is given as a graph |
| `software/cnfgen/cnfformula/utils/solver.py`, `CNF.is_satisfiable` | `MSat.v`: choice of the solver, the three interfaces, parsing of result file and output, the witness | the solvers (a parameter: what starts, what is answered), temporary files, `verbose`, non-ASCII headers, `TypeError` for objects that are no CNF |
| `software/cnfgen/cnfformula/cnfgen.py` | `MGenCmd.v`: splitting at -T, formula, transformations, output and exit statuses | `argparse` (a parameter), the headers of formulas, `-o FILE`, signals; the seed (random outcomes are parameters) |
| `software/cnfgen/cnfformula/cmdline.py` | `MGraph.v`: planted cliques and added edges (488-503, 724-744); `MGenCmd.v`: the options that choose a graph, their checks (241-754) | `--savegraph`, `-i FILE`, gml and dot; argparse, networkx's own generators (parameters); `random.sample(G.nodes(), ...)` needs a Python before 3.11 |
| `tools/factorize.py` | `MFloat.v`: the search, the factors and the first line printed, with its floating-point arithmetic | the step counts and the duration printed afterwards |
| `tools/multiple_set_gen.sh` | everything (`MSabry.v`) | word splitting and wildcards in arguments, file system errors, the lines echoed |
| rest of `software/` | nothing | |

With several processes, the counters printed with `-ns` are those of the main process alone; C34
therefore speaks of the counts reported without `-ns`.

Not expressible here: wall-clock time, memory use, real SHA-1 collisions, Postgres
transaction state after an error, real process crashes other than the two modelled outcomes
(worker answers, worker answers failure, worker never answers).
