{"id": "C01", "title": "Clause construction keeps the literals and sorts them by variable", "statement": "Building a clause from a collection of distinct literals over distinct variables keeps exactly those literals, in ascending order of absolute value, whatever order the collection was enumerated in (Python frozensets have no defined order), and leaves the clause undecided.", "quantifier": "every finite list of literals with pairwise distinct variables, every enumeration order of it", "why_tests_cant": "The input space is infinite; a test fixes finitely many formulas. The enumeration order of a frozenset is an implementation accident that a test on one interpreter never varies.", "anchors": ["Clause.py:Clause.__init__", "Clause.py:Clause.sort"]}
{"id": "C02", "title": "Tautology detection is exact up to three literals, and only there", "statement": "A clause of at most three distinct literals is turned into the constant True exactly when it contains a variable and its negation; for four or more literals the check misses complementary pairs that are not among the two smallest variables, and such an input can make the solver abort with an exception instead of giving a verdict.", "quantifier": "every set of at most three literals; an exhibited four-literal clause for the converse", "why_tests_cant": "The input space is infinite; a test fixes finitely many formulas. The failure only appears for clause widths the sample inputs never use.", "anchors": ["Clause.py:Clause.__init__", "Set.py:Set.evaluate"]}
{"id": "C03", "title": "The clause order is a strict total order on literal sequences", "statement": "The < relation used to sort clauses is irreflexive, transitive and decides every pair of different literal sequences (so sorting is well defined, and equal-ranked clauses have identical literals); it compares variables first, puts the positive literal first on equal variables and a proper prefix before its extension.", "quantifier": "every pair/triple of literal sequences", "why_tests_cant": "The input space is infinite; a test fixes finitely many formulas. An intransitive comparison makes the result of list.sort depend on the algorithm, which no finite sample excludes.", "anchors": ["Clause.py:Clause.__lt__"]}
{"id": "C04", "title": "Adding clauses one by one computes the conjunction", "statement": "After feeding any sequence of clauses to a set, the set is the conjunction of them: it is marked False only if a False clause was added, True only if at least one clause was added and all were tautologies, and otherwise lists exactly the undecided clauses in input order.", "quantifier": "every sequence of clause values (undecided, True, False)", "why_tests_cant": "The input space is infinite; a test fixes finitely many formulas.", "anchors": ["Set.py:Set.add_clause", "Set.py:Set.set_value"]}
{"id": "C05", "title": "Renaming is an invertible change of variable names", "statement": "Renaming variables replaces them by 1..n in order of first occurrence, through an injective map, keeps signs, keeps the number and order of clauses and the clause sizes, and the names map recorded by the set leads from each new name back to the name it replaced (also when renaming is applied repeatedly).", "quantifier": "every set of clauses with at least one literal, any number of successive renamings", "why_tests_cant": "The input space is infinite; a test fixes finitely many formulas. A wrong composition shows only after several rename rounds.", "anchors": ["Set.py:Set.rename_vars"]}
{"id": "C06", "title": "Renaming fails exactly on sets without literals", "statement": "Renaming raises an exception exactly when no clause contains a literal; consequently an input all of whose clauses are tautologies is answered with an error and not with SATISFIABLE.", "quantifier": "every set", "why_tests_cant": "The failing inputs are a thin slice of the input space that sampling is unlikely to meet; the other direction (never fails elsewhere) is universal.", "anchors": ["Set.py:Set.rename_vars", "PatternSolver.py:solve_set", "main.py:Main"]}
{"id": "C07", "title": "Normalisation to linear order always terminates", "statement": "Bringing a set to l.o. condition (the rename / sort / check loop) terminates in every mode, with and without the sort-by-size and thief options, on every set of non-empty clauses.", "quantifier": "every mode, every option combination, every set of non-empty clauses", "why_tests_cant": "Non-termination of the fixpoint loop cannot be observed by a test, and no finite set of terminating runs excludes it.", "anchors": ["Set.py:Set.to_lo_condition"]}
{"id": "C08", "title": "Normalisation delivers the documented order conditions", "statement": "On return from normalisation: literals are ascending inside each clause; (modes lou, lo, flo, flop) the smallest variable name is 1, it comes first, and each variable occurring for the first time is greater than all variables before it; (modes lo, flo, flop) the leading variables of the clauses are non-decreasing.  Also the state test itself answers True exactly on sets meeting these conditions.", "quantifier": "every mode, every set of non-empty clauses", "why_tests_cant": "The input space is infinite; a test fixes finitely many formulas.", "anchors": ["Set.py:Set.is_in_lo_state", "Set.py:Set.to_lo_condition"]}
{"id": "C09", "title": "The documented full clause ordering is not guaranteed", "statement": "The comment on l.o. state requires clauses to be ascending in the set; the implementation only guarantees ascending leading variables: there are inputs whose normal form in every sorting mode is not sorted by the clause order.", "quantifier": "existence of a counterexample input for each sorting mode", "why_tests_cant": "The comment's claim is universal; the counterexample was found from the proof of the state test.", "anchors": ["Set.py:Set.is_in_lo_state", "Set.py:Set.to_lo_condition"]}
{"id": "C10", "title": "Normalisation only renames and reorders", "statement": "The normal form has the same clauses as the input set up to an injective renaming of variables, reordering of clauses and of literals within clauses (with the same multiplicities), hence the same models up to that renaming and the same satisfiability; the set's recorded maps translate each new name to the right original variable.", "quantifier": "every mode, option combination and set of non-empty clauses", "why_tests_cant": "The input space is infinite; a test fixes finitely many formulas.", "anchors": ["Set.py:Set.to_lo_condition", "Set.py:Set.rename_vars", "Set.py:Set.sort_clauses", "Set.py:Set.sort_clauses_by_length", "Set.py:Set.sort_clauses_by_len_and_initial_index"]}
{"id": "C11", "title": "Branching computes the two cofactors", "statement": "Evaluating a set picks the leading variable p and yields two sets: the left one is true under an assignment with p true exactly when the parent is, the right one likewise for p false; neither mentions p; a branch is marked True exactly when no clause remains, False exactly when a clause lost its last literal, and is undecided otherwise.", "quantifier": "every set of non-empty clauses with distinct variables per clause, every assignment", "why_tests_cant": "The input space is infinite; a test fixes finitely many formulas.", "anchors": ["Set.py:Set.evaluate"]}
{"id": "C12", "title": "Substitution computes the restriction of the formula", "statement": "Substituting a map of variable values removes exactly the clauses made true by the map and, from the others, exactly the falsified literals; a clause losing all literals is marked False; untouched clauses are unchanged. The result holds under an assignment extending the map exactly when the original does.", "quantifier": "every clause list with non-zero literals, every variable map", "why_tests_cant": "The input space is infinite; a test fixes finitely many formulas. The loop mutates the list it indexes.", "anchors": ["Set.py:Set.substitute_vars"]}
{"id": "C13", "title": "Node identity: equal text means equal formula", "statement": "Two undecided sets of non-empty clauses have the same text form (the string that is hashed to identify a node) exactly when they have the same clause list; the text of an undecided set is never the text of a decided one.", "quantifier": "every pair of sets", "why_tests_cant": "The input space is infinite; a test fixes finitely many formulas. An ambiguous printing would merge different nodes and corrupt verdicts silently.", "anchors": ["Set.py:Set.to_string", "Set.py:Set.get_hash"]}
{"id": "C14", "title": "Parsing a printed set gives the set back", "statement": "Reading the text form of a set of non-empty clauses, sorted within clauses and with distinct variables per clause, reproduces exactly its clauses (numbered from 1).", "quantifier": "every such set", "why_tests_cant": "The input space is infinite; a test fixes finitely many formulas.", "anchors": ["Set.py:Set.__init__", "Set.py:Set.to_string"]}
{"id": "C15", "title": "Saved node properties survive the database round trip", "statement": "Serialising a node's evaluated variables, original values and names map and reading them back yields the same maps (as dictionaries) and list, provided variables are non-negative.", "quantifier": "all dictionaries and lists of integers with non-negative assigned variables", "why_tests_cant": "The input space is infinite; a test fixes finitely many formulas.", "anchors": ["Set.py:Set.serialize_properties", "Set.py:Set.deserialize_properties"]}
{"id": "C16", "title": "Single-line format reader", "statement": "Reading the single-line text of a formula (clauses separated by &, literals by |, optional parentheses and blanks) yields a set equivalent to that formula, clause for clause in input order, with duplicate literals removed and tautological clauses (up to three literals) dropped; text with a non-integer literal yields an empty undecided set for which no verdict is printed.", "quantifier": "every formula with non-empty clauses of at most three distinct literals (or distinct variables), every placement of blanks and parentheses covered by the printer; every text containing a malformed literal", "why_tests_cant": "The input space is infinite; a test fixes finitely many formulas.", "anchors": ["Set.py:Set.__init__", "InputReader.py:__parse_single_line_input"]}
{"id": "C17", "title": "The -l option never produces a verdict", "statement": "Solving a formula passed on the command line (-l) always ends in an unbound-variable error, for every formula; the same text in a file (-lf) is read.", "quantifier": "every non-empty command-line text", "why_tests_cant": "The claim is universal over inputs.", "anchors": ["InputReader.py:get_cnf_set", "main.py:Main"]}
{"id": "C18", "title": "DIMACS reader reads back every well-formed file", "statement": "Reading a file made of one header line, any comment and problem lines, and the clauses of a formula (each of 1 to 3 literals, terminated by 0, arbitrarily split over non-blank lines) yields exactly the formula's clauses in order; an unterminated last clause is accepted.", "quantifier": "every formula with clauses of 1..3 non-zero literals, every list of header/comment lines, every layout of the literal tokens into lines", "why_tests_cant": "The input space is infinite; a test fixes finitely many formulas.", "anchors": ["InputReader.py:__parse_dimacs_file"]}
{"id": "C19", "title": "DIMACS reader silently ignores the first line and everything after a blank line", "statement": "The first line of the file never contributes to the formula, and no line after the first blank line (from line 2 on) does, whatever they contain; so a file without header line loses its first clause, which can turn an unsatisfiable input into one reported satisfiable.", "quantifier": "every file content", "why_tests_cant": "The claim quantifies over all file contents.", "anchors": ["InputReader.py:__parse_dimacs_file"]}
{"id": "C20", "title": "DIMACS reader rejects wide clauses", "statement": "A 0-terminated clause of more than three literals anywhere in the portion of the file that is read makes the reader fail with an exception; the only wide clause that can get through is an unterminated last one.", "quantifier": "every file content", "why_tests_cant": "The input space is infinite; a test fixes finitely many formulas.", "anchors": ["InputReader.py:__parse_dimacs_file"]}
{"id": "C21", "title": "Verdict soundness", "statement": "If the solver reports SATISFIABLE, the input formula is satisfiable, and every total assignment extending the printed solution satisfies the input formula.", "quantifier": "every input formula (non-empty clauses, distinct variables per clause), every mode and option combination (no global DB)", "why_tests_cant": "The input space is infinite; a test fixes finitely many formulas. A bug in the name bookkeeping corrupts only some deep branches.", "anchors": ["PatternSolver.py:process_nodes_queue", "PatternSolver.py:solve_set", "Set.py:Set.evaluate"]}
{"id": "C22", "title": "Verdict completeness", "statement": "If the input formula is satisfiable, the solver reports SATISFIABLE, and otherwise 'Not satisfiable', in spite of skipping nodes already seen.", "quantifier": "every input formula, mode and option combination (no global DB); every hash without collision among the nodes of the run", "why_tests_cant": "The input space is infinite; a test fixes finitely many formulas. Pruning by hash is sound only globally.", "anchors": ["PatternSolver.py:process_nodes_queue", "PatternSolver.py:solve_set"]}
{"id": "C23", "title": "The solver terminates without error", "statement": "On every formula with at least one clause, non-empty clauses and distinct variables per clause, the search loop ends after finitely many steps and no exception is raised.", "quantifier": "every such formula, mode and option combination", "why_tests_cant": "Termination and absence of exceptions over all inputs cannot be tested.", "anchors": ["PatternSolver.py:process_nodes_queue", "PatternSolver.py:solve_set"]}
{"id": "C24", "title": "The verdict does not depend on the options", "statement": "Mode, sort-by-size, thief, exit-upon-solving, runtime-DB and number of processes do not change the verdict.", "quantifier": "every pair of option settings, every input formula", "why_tests_cant": "The input space is infinite; a test fixes finitely many formulas.", "anchors": ["PatternSolver.py:solve_set", "main.py"]}
{"id": "C25", "title": "The built-in verifier accepts every solution found", "statement": "Verification of a found solution against the original formula answers True; more generally the verifier answers True exactly when every clause contains a literal made true by an assigned variable.", "quantifier": "every input formula with non-zero literals, mode and options (no global DB); for the second part every formula and partial assignment", "why_tests_cant": "The input space is infinite; a test fixes finitely many formulas.", "anchors": ["PatternSolver.py:verify_solution", "main.py:Main"]}
{"id": "C26", "title": "Each node is expanded at most once and the graph is closed", "statement": "During a run no two expanded nodes have the same id; every child id recorded for a node is itself a node of the recorded graph; every node has at most two recorded children.", "quantifier": "every reachable state of the search loop", "why_tests_cant": "Quantifies over all intermediate states of all runs.", "anchors": ["PatternSolver.py:process_nodes_queue"]}
{"id": "C27", "title": "The recorded graph is the set of reachable normalised subformulas", "statement": "When the search runs to the end (no early exit, no thief ordering), the ids in the recorded graph are exactly the hashes of the normalised formulas reachable from the root by branching, and the children recorded for a node are exactly its undecided cofactors, left first.", "quantifier": "every input formula and mode", "why_tests_cant": "The input space is infinite; a test fixes finitely many formulas.", "anchors": ["PatternSolver.py:process_nodes_queue"]}
{"id": "C28", "title": "Early exit returns the same first solution", "statement": "With exit-upon-solving the solver returns the same verdict and the same solution as without it, and its recorded nodes are among those of the full run.", "quantifier": "every input formula, mode and option", "why_tests_cant": "The input space is infinite; a test fixes finitely many formulas.", "anchors": ["PatternSolver.py:process_nodes_queue"]}
{"id": "C29", "title": "The work queue is first-in first-out", "statement": "Any interleaving of insertions and removals on the in-memory work queue returns the inserted sets in insertion order, each exactly once; size and emptiness agree with the number of pending sets; removing from an empty queue is an error.", "quantifier": "every sequence of queue operations", "why_tests_cant": "Quantifies over all histories.", "anchors": ["SuperQueue.py:SuperQueue"]}
{"id": "C30", "title": "The database-backed queue returns what was inserted", "statement": "With the runtime DB the queue returns, in insertion order, sets with the same id, clauses, assigned variables, original values and names map as were inserted (ids distinct); the input position of clauses is not kept but replaced by the position in the node.", "quantifier": "every sequence of operations inserting normalised undecided sets with distinct ids", "why_tests_cant": "Quantifies over all histories and set contents.", "anchors": ["SuperQueue.py:SuperQueue", "DbAdaptor.py:rtq_insert_set", "DbAdaptor.py:rtq_get_set"]}
{"id": "C31", "title": "The unique-queue option loses or corrupts items", "statement": "With unique_queue set, the in-memory queue never returns an equal item twice in its whole life (re-insertion after removal is dropped), and with the runtime DB as well the first removal after an insertion fails.", "quantifier": "every history", "why_tests_cant": "Quantifies over histories.", "anchors": ["SuperQueue.py:SuperQueue.insert", "SuperQueue.py:SuperQueue.pop"]}
{"id": "C32", "title": "Unique-node statistics count the reachable nodes", "statement": "For every node of the recorded graph, the reported number of unique nodes of its subgraph is the number of distinct nodes reachable from it (itself included); the traversal terminates on every graph, also with shared or cyclic structure, without missing-key errors when the graph is closed.", "quantifier": "every finite closed graph and node", "why_tests_cant": "Universal over graphs.", "anchors": ["PatternSolver.py:get_node_subgraph_stats", "PatternSolver.py:construct_graph_stats"]}
{"id": "C33", "title": "Redundancy statistics count repeated arrivals", "statement": "The redundant hits of a node's subgraph equal the number of edges leaving its reachable nodes minus the number of reachable nodes plus one; the redundant count is the number of reachable nodes that are entered at least twice (the start node counting as entered once).", "quantifier": "every finite closed graph and node", "why_tests_cant": "Universal over graphs.", "anchors": ["PatternSolver.py:get_node_subgraph_stats", "PatternSolver.py:construct_graph_stats"]}
{"id": "C34", "title": "Splitting over processes does not change the outcome", "statement": "Without a global DB, splitting the pending nodes over worker processes and merging their answers, in whatever order they arrive, ends, with a correct solution if 'satisfiable' is reported and a closed graph; without hash collisions the verdict is exact and equal to that of the single-process run, and (full runs, no thief ordering) the recorded graph and the reported counts are the same as those of the single-process run. With -t 1 the program is the single-process one.", "quantifier": "every input formula, number of workers, option set without global DB, hash function and arrival order of worker results, all workers succeeding", "why_tests_cant": "Quantifies over schedules.", "anchors": ["PatternSolver.py:process_nodes_queue"]}
{"id": "C35", "title": "A failing worker blocks the main process forever", "statement": "Without a global DB: if a worker reports failure (the (None, None, None) answer), the program never ends, unless exit-upon-solving is on and a working worker was given a satisfiable set; if it ends, then with a correct solution; and in that exceptional case (no hash collisions) it does end.", "quantifier": "every input formula, number of workers, set of failing workers and schedule of worker messages", "why_tests_cant": "Non-termination under every schedule is not observable by a test.", "anchors": ["PatternSolver.py:process_nodes_queue"]}
{"id": "C36", "title": "A fresh global DB does not change the verdict and records the graph", "statement": "A single-process run with the global DB enabled on an empty table has the same verdict, solution and recorded graph as without it; afterwards the table has exactly one row per expanded node, holding its text, clause count and the hashes of its two children.", "quantifier": "every input formula and mode, both with and without in-memory hashes", "why_tests_cant": "The input space is infinite; a test fixes finitely many formulas.", "anchors": ["PatternSolver.py:process_nodes_queue", "PatternSolver.py:save_parent_children", "DbAdaptor.py:gs_insert_row"]}
{"id": "C37", "title": "A solved formula is reported unsatisfiable on the next run", "statement": "When the root formula is marked solved in the global DB, the run prints 'Not satisfiable' and no solution, whatever the formula; so solving a satisfiable formula twice with the global DB gives contradictory verdicts.", "quantifier": "every formula, mode and table marking the root solved; every satisfiable formula for the two-run claim", "why_tests_cant": "The claim is universal over formulas and table contents.", "anchors": ["PatternSolver.py:solve_set", "PatternSolver.py:is_set_solved"]}
{"id": "C38", "title": "A lost insert prunes the search", "statement": "If storing the root row in the global DB fails for any reason (reported as a uniqueness violation), its children are not explored: the run records no deeper node and can report 'Not satisfiable' for a satisfiable formula.", "quantifier": "every formula and every failure of the insert statement", "why_tests_cant": "Quantifies over failure points.", "anchors": ["DbAdaptor.py:gs_insert_row", "PatternSolver.py:process_nodes_queue"]}
{"id": "C39", "title": "Resuming from an interrupted global DB run", "statement": "A run started on the table left by an interrupted run of the same search never gives a wrong verdict: it either aborts with an exception or its verdict is right and the solution it prints is either correct or empty. Children loaded from the table carry no variable maps, so a loaded child cannot be branched: if the rows of all branches of the root are there but the first run was not finished, the second run aborts; if the first run was finished (but its statistics not stored), the second repeats verdict and graph, finds every node in the table and prints an empty solution.", "quantifier": "every table and loaded set", "why_tests_cant": "Quantifies over crash points.", "anchors": ["PatternSolver.py:get_children_from_gdb", "Set.py:Set.evaluate"]}
{"id": "C40", "title": "Global table rows are never overwritten by inserts", "statement": "Inserting a row for a hash already present leaves the table unchanged and reports a violation; otherwise exactly that row is added; updating counts changes only the counts of that hash; redundant_times only grows.", "quantifier": "every table and operation sequence", "why_tests_cant": "Quantifies over histories.", "anchors": ["DbAdaptor.py:gs_insert_row", "DbAdaptor.py:gs_update_count", "DbAdaptor.py:gs_update_redundant_times", "DbAdaptor.py:gs_is_hash_solved"]}
{"id": "C41", "title": "Factoring preprocessor reads the target number and keeps the solutions", "statement": "On a set whose first clause has three literals, the factoring preprocessor computes the number whose binary digits, least significant first, are the signs of the unit clauses, and the set it leaves is satisfied by an assignment agreeing with the fixed values exactly when the original set is.", "quantifier": "every clause set with non-zero literals and consistent unit clauses", "why_tests_cant": "The input space is infinite; a test fixes finitely many formulas.", "anchors": ["Factorizer.py:preprocess_set"]}
{"id": "C42", "title": "Factor decoding", "statement": "The printed factors are the numbers encoded by variables 1..f1 and f1+1..f1+f2 whenever the solution assigns every variable from 1 to f1+f2 and there are at least f1+f2 unit clauses; if the solution leaves an earlier variable unassigned the decoding reads shifted bits and can print wrong factors for a correct solution. A factor that gets no bit at all makes the program fail with ValueError instead of printing factors.", "quantifier": "every solution dictionary and factor lengths; an exhibited solution for the failure", "why_tests_cant": "The input space is infinite; a test fixes finitely many formulas.", "anchors": ["PatternSolver.py:solve_set"]}
{"id": "C43", "title": "Multiplication preprocessor", "statement": "For factors that fit the bit lengths, the preprocessor fixes variables 1..f1 to the bits of the larger factor and f1+1..f1+f2 to the bits of the smaller, removes exactly the unit clauses, remembers their variables in order as result bits, and restricts the remaining clauses; it refuses exactly when a factor does not fit.", "quantifier": "every pair of factors > 1 and clause set", "why_tests_cant": "The input space is infinite; a test fixes finitely many formulas.", "anchors": ["Multiply.py:preprocess_set"]}
{"id": "C44", "title": "Solution file format", "statement": "The solution file lists every assigned variable exactly once, the true ones on a line starting T: and the false ones on a line starting F:, so the solution can be recovered from the file.", "quantifier": "every solution dictionary", "why_tests_cant": "The input space is infinite; a test fixes finitely many formulas.", "anchors": ["PatternSolver.py:format_solution"]}
{"id": "C45", "title": "Breadth-first exploration", "statement": "Sets are expanded in order of non-decreasing branching depth: at any time the pending sets' depths are non-decreasing and differ by at most one.", "quantifier": "every reachable state of the search loop", "why_tests_cant": "Quantifies over all intermediate states.", "anchors": ["PatternSolver.py:process_nodes_queue", "SuperQueue.py:SuperQueue"]}
{"id": "C46", "title": "The drawn graph is the recorded graph", "statement": "With the graph option, the drawing has one box per node of the recorded graph (in the order the nodes were met), one arrow per recorded parent/child pair and, when the statistics pass is off, one red marking per reported redundant hit; it has an arrow to a True leaf exactly when the verdict is SATISFIABLE; without the option nothing is drawn. A box is marked red once for every arrow that leads to it beyond the first, so the red boxes are exactly those (other than the first) that at least two arrows lead to. Two arrows leave every box, to boxes or to the leaves; only with -e, once a solution is found, boxes still waiting have none.", "quantifier": "all input formulas, hash functions and options", "why_tests_cant": "the drawing is produced incrementally during the search; equality with the graph must hold for every input and every sharing pattern", "anchors": ["PatternSolver.py: PatternSolver.draw_node, process_nodes_queue, solve_set"]}
{"id": "C47", "title": "End to end: from the input file to the report", "statement": "Run on a file (single-line or DIMACS) that holds a formula with at least one non-tautological clause, without preprocessing options and with no or a fresh global DB, the program ends with a report: 'SATISFIABLE' is printed only for satisfiable formulas and with a solution all of whose completions satisfy the formula of the file, the written solution file and the verifier's answer concern that solution and the verifier accepts it (no literal 0), and the verdict is exact unless two formulas met in the search collide under the hash. A formula made of tautologies only ends in an exception instead of 'SATISFIABLE', and a file without clauses gets no verdict.", "quantifier": "every formula in either format and every layout of the file, every solver option combination, every hash function", "why_tests_cant": "ranges over all formulas, layouts, options and hash functions", "anchors": ["main.py:Main", "InputReader.py:InputReader", "PatternSolver.py:PatternSolver.solve_set", "PatternSolver.py:PatternSolver.verify_solution"]}
{"id": "C48", "title": "Several worker processes on one shared global table give the outcome of a single process", "statement": "With -gdb (without -gnm), an empty table and any number of workers, whatever the order in which the processes run: the program ends; a reported solution satisfies the input formula; the table ends with at most one row per set, and every row holds the text of a set met by the search under its hash, its clause count and the hashes of its two branches, even when exit-upon-solving cuts the workers off. Unless two formulas met in the search collide under the hash, the verdict is exact and equal to that of the single-process run, and in full runs without thief ordering the merged graph, the reported counts and the table (row by row, with the stored counts) are those of the single-process run. With -t 1 the program is the single-process one.", "quantifier": "every input formula, hash function, number of workers, fair interleaving of worker iterations and collecting rounds, and every moment at which the workers are terminated", "why_tests_cant": "a worker that loses the race for a row drops the whole sub-search below it and relies on the winner; that nothing is lost must hold for every interleaving", "anchors": ["PatternSolver.py:PatternSolver.process_nodes_queue", "PatternSolver.py:PatternSolver.save_parent_children", "DbAdaptor.py:gs_insert_row"]}
{"id": "C49", "title": "A worker that dies blocks the program, and -gnm can make one die", "statement": "Once a worker process is gone without an answer, the main process waits for it for ever, whatever the others do, unless exit-upon-solving is on. Likewise, once sets are handed out to workers of which one reports that it could not set up its database access, no run ends without exit-upon-solving. A death is reachable: with -gdb -gnm and two workers there is a formula that one process solves but on which, under a fair schedule, a worker reads back sets without variable names from the table, dies on them, and the program never ends.", "quantifier": "every state of the collecting loop with a dead worker, every schedule; for the refutation one formula and one fair schedule", "why_tests_cant": "non-termination under a specific interleaving; an observation of finite length cannot show it", "anchors": ["PatternSolver.py:PatternSolver.process_nodes_queue", "PatternSolver.py:PatternSolver.get_children_from_gdb"]}
{"id": "C50", "title": "Every set of the search is the input restricted by its path, clause by clause", "statement": "Every set met by the search is the input formula under the assignment recorded with it: its clauses correspond one to one to the input clauses not yet satisfied, and each consists of exactly the unassigned literals of its input clause, under the recorded variable names; without the runtime DB each clause carries the position of its input clause.", "quantifier": "all formulas without literal 0, all options, all sets met by the search", "why_tests_cant": "induction over search depth; a dropped, duplicated or mixed-up clause may only show deep in the search and need not change a verdict", "anchors": ["Set.py:Set.evaluate", "Set.py:Set.to_lo_condition", "Set.py:Set.rename_vars"]}
{"id": "C51", "title": "The thief method and -ls order the clauses as documented", "statement": "In the modes that do not sort by variable, the thief method leaves the clauses of every set shortest first and, within a length, in the order of the input, so the next branching variable comes from a shortest clause, the earliest one; -ls orders by length and keeps the order otherwise; without both the clause order is kept. With the runtime DB the clause numbers are lost, and the thief method searches a different graph.", "quantifier": "all sets, both modes, every set of a search; one formula for the refutation", "why_tests_cant": "a stable order by two keys maintained through renaming and repeated branching, for all inputs", "anchors": ["Set.py:Set.sort_clauses_by_len_and_initial_index", "Set.py:Set.sort_clauses_by_length", "Set.py:Set.to_lo_condition", "SuperQueue.py:SuperQueue"]}
{"id": "C52", "title": "Generated formulas describe exactly the factorisations", "statement": "For every number n >= 4, every adder (n-bit, fast) and every multiplier (carry-save, wallace, recursive), tools/sabry_cnf_gen.hs ends with a formula whose models are exactly the factorisations of n into two numbers of the announced sizes, each given by exactly one model on the formula's variables; both factors are greater than 1; the formula is satisfiable exactly when n is not prime. (For n = 2 and 3 it is satisfiable although n is prime.)", "quantifier": "all n >= 4, all six combinations of adder and multiplier, all assignments", "why_tests_cant": "infinitely many circuits and assignments; circuits are built by recursion on the size of the number", "anchors": ["tools/sabry_cnf_gen.hs:main", "tools/sabry_cnf_gen.hs:sym_multiplier", "tools/sabry_cnf_gen.hs:carry_save_multiplier", "tools/sabry_cnf_gen.hs:wallace_multiplier", "tools/sabry_cnf_gen.hs:recursive_multiplier", "tools/sabry_cnf_gen.hs:fast_adder"]}
{"id": "C53", "title": "Generated files are read and decided correctly", "statement": "The printed text is a DIMACS file (comments, one problem line with the right counts, one line per clause ended by 0) from which the solver reads exactly the generated formula; its header names the number with its binary digits, the output literals (which spell the number in every model) and the variables of both factors; numbers below 2 are refused; the solver run on the file reports satisfiable only for composite numbers, with a solution that encodes two factors, and reports satisfiable for every composite number unless hashes collide.", "quantifier": "all n >= 4, all generator options, all solver options, all hash functions", "why_tests_cant": "composition of a generator and a solver over unboundedly many inputs", "anchors": ["tools/sabry_cnf_gen.hs:main", "InputReader.py:InputReader.read_dimacs", "main.py:Main"]}
{"id": "C54", "title": "-fact factors generated numbers", "statement": "With -fact on a file generated for n the program prints two proper factors of n, or that n is prime (exact unless hashes collide); never the wrong number, a wrong factorisation or an exception. Holds for carry-save and wallace for all n >= 4, for recursive up to 21 bits and for even bit lengths up to 40; refuted for recursive beyond (23 bits: it reads the number 4n+3).", "quantifier": "all n >= 4, all array-shaped circuits, all solver options, all hash functions; one n for the refutation", "why_tests_cant": "needs that every generated circuit has the layout the preprocessor guesses, for every size", "anchors": ["Factorizer.py:Factorizer", "PatternSolver.py:PatternSolver.solve_set", "tools/sabry_cnf_gen.hs:main"]}
{"id": "C55", "title": "-mult multiplies on generated files", "statement": "With -mult p q on a generated file the program prints p*q whenever the factors fit into the file's variables (unless hashes collide), refuses them otherwise, and never prints a wrong product or fails with an exception.", "quantifier": "all n >= 4, all p, q > 1, all array-shaped circuits, all solver options, all hash functions", "why_tests_cant": "unboundedly many circuits and factors", "anchors": ["Multiply.py:Multiply", "PatternSolver.py:PatternSolver.solve_set", "tools/sabry_cnf_gen.hs:main"]}
{"id": "C56", "title": "The generator's circuits compute", "statement": "Simulated on numbers, both adders add, the Wallace-tree adder adds any list of numbers, the subtracter subtracts and fails on negative results, and every combination of adder and multiplier multiplies positive numbers of any size. Limits: 0+0 has no value with the fast adder, a factor 0 none with the carry-save multiplier.", "quantifier": "all natural numbers of any size, all combinations", "why_tests_cant": "unbounded sizes", "anchors": ["tools/sabry_cnf_gen.hs:n_adder", "tools/sabry_cnf_gen.hs:fast_adder", "tools/sabry_cnf_gen.hs:w_adder", "tools/sabry_cnf_gen.hs:subt"]}
{"id": "C57", "title": "The recursion limit bounds the formulas that get a verdict", "statement": "The statistics are computed recursively. If Python grants at least one nested call per variable of the input, the program ends exactly as it would without a limit. If it grants fewer, there are inputs (x1 & ... & xn with n above the limit) that are satisfiable, for which the search ends and finds the solution, and for which the program nevertheless prints an error instead of the verdict, unless -ns is given. No limit changes anything else: an outcome reached with a limit, whatever the database holds, is the outcome reached without one.", "quantifier": "all limits, all inputs (all n for the second part), all solver options, all hash functions", "why_tests_cant": "unboundedly many inputs and limits; the bound is on the depth of a graph the program builds", "anchors": ["PatternSolver.py:PatternSolver.get_node_subgraph_stats", "PatternSolver.py:PatternSolver.construct_graph_stats", "PatternSolver.py:PatternSolver.solve_set"]}
{"id": "C58", "title": "The command line is checked and its effects are those named", "statement": "A command line is accepted exactly when one input is given, at most one of -v -vv -q -qn, a non-negative number of threads, -gnm only with -gdb, and factors above 1 for -mult; any other ends at once with status 3 (negative threads) or 2, without any effect. An accepted one writes at most the graph file named by -g and the solution file, whose name is the input name without extension plus mode, never the input file itself and different for different stems or modes. The report (and with it the verdict) is shown exactly with -v or -vv, -qn shows only the number of unique nodes, errors are always shown. Without -gdb the global table is neither used nor changed, whatever -t says (the help text says otherwise).", "quantifier": "all command lines, all environments (hash, database, machine, schedule), all file names", "why_tests_cant": "all combinations of options and all file names; effects under every schedule", "anchors": ["main.py:Main", "main.py:__main__", "configs.py", "PatternSolver.py:PatternSolver.solve_set"]}
{"id": "C59", "title": "End to end from the command line, with any number of processes", "statement": "Started with any accepted command line without -fact and -mult, any number of processes, with and without -gdb on a fresh table, on a file holding a formula with at least one clause that is not a tautology, the program ends with a report under every fair schedule; 'satisfiable' is always right and comes with a correct solution, which is what is written and verified; the verdict is exact unless two formulas of the search have the same hash. Exceptions: only tautologies (error), no clauses or a malformed field (no answer), -l (error).", "quantifier": "all accepted command lines, files, hash functions, fair schedules", "why_tests_cant": "all inputs, options and schedules", "anchors": ["main.py:Main", "PatternSolver.py:PatternSolver.solve_set", "PatternSolver.py:PatternSolver.process_nodes_queue", "InputReader.py"]}
{"id": "C60", "title": "-fact and -mult from the command line, with any number of processes", "statement": "With -fact, on a formula in the expected layout all of whose models encode factors of the number in its unit clauses, the program with any number of processes reports correct factors when it finds a solution and 'prime' otherwise; with -mult it reports the right product or that the factors cannot be multiplied.", "quantifier": "all accepted command lines, formulas, hash functions, fair schedules", "why_tests_cant": "all inputs, options and schedules", "anchors": ["main.py:Main", "Factorizer.py", "Multiply.py", "PatternSolver.py:PatternSolver.solve_set"]}
{"id": "C61", "title": "Generator and solver together, with any number of processes", "statement": "On the file generated for n >= 4 by any combination of adder and multiplier, the program with any number of processes answers whether n is composite, with two proper factors in every completion of the solution; with -fact it prints proper factors or 'prime', with -mult p q the product, or refuses exactly when p, q do not fit.", "quantifier": "all n >= 4, all generator options, all command lines, hash functions, fair schedules", "why_tests_cant": "all numbers and schedules", "anchors": ["tools/sabry_cnf_gen.hs", "main.py:Main", "PatternSolver.py"]}
{"id": "C62", "title": "Nodes found by workers are neither drawn nor counted", "statement": "Once the waiting sets are handed out to worker processes, the graph file and, with -ns, the number shown by -qn are fixed: they cover exactly the sets expanded before and the sets handed out, with arrows only from the former, although the recorded graph is complete. A concrete run records 17 nodes and shows 5.", "quantifier": "all runs in which sets are handed out, all schedules, with and without -gdb", "why_tests_cant": "all inputs and schedules", "anchors": ["PatternSolver.py:PatternSolver.process_nodes_queue", "PatternSolver.py:PatternSolver.solve_set"]}
{"id": "C63", "title": "Global tables over many runs", "statement": "The tables of the modes are kept apart: an event (a run, complete, failed or killed at any point, or a deletion) changes the table of a mode only if it is a run in that mode with -gdb or deletes it. delete_gdb.py empties exactly the table asked for, never that of mode 'normal', and says so. A reporting run changes its table only by inserting rows under new hashes, writing positive counts and adding to redundant_times; so through any sequence of events no row is lost or changes content and a solved set stays solved. The verdict of a run without -gdb, or with -gdb on a table unused since it was last deleted, does not depend on the past.", "quantifier": "all finite sequences of runs (any options, inputs, outcomes, kill points), deletions and creations, one after the other", "why_tests_cant": "unbounded histories and crash points", "anchors": ["PatternSolver.py:PatternSolver.__init__", "PatternSolver.py:PatternSolver.solve_set", "DbAdaptor.py", "delete_gdb.py", "tools/create_global_table.py"]}
{"id": "C64", "title": "A problem solved once with -gdb is denied ever after", "statement": "Once a problem was solved with -gdb and statistics (whatever the verdict), every later run of it in the same mode with -gdb reports 'Not satisfiable' without a solution, leaves the table as it is, and with -fact calls the number prime, whatever was run, killed or deleted in between as long as it is not this mode's table, and whatever the other options; in mode 'normal' for ever. So on the file generated for a composite number -fact -gdb prints its factors the first time and 'prime' every other time. (A defect, stated as the code behaves.)", "quantifier": "all problems, command lines, hash functions, histories before and between the two runs", "why_tests_cant": "unbounded histories", "anchors": ["PatternSolver.py:PatternSolver.solve_set", "PatternSolver.py:PatternSolver.get_children_from_gdb", "main.py:Main", "delete_gdb.py"]}
{"id": "C65", "title": "Generator: constraint builders are exact", "statement": "The clauses returned by the generator's builders (less than, at most, more than, at least, equal to a bound; parity; majority, minority, exactly half rounded up or down) are satisfied by exactly the assignments with that number of true variables, for every list of variables, also with repetitions, and every bound, also negative or beyond the length of the list. Over different variables the clauses use only these and no variable twice, so a formula accepts them under all its checks.", "quantifier": "all variable lists, bounds and assignments", "why_tests_cant": "the number of assignments and subsets is exponential and lists are unbounded", "anchors": ["software/cnfgen/cnfformula/cnf.py:less_than_constraint", "software/cnfgen/cnfformula/cnf.py:less_or_equal_constraint", "software/cnfgen/cnfformula/cnf.py:greater_than_constraint", "software/cnfgen/cnfformula/cnf.py:greater_or_equal_constraint", "software/cnfgen/cnfformula/cnf.py:equal_to_constraint", "software/cnfgen/cnfformula/cnf.py:parity_constraint", "software/cnfgen/cnfformula/cnf.py:loose_majority_constraint", "software/cnfgen/cnfformula/cnf.py:loose_minority_constraint", "software/cnfgen/cnfformula/cnf.py:exactly_half_ceil", "software/cnfgen/cnfformula/cnf.py:exactly_half_floor"]}
{"id": "C66", "title": "Generator: the formula object keeps what it is given", "statement": "Whatever was done to a formula object before: add_clause accepts a clause exactly when it has no repeated literal (unless allowed), no opposite literals (unless allowed) and only known variables (unless they are added automatically), strict overriding the permissions, and raises ValueError otherwise; an accepted clause becomes the last of clauses(), unchanged, and its new variables are appended to variables() in order of appearance; add_clause_unsafe takes any clause over known variables and raises KeyError otherwise; add_variable is idempotent. variables() never has repetitions and contains all variables of clauses(). CNF(clauses) gives the clauses back.", "quantifier": "all histories of calls, all clauses and flags", "why_tests_cant": "unbounded histories of calls", "anchors": ["software/cnfgen/cnfformula/cnf.py:CNF.add_clause", "software/cnfgen/cnfformula/cnf.py:CNF.add_clause_unsafe", "software/cnfgen/cnfformula/cnf.py:CNF.add_variable", "software/cnfgen/cnfformula/cnf.py:CNF.clauses", "software/cnfgen/cnfformula/cnf.py:CNF.variables", "software/cnfgen/cnfformula/cnf.py:CNF.__init__"]}
{"id": "C67", "title": "Generated DIMACS files and NDP", "statement": "The file written for a formula object consists of comment lines, the line 'p cnf <number of variables> <number of clauses>', one line per clause in which literal i stands for the i-th variable of variables(), and a blank line. If all clauses have one to three literals (not all of them with opposite literals), NDP, with any number of processes, ends on it with a report; 'SATISFIABLE' is right, and the solution read through variables() satisfies clauses(); without hash collision the verdict is exact. A clause of more than three literals makes NDP's reader fail. Exception: empty clauses are not seen by NDP, which behaves as if they were not there, so that an unsatisfiable generated formula can be declared satisfiable.", "quantifier": "all formula objects obtainable through the public methods, headers, command lines, schedules and hash functions", "why_tests_cant": "unbounded formulas, schedules and command lines", "anchors": ["software/cnfgen/cnfformula/cnf.py:CNF.dimacs", "software/cnfgen/cnfformula/cnf.py:CNF._dimacs_dump_clauses", "software/cnfgen/cnfformula/cnfgen.py:command_line_utility", "InputReader.py:InputReader", "main.py:Main"]}
{"id": "C68", "title": "Generator: mappings and pigeonhole formulas", "statement": "The clauses of a unary mapping (complete, optionally functional, surjective, injective, nondecreasing) are satisfied by exactly the relations with these properties, those of a binary mapping by exactly the assignments whose numbers are positions in the range and, if asked, different and nondecreasing. PigeonholePrinciple always returns a formula, whose models are exactly the placements of pigeons in holes with the properties asked for; it is satisfiable exactly when the holes suffice. GraphPigeonholePrinciple: the same along the edges of a bipartite graph; satisfiable exactly when there is a matching of the left side (and, when onto and functional, sides of equal size). BinaryPigeonholePrinciple: satisfiable exactly when pigeons <= holes; ValueError without holes.", "quantifier": "all domains, ranges, flags, bipartite graphs, numbers of pigeons and holes, assignments", "why_tests_cant": "graphs, sizes and assignments are unbounded, and unsatisfiability cannot be tested beyond small sizes", "anchors": ["software/cnfgen/cnfformula/cnf.py:unary_mapping", "software/cnfgen/cnfformula/cnf.py:binary_mapping", "software/cnfgen/cnfformula/families/pigeonhole.py:PigeonholePrinciple", "software/cnfgen/cnfformula/families/pigeonhole.py:GraphPigeonholePrinciple", "software/cnfgen/cnfformula/families/pigeonhole.py:BinaryPigeonholePrinciple"]}
{"id": "C69", "title": "Generator: counting and perfect matching formulas", "statement": "CountingPrinciple(M,p) returns, for p >= 0, a formula whose models are the sets of p-element subsets of 0..M-1 such that every element is in exactly one; satisfiable exactly when p divides M; ValueError for negative p. PerfectMatchingPrinciple(G): a model selects edges with every vertex on exactly one; satisfiable exactly when G has a perfect matching, never with an odd number of vertices.", "quantifier": "all M, p, simple graphs and assignments", "why_tests_cant": "graphs, sizes and assignments are unbounded, and unsatisfiability cannot be tested beyond small sizes", "anchors": ["software/cnfgen/cnfformula/families/counting.py:CountingPrinciple", "software/cnfgen/cnfformula/families/counting.py:PerfectMatchingPrinciple"]}
{"id": "C70", "title": "Generator: ordering principles", "statement": "GraphOrderingPrinciple returns a formula for every simple graph and every combination of total, smart, plant and knuth; its models are the antisymmetric (total if asked), transitive relations -- for Knuth's variants transitive on fewer triples -- in which every vertex (but the last, if planted) has a smaller neighbour. In every form it is satisfiable exactly when there is no vertex, or the minimum is planted and every vertex is connected to the last one. OrderingPrinciple(n) is satisfiable exactly when n <= 0 or planted.", "quantifier": "all simple graphs, flags, n and assignments", "why_tests_cant": "graphs, sizes and assignments are unbounded, and unsatisfiability cannot be tested beyond small sizes", "anchors": ["software/cnfgen/cnfformula/families/ordering.py:GraphOrderingPrinciple", "software/cnfgen/cnfformula/families/ordering.py:OrderingPrinciple"]}
{"id": "C71", "title": "Generator: Ramsey, Pythagorean triples, clique-colouring", "statement": "RamseyLowerBoundFormula(s,k,N) is satisfiable exactly when some graph on 1..N has no independent set of size s and no clique of size k (ValueError for negative s or k). PythagoreanTriples(N): the models are the two-colourings of 1..N without a triple x^2+y^2=z^2 of one colour. CliqueColoring(n,k,c): the models are the graphs on n vertices with a k-clique and a proper c-colouring; satisfiable exactly when k <= n, k <= c and (n >= 1 implies c >= 1).", "quantifier": "all s, k, N, n, c and assignments", "why_tests_cant": "graphs, sizes and assignments are unbounded, and unsatisfiability cannot be tested beyond small sizes", "anchors": ["software/cnfgen/cnfformula/families/ramsey.py:RamseyLowerBoundFormula", "software/cnfgen/cnfformula/families/ramsey.py:PythagoreanTriples", "software/cnfgen/cnfformula/families/cliquecoloring.py:CliqueColoring"]}
{"id": "C72", "title": "Generator: colouring, even colouring, dominating set", "statement": "GraphColoringFormula(G,colours): the models are the assignments of colours to vertices (exactly one if functional) without a common colour at the ends of an edge; satisfiable exactly when G has a proper colouring; ValueError when a colour is listed twice. EvenColoringFormula(G): ValueError when a degree is odd; otherwise the models select half of the edges at every vertex, and there is one exactly when every component has an even number of edges (the docstring says: of vertices, which is wrong). DominatingSet(G,d), d >= 0, both constructions: satisfiable exactly when there is a dominating set of at most d vertices, and the variables x_{v} of a model select one.", "quantifier": "all simple graphs, colour lists, d and assignments", "why_tests_cant": "graphs, sizes and assignments are unbounded, and unsatisfiability cannot be tested beyond small sizes", "anchors": ["software/cnfgen/cnfformula/families/coloring.py:GraphColoringFormula", "software/cnfgen/cnfformula/families/coloring.py:EvenColoringFormula", "software/cnfgen/cnfformula/families/dominatingset.py:DominatingSet"]}
{"id": "C73", "title": "Generator: subset cardinality formulas", "statement": "SubsetCardinalityFormula(B) returns a formula whose models select at least half of the edges at every left vertex and at most half at every right vertex (with equalities: exactly half, rounded up on the left and down on the right); it is satisfiable exactly when all degrees are even.", "quantifier": "all bipartite graphs and assignments", "why_tests_cant": "graphs, sizes and assignments are unbounded, and unsatisfiability cannot be tested beyond small sizes", "anchors": ["software/cnfgen/cnfformula/families/subsetcardinality.py:SubsetCardinalityFormula"]}
{"id": "C74", "title": "Generator: isomorphism and automorphism formulas", "statement": "GraphIsomorphism(G1,G2) returns a formula for all simple graphs; every model, read as 'x_{u,v}: u is mapped to v', is an isomorphism of G1 onto G2, and every isomorphism is a model. GraphAutomorphism(G) is satisfiable exactly when G has an automorphism that moves a vertex.", "quantifier": "all simple graphs and assignments", "why_tests_cant": "graphs, sizes and assignments are unbounded, and unsatisfiability cannot be tested beyond small sizes", "anchors": ["software/cnfgen/cnfformula/families/graphisomorphism.py:GraphIsomorphism", "software/cnfgen/cnfformula/families/graphisomorphism.py:GraphAutomorphism"]}
{"id": "C75", "title": "Generator: Tseitin formulas", "statement": "TseitinFormula(G,charges) returns a formula for every simple graph and list of charges; a model selects edges so that the number of selected edges at the i-th vertex has the parity of the i-th charge (charges missing at the end are even; without charges the first vertex alone is odd). It is satisfiable exactly when every component has an even number of odd vertices; so with the default charges it is unsatisfiable unless there are no vertices.", "quantifier": "all simple graphs, charge lists and assignments", "why_tests_cant": "graphs, sizes and assignments are unbounded, and unsatisfiability cannot be tested beyond small sizes", "anchors": ["software/cnfgen/cnfformula/families/tseitin.py:TseitinFormula"]}
{"id": "C76", "title": "Generator: subgraph, clique and Ramsey-witness formulas", "statement": "SubgraphFormula(G,templates,symmetric) returns a formula for all simple graphs; its models are exactly the lists of different vertices of G, as many as the largest template has (in the order of G if symmetric), whose first members are connected in G as the enforced templates: the only template, the one of two that the selector c picks, and with three or more all templates except the one whose selector is true (the documentation promises at least one). With one template and symmetric=False it is satisfiable exactly when G has an induced subgraph isomorphic to the template. CliqueFormula(G,k) and BinaryCliqueFormula(G,k) are satisfiable exactly when G has a k-clique; the binary one raises ValueError on a graph without vertices. RamseyWitnessFormula(G,k,k) is satisfiable exactly when G has a clique or an independent set of size k; for different sizes the smaller set has to consist of the first of max(k,s) vertices of G.", "quantifier": "all simple graphs, template lists, sizes, code lengths and assignments", "why_tests_cant": "graphs, sizes and assignments are unbounded, and unsatisfiability cannot be tested beyond small sizes", "anchors": ["software/cnfgen/cnfformula/families/subgraph.py:SubgraphFormula", "software/cnfgen/cnfformula/families/subgraph.py:CliqueFormula", "software/cnfgen/cnfformula/families/subgraph.py:BinaryCliqueFormula", "software/cnfgen/cnfformula/families/subgraph.py:RamseyWitnessFormula"]}
{"id": "C77", "title": "Generator: pebbling and stone formulas", "statement": "PebblingFormula(D), StoneFormula(D,n) and SparseStoneFormula(D,B) raise ValueError when D has a directed cycle, when n is negative, when the left side of B and D differ in size; otherwise they return a formula. The models of a pebbling formula are the pebblings that put a pebble on every vertex whose predecessors are pebbled and none on a sink; the models of a stone formula put at least one allowed stone on each vertex, make a stone red as soon as each predecessor has another red stone, and make no stone on a sink red. All three are unsatisfiable unless D has no vertices.", "quantifier": "all directed graphs, stone numbers, bipartite graphs and assignments", "why_tests_cant": "graphs, sizes and assignments are unbounded, and unsatisfiability cannot be tested beyond small sizes", "anchors": ["software/cnfgen/cnfformula/families/pebbling.py:PebblingFormula", "software/cnfgen/cnfformula/families/pebbling.py:StoneFormula", "software/cnfgen/cnfformula/families/pebbling.py:SparseStoneFormula", "software/cnfgen/cnfformula/graphs.py:is_dag"]}
{"id": "C78", "title": "Generator: random k-CNF formulas", "statement": "RandomKCNF(k,n,m,planted) raises ValueError for negative arguments or k>n. Otherwise, whatever the random module returns, the result is a formula over the variables x_1..x_n (all of them, in this order) with exactly m different clauses, each of k literals over k different variables in increasing order and each made true by every planted assignment; ValueError is raised only when fewer than m such clauses exist (without planted assignments: exactly when m exceeds binomial(n,k)*2^k). Every list of m such clauses is a possible outcome, and every completion of a planted assignment satisfies the formula.", "quantifier": "all arguments, planted partial assignments and outcomes of the random module", "why_tests_cant": "formulas, sizes, random outcomes and assignments are unbounded; a test sees one seed and one small formula", "anchors": ["software/cnfgen/cnfformula/families/randomformulas.py:RandomKCNF", "software/cnfgen/cnfformula/families/randomformulas.py:sample_clauses", "software/cnfgen/cnfformula/families/randomformulas.py:all_clauses"]}
{"id": "C79", "title": "Generator: substitutions have the stated meaning", "statement": "Each transformation (OR, loose majority, XOR, all equal, not all equal, exactly one, if-then-else) of any formula succeeds and returns a formula over the variables {v}^i (X_{v}^i for exactly one), whose models are exactly the assignments that, read through the function on the block of each variable, satisfy the original formula; for rank at least 1 (2 for the equalities) every block variable is declared, there are rank*n of them, and satisfiability is preserved. FlipPolarity keeps the variables and negates every literal. FormulaLifting adds exactly-one selectors. VariableCompression raises ValueError for unknown functions and wrong right sides and otherwise reads variable i as the XOR or majority of the Y_{u} adjacent to the i-th right vertex.", "quantifier": "all formulas obtainable through the public methods, ranks, bipartite graphs and assignments", "why_tests_cant": "formulas, sizes, random outcomes and assignments are unbounded; a test sees one seed and one small formula", "anchors": ["software/cnfgen/cnfformula/transformations/substitutions.py:BaseSubstitution", "software/cnfgen/cnfformula/transformations/substitutions.py:OrSubstitution", "software/cnfgen/cnfformula/transformations/substitutions.py:MajoritySubstitution", "software/cnfgen/cnfformula/transformations/substitutions.py:XorSubstitution", "software/cnfgen/cnfformula/transformations/substitutions.py:AllEqualSubstitution", "software/cnfgen/cnfformula/transformations/substitutions.py:NotAllEqualSubstitution", "software/cnfgen/cnfformula/transformations/substitutions.py:ExactlyOneSubstitution", "software/cnfgen/cnfformula/transformations/substitutions.py:IfThenElseSubstitution", "software/cnfgen/cnfformula/transformations/substitutions.py:FlipPolarity", "software/cnfgen/cnfformula/transformations/substitutions.py:FormulaLifting", "software/cnfgen/cnfformula/transformations/substitutions.py:VariableCompression"]}
{"id": "C80", "title": "Generator: Shuffle only renumbers, reorders and flips", "statement": "Shuffle(F, variables, clauses, flips) with a permutation of the variables, a permutation of 0..m-1 and a vector of 1 and -1 returns a formula whose variables are listed in the given order and whose clause number clauses[k] is clause k of F with the literals of the variables marked -1 negated; literals keep their variable's name (the documentation promises that the i-th variable is replaced: only its number changes). It has as many clauses as F and is satisfiable exactly when F is. Vectors of the wrong length raise AssertionError, a list of variables that misses one raises KeyError.", "quantifier": "all formulas, permutations and sign vectors", "why_tests_cant": "formulas, sizes, random outcomes and assignments are unbounded; a test sees one seed and one small formula", "anchors": ["software/cnfgen/cnfformula/transformations/shuffle.py:Shuffle"]}
{"id": "C81", "title": "Generator: names and numbers of the variables", "statement": "Whenever a family returns a formula, its list of variables, in the order of the DIMACS numbers, is the documented one: p_{i,j} row by row for the pigeonhole formulas (for graphs only the edges, by left vertex and increasing right vertex), Y_{i,b} for the binary form, e_{u,v} with u<v for Ramsey, x_{i} for Pythagorean triples, e then q then r for clique-coloring, x_{u,v} for all ordered pairs (in the compact form the pairs in the order of the vertices) for the ordering principle, x_{u,v} for isomorphism and colouring, one variable per edge for even colouring, Tseitin (sorted by ends), subset cardinality and matching, x_{v} then g_{v,i} for dominating set, the vertices for pebbling, P_{v,j} (X_{v,j}) then R_{j} for the stone formulas, selectors then S_{i,j} for subgraph formulas, one variable per p-element set for counting. No name occurs twice.", "quantifier": "all arguments for which a formula is returned", "why_tests_cant": "the numbering must be the same for every size and every graph; a test compares one file", "anchors": ["software/cnfgen/cnfformula/families/pigeonhole.py", "software/cnfgen/cnfformula/families/ramsey.py", "software/cnfgen/cnfformula/families/cliquecoloring.py", "software/cnfgen/cnfformula/families/ordering.py", "software/cnfgen/cnfformula/families/graphisomorphism.py", "software/cnfgen/cnfformula/families/coloring.py", "software/cnfgen/cnfformula/families/tseitin.py", "software/cnfgen/cnfformula/families/subsetcardinality.py", "software/cnfgen/cnfformula/families/dominatingset.py", "software/cnfgen/cnfformula/families/pebbling.py", "software/cnfgen/cnfformula/families/subgraph.py", "software/cnfgen/cnfformula/families/counting.py", "software/cnfgen/cnfformula/cnf.py:CNF.variables"]}
{"id": "C82", "title": "Generator: simple formulas", "statement": "OrFormula(P,N) is one clause over x_0..x_{P-1}, y_0..y_{N-1} that holds when some x is true or some y false; AndFormula(P,N) consists of unit clauses that hold when all x are true and all y false; EmptyFormula is satisfiable and EmptyClauseFormula is not, both without variables. Negative sizes count as 0.", "quantifier": "all sizes and assignments", "why_tests_cant": "sizes and assignments are unbounded", "anchors": ["software/cnfgen/cnfformula/families/simple.py"]}
{"id": "C83", "title": "Generator: reading DIMACS formulas", "statement": "dimacs2cnf accepts a file of comments, integers and a line 'p <word> n m' (in any place) exactly when every clause is closed by 0 and m is the number of clauses; it returns the comments as header, the variables 1..n and the clauses of the file. A missing or second p line, a wrong count, an unclosed clause and a word that is no integer give ValueError; a literal beyond n only marks the object as incoherent; a final line with the single character c without newline gives IndexError. A formula that was written by the generator and is read again has the same clauses over the numbers of its variables, is satisfiable exactly when it was, and is written again as the same text.", "quantifier": "all texts of that grammar, all formulas", "why_tests_cant": "files, clauses and layouts of white space are unbounded", "anchors": ["software/cnfgen/cnfformula/utils/__init__.py:dimacs2compressed_clauses", "software/cnfgen/cnfformula/utils/__init__.py:dimacs2cnf", "software/cnfgen/cnfformula/cnf.py:CNF.dimacs"]}
{"id": "C84", "title": "Generator: graphs in the kthlist format", "statement": "readGraph(file, type, 'kthlist') returns the graph on the vertices 1..n with the arcs (edges) of the adjacency lists; as dag it is accepted exactly when it has no cycle; a bipartite reading without loops is a proper bipartition into the vertices 1..n, every file in which no vertex both has a line and is listed is accepted with the vertices that have a line on the left, every non-bipartite graph is refused. Lines without final 0, out of range, with a word that is no integer, before the number of vertices, and a second number of vertices are refused with ValueError. A graph that is written and read again is the same up to renumbering the vertices by position; its name gets a newline. The mark topologically_sorted is set when arcs go from larger to smaller numbers; loops are accepted; some bipartite graphs are refused depending on the order of the lines.", "quantifier": "all texts of that grammar, all graphs", "why_tests_cant": "files and graphs are unbounded", "anchors": ["software/cnfgen/cnfformula/graphs.py:readGraph", "software/cnfgen/cnfformula/graphs.py:_read_graph_kthlist_format", "software/cnfgen/cnfformula/graphs.py:_write_graph_kthlist_format", "software/cnfgen/cnfformula/graphs.py:is_dag"]}
{"id": "C85", "title": "Generator: graphs in the DIMACS edge format and as matrices", "statement": "readGraph(file, type, 'dimacs') accepts a file exactly when it has a line 'p edge n m' (anywhere) and m lines 'e u v'; the edges are those of the lines e, the vertices are 1..n and also the ends of edges out of that range. With all ends in range the graph is proper, and simple when no line is a loop. A second p line, a p line with another word, words that are no integers and e lines without exactly two ends give ValueError. A graph that is written and read again is the same up to renumbering the vertices by position. writeGraph in the matrix format writes the sizes of the two sides and for each left vertex a line with 1 for each right vertex joined to it and 0 for the others; reading that format always ends with an AttributeError in Python 3.", "quantifier": "all texts of that grammar, all graphs", "why_tests_cant": "files and graphs are unbounded", "anchors": ["software/cnfgen/cnfformula/graphs.py:_write_graph_matrix_format", "software/cnfgen/cnfformula/graphs.py:_read_graph_dimacs_format", "software/cnfgen/cnfformula/graphs.py:_write_graph_dimacs_format"]}
{"id": "C86", "title": "Generator: constructed graphs", "statement": "bipartite_shift(N,M,pattern) joins left vertex u to the pattern shifted by u-1 round the right side, so all left degrees equal the number of distinct pattern entries; bad arguments give ValueError. bipartite_random_left_regular(l,r,d) gives every left vertex degree min(r,d) whatever random.sample returns. bipartite_random_regular(l,r,d) returns a bipartite graph in which no left vertex has more than d and no right vertex more than l*d/r edges, and which is regular on both sides when it has l*d edges - but it may return a graph that is not regular, and r=0 gives ZeroDivisionError instead of ValueError. dag_pyramid and dag_complete_binary_tree return the documented graphs, listed in topological order, acyclic, with the top or root as the only sink.", "quantifier": "all sizes and patterns, all outcomes of the random module", "why_tests_cant": "sizes and random outcomes are unbounded; the irregular outcome needs 3*d*d unlucky draws in a row", "anchors": ["software/cnfgen/cnfformula/graphs.py:bipartite_shift", "software/cnfgen/cnfformula/graphs.py:bipartite_random_left_regular", "software/cnfgen/cnfformula/graphs.py:bipartite_random_regular", "software/cnfgen/cnfformula/graphs.py:dag_pyramid", "software/cnfgen/cnfformula/graphs.py:dag_complete_binary_tree"]}
{"id": "C87", "title": "Generator: changes to a graph", "statement": "sample_missing_edges(G,m) returns m pairs that are not joined in G, none of them twice in either direction; it raises ValueError exactly when m is negative or G has fewer than m missing edges, and RuntimeError only for sparse graphs. --addedges then yields a simple (bipartite) graph with exactly these edges added. --plantclique k leaves the graph alone for k<=1, refuses k above the order, and otherwise yields a simple graph with a clique of k vertices and no other new edge; --plantbiclique l r likewise.", "quantifier": "all graphs, all numbers of edges, all outcomes of the random module", "why_tests_cant": "graphs and random outcomes are unbounded", "anchors": ["software/cnfgen/cnfformula/graphs.py:sample_missing_edges", "software/cnfgen/cnfformula/cmdline.py:SimpleGraphHelper.obtain_graph", "software/cnfgen/cnfformula/cmdline.py:BipartiteGraphHelper.obtain_graph"]}
{"id": "C88", "title": "Generator tools: cnfshuffle, dimacstransform, kthlist2pebbling", "statement": "cnfshuffle, and dimacstransform shuffle, write a DIMACS file whose clauses are those of the input under a renaming of the variables and a change of signs, in some order, so it is satisfiable exactly when the input is; -p, -v and -c leave signs, variables and clause order alone. dimacstransform with any other subcommand writes a file an assignment satisfies exactly when the values it gives to the input's variables (by or, xor, majority, if-then-else, lifting, exactly-one, not-all-equal ... of their copies) satisfy the input. kthlist2pebbling writes the transformed pebbling formula of the DAG in the file, satisfiable only for the empty graph; a cyclic graph is a ValueError. Comments of the input are kept unless -q. Unreadable inputs give the reader's exception, literals out of range AssertionError, compressions by graphs of another size exit(-1).", "quantifier": "all input files, all subcommands with suitable arguments, all outcomes of the random module", "why_tests_cant": "formulas and permutations are unbounded; equisatisfiability is a statement about all assignments", "anchors": ["software/cnfgen/cnfformula/utils/cnfshuffle.py:cnfshuffle", "software/cnfgen/cnfformula/utils/cnfshuffle.py:command_line_utility", "software/cnfgen/cnfformula/utils/dimacstransform.py:command_line_utility", "software/cnfgen/cnfformula/utils/kthlist2pebbling.py:command_line_utility"]}
{"id": "C89", "title": "is_satisfiable: answers of external SAT solvers", "statement": "CNF.is_satisfiable with a command that has the interface of minisat, when that command is a correct solver, answers True exactly for satisfiable formulas; its witness then gives different variables of the formula values that make every clause true (None when the solver assigns no variable of a formula without clauses), and is None for unsatisfiable formulas. The result file decides and is not checked: UNSAT gives False, an empty file or another first word RuntimeError, a malformed literal ValueError, a literal out of range IndexError, a command that cannot be run UnboundLocalError. Under Python 3 the interfaces of all other solvers (lingeling, plingeling, precosat, picosat, march, cryptominisat, glucose, sat4j) always end in RuntimeError. Without a command the first known solver that starts is used even when it does not work, so that lingeling hides minisat; RuntimeError when none starts. An unsupported sameas is a ValueError, an unsupported command RuntimeError.", "quantifier": "all formulas built through the public methods, all headers, all command lines, all machines (which commands start and what they answer)", "why_tests_cant": "formulas and solvers are unbounded, satisfiability is a statement about all assignments; tests run only with the solvers installed", "anchors": ["software/cnfgen/cnfformula/utils/solver.py:is_satisfiable", "software/cnfgen/cnfformula/utils/solver.py:have_satsolver", "software/cnfgen/cnfformula/utils/solver.py:supported_satsolvers", "software/cnfgen/cnfformula/cnf.py:CNF.is_satisfiable"]}
{"id": "C90", "title": "cnfgen: the command line, from the options to the printed formula", "statement": "cnfgen with one of its subcommands, options for the graphs the subcommand asks for (complete, empty, grid, torus, tree, pyramid, shifted, random, or read from standard input; with planted cliques), and any number of -T transformations that keep satisfiability, prints a DIMACS file whose clauses are satisfiable exactly when the question of the subcommand (does a matching, a colouring, a clique, an isomorphism, an ordering ... exist) has a positive answer for a graph as the options describe it; given to NDP, a file with clauses of one to three literals is reported satisfiable only then, and without collisions exactly then. A graph outside the domain of the formula ends the run with the status 65 (255 for sparse stone formulas). With added edges the run may end with 65 or RuntimeError, and the search for a regular bipartite graph may go on for ever. Whatever is printed is the formula of the subcommand after the transformations from left to right, with the words of the command line in its comments. No subcommand: status 65; latex never gives output; -T alone is an AttributeError; a compression of the wrong size exits with 255. Graphs that do not exist, files that are refused, cliques that are too large and numbers that are not positive end the run with the status that the options document, or, where the code uses e.message, with an AttributeError.", "quantifier": "all subcommands and options (graphs in the formats kthlist, dimacs and matrix on standard input), all sequences of transformations, all inputs, all outcomes of networkx and random", "why_tests_cant": "sizes of graphs and formulas are unbounded, satisfiability is a statement about all assignments, and random graphs have unboundedly many outcomes", "anchors": ["software/cnfgen/cnfformula/cnfgen.py:command_line_utility", "software/cnfgen/cnfformula/cmdline.py:SimpleGraphHelper", "software/cnfgen/cnfformula/cmdline.py:BipartiteGraphHelper", "software/cnfgen/cnfformula/cmdline.py:DirectedAcyclicGraphHelper", "software/cnfgen/cnfformula/families/tseitin.py:TseitinCmdHelper", "software/cnfgen/cnfformula/families/pebbling.py:PebblingCmdHelper"]}
{"id": "C91", "title": "tools/factorize.py: least odd divisor", "statement": "For every number below 2^53 that has an odd divisor from 3 up to its root, tools/factorize.py prints the number, its least odd prime divisor, the exact cofactor and 'verified = True', although root and quotient are computed in floating point; every other number below 2^53 (primes, 2p, powers of two, 0) ends in TypeError, so the message that a number is prime is never printed. For any argument the first factor printed is the least odd prime divisor and 'verified' says truthfully whether the second is the cofactor, which it is when it is at most 2^53; 3(2^53+1) is printed with a wrong cofactor and 'verified = False'. Negative numbers and texts that are no number are ValueErrors, numbers too large for a double OverflowErrors.", "quantifier": "all command-line arguments, all integers", "why_tests_cant": "the numbers are unbounded and the rounding of root, sum and quotient has to be right for each of them", "anchors": ["tools/factorize.py:factorize"]}
{"id": "C92", "title": "-T in the generator and dimacstransform behind a pipe agree", "statement": "cnfgen ... -T t prints the same formula, number for number and clause for clause, as cnfgen ... | dimacstransform t, for every subcommand, every transformation and every sequence of earlier -T; only the comments differ, and with -q the texts are equal. Several -T correspond to a pipeline of several dimacstransform. Both ways refuse together (a compression by a graph of another size), and an error before the last -T is not changed by it. kthlist2pebbling t agrees with kthlist2pebbling none | dimacstransform t and with cnfgen peb -T t on the same input.", "quantifier": "all command lines, inputs, graphs, random outcomes, and lists of transformations", "why_tests_cant": "inside the program the transformations work on the variables' own names, behind the pipe on decimal numbers; that the order of variables and clauses does not depend on the names has to hold for every formula and every transformation", "anchors": ["software/cnfgen/cnfformula/cnfgen.py:command_line_utility", "software/cnfgen/cnfformula/utils/dimacstransform.py:command_line_utility", "software/cnfgen/cnfformula/utils/kthlist2pebbling.py:command_line_utility", "software/cnfgen/cnfformula/transformations/substitutions.py", "software/cnfgen/cnfformula/transformations/shuffle.py:Shuffle"]}
{"id": "C93", "title": "The LaTeX output shows the formula", "statement": "The LaTeX text of a formula, read row by row, shows exactly its clauses in order: the literals with their names and signs joined by \\lor, \\square for the empty clause, every row but the last of an environment ended by \\\\, and (without the document) every row but the first beginning with \\land and clauses in parentheses; without header and document the text is nothing but that environment, with \\top for a formula without clauses. Formulas with the same text have the same clauses. A document has at most 40 rows on a page, 40 on every page but the last, no empty page, one row for each clause. Braces are balanced in every row when they are in the names. A document is a fixed opening -- whose title is the first line of the header with every _ escaped and whose listing is the header verbatim -- then the extra text and the numbers of variables and clauses, then the environments; on demand the header's lines come first as comments. The method does not fail on any formula made by the public operations.", "quantifier": "all formulas made by public operations, headers, extra texts, both forms; names without blanks, newlines, backslashes and closing braces below the bar", "why_tests_cant": "the bar over a negated literal splits the name at its first underscore, rows are assembled from pieces that depend on position and page; that nothing is lost or merged has to hold for every name and every number of clauses", "anchors": ["software/cnfgen/cnfformula/cnf.py:CNF.latex"]}
{"id": "C94", "title": "The benchmark generator's command line and the script that writes a range of files", "statement": "sabry_cnf_gen NUMBER ADDER MULTIPLIER prints the generated file and ends without error exactly when there are three arguments, the number is greater than 1 and the names are known (an unknown adder is noticed only where an adder is needed: not for 2 and 3 with wallace and recursive). What a failing call has printed are comments only, on which the solver gives no verdict. multiple_set_gen.sh A B writes exactly the files FactoringI.txt for A <= I <= B (n-bit, wallace), with three or more numbers one file for each; with A > B or fewer arguments none; up to the largest 64-bit number it never ends. The solver decides from the file written for I whether I is composite, and with -fact prints two proper factors or that it is prime.", "quantifier": "all argument lists, numbers of the shell, ranges and lists, all solver options", "why_tests_cant": "ranges and numbers are unbounded, failures depend on lazy evaluation order, and the contents of each file have to be right for every number of the range", "anchors": ["tools/sabry_cnf_gen.hs:main", "tools/multiple_set_gen.sh"]}
{"id": "C95", "title": "The words of the command line", "statement": "main.py accepts a command line exactly when its words can be read as documented options with their values (exact spelling, =value, unique abbreviation, one-letter options written together), the values have the right form, files named by -lf and -d can be opened, exactly one kind of input and at most one of -v -vv -q -qn is used and neither help nor version is asked for. It then works with the last value given for each option and the documented defaults. No line has two readings; the order of different options does not matter. Every other line ends at once with status 2 (or 3 for a negative number of threads), with status 0 only when a word asks for help or version. A value of its own that begins with a dash is refused unless it is a negative number, a single dash or contains a blank; after = every text is taken. For an accepted line that names a readable file the verdict is right.", "quantifier": "all lists of (ASCII) words, all files and contents of standard input, all solver environments", "why_tests_cant": "command lines are unbounded lists of arbitrary words, with abbreviations, clusters and negative numbers interacting; that no line is read in two ways or differently from the documentation is a statement about all of them", "anchors": ["main.py:__main__ (parser.add_argument, parse_args, 138-188)", "main.py:224-249"]}
{"id": "C96", "title": "The printed report", "statement": "With -v or -vv a run that reaches an answer prints a report of whole lines in a fixed order. Exactly one of the lines 'The input set is SATISFIABLE!' and 'The input set is Not satisfiable.' is shown, and it is the verdict; after a positive verdict the line 'The solution is {...}' shows the value of every variable of the solution found and nothing else. The number of nodes is shown with a comma between groups of three digits, the redundancy counts unless -ns is given, the conclusions of -fact and -mult in their fixed words exactly when they were drawn, and the memory in the largest unit it fills, off by at most half a tenth. Two runs with the same text agree on all of it. On a generated file -fact shows the number as a product of two factors above 1 or as prime (the latter, unless hashes collide, exactly for primes), and -mult shows only the right product.", "quantifier": "all outcomes, all solutions, counts, times, hashes and sizes of memory; all command lines (words), files and environments", "why_tests_cant": "that two different results never print the same text, and that a figure in the text is always the figure found, are statements about all outcomes of unbounded size", "anchors": ["PatternSolver.py:PatternSolver.solve_set (568-631)", "configs.py:sizeof_fmt", "main.py:Main (101-102)"]}
{"id": "C97", "title": "The labels of the drawn graph", "statement": "With -g every recorded node has exactly one box, in the order of discovery. The label of the first shows the input and its normal form; every other label shows the node's clauses with their numbers, the names and input variables behind its variables, the values given to input variables on the way, and a highest occurring literal. The name of the box is the hash of the clauses its label shows; the variables stand for different input variables without a value; under the values shown the input is true just when the clauses shown are, so a model of the clauses shown gives a model of the input; the clauses shown are what is left of the input clauses not yet satisfied, numbered like them unless -rdb is on; the literal named is one of the most frequent; the values shown are those of a box with an arrow to this one and one for its branching variable. An arrow from a box to the leaf True (False) says that all (no) assignments with the values shown and one of the values of its branching variable make the input true. Two labels that are written alike say the same. This holds of the file written by every command, with any number of worker processes none of which breaks down (then only what the main process found before handing out is drawn).", "quantifier": "all inputs, options, hash functions and histories of the search; all labels", "why_tests_cant": "the relation between a label and the input must hold at every node of a graph of unbounded size after any number of renamings; unambiguity is about all pairs of labels", "anchors": ["PatternSolver.py:PatternSolver.process_nodes_queue (353-356)", "PatternSolver.py:PatternSolver.solve_set (482, 508-509)", "Set.py:Set.to_string (400-427)", "Set.py:Set.rename_vars (162-192)"]}
{"id": "C98", "title": "Generator: which format a graph file is read and written in", "statement": "readGraph and writeGraph without a format use the extension of the file's name (the part after the last dot of its last component, unless only dots stand before it); a name without extension or with one that is not offered for the type of graph is refused with ValueError, as is an open file without a name, such as standard input, whose name is no use either. An offered format (kthlist and gml for all types, dot when there is a library for it, dimacs for simple graphs and digraphs, matrix for bipartite ones) is read by its reader; a graph read as dag has no cycle, one read as bipartite has a side for every vertex, whatever the reader. A type that is not known and a named format that is not offered raise TypeError, where the documentation promises ValueError; an argument that is no file raises ValueError. Writing to a name succeeds exactly when the format is offered, touches no other file, and leaves the file empty, whatever was in it, when it is refused; an open file gets the same text after what was there, and nothing when it is refused. A graph written to a file whose extension is kthlist (all types) or dimacs (simple graphs and digraphs) is read back from it without naming the format, up to the numbers of its vertices: a dag as a dag, a bipartite graph with its sides; extension matrix gives the text of the matrix.", "quantifier": "all file names, contents, types, formats, graphs, all readers of gml and dot", "why_tests_cant": "names, contents and graphs are unbounded; what an unusual name or a refused write does is not visible in the usual cases", "anchors": ["software/cnfgen/cnfformula/graphs.py:_process_graph_io_arguments", "software/cnfgen/cnfformula/graphs.py:readGraph", "software/cnfgen/cnfformula/graphs.py:writeGraph", "software/cnfgen/cnfformula/graphs.py:has_bipartition"]}
