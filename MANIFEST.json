{
 "claims": [
  {
   "property": "C01",
   "status": "proved",
   "theorems": [
    "C01_clause_keeps_literals"
   ],
   "note": ""
  },
  {
   "property": "C02",
   "status": "proved",
   "theorems": [
    "C02_tautology_exact_up_to_three",
    "C02_tautology_only_smallest_variable",
    "C02_wide_tautology_aborts_refuted"
   ],
   "note": ""
  },
  {
   "property": "C03",
   "status": "proved",
   "theorems": [
    "C03_clause_order"
   ],
   "note": ""
  },
  {
   "property": "C04",
   "status": "proved",
   "theorems": [
    "C04_add_clauses_conjunction"
   ],
   "note": ""
  },
  {
   "property": "C05",
   "status": "proved",
   "theorems": [
    "C05_renaming_invertible"
   ],
   "note": ""
  },
  {
   "property": "C06",
   "status": "proved",
   "theorems": [
    "C06_renaming_fails_iff_no_literal",
    "C06_all_tautologies_error"
   ],
   "note": ""
  },
  {
   "property": "C07",
   "status": "proved",
   "theorems": [
    "C07_normalisation_terminates"
   ],
   "note": ""
  },
  {
   "property": "C08",
   "status": "proved",
   "theorems": [
    "C08_normal_form_conditions",
    "C08_state_test_exact"
   ],
   "note": ""
  },
  {
   "property": "C09",
   "status": "proved",
   "theorems": [
    "C09_full_order_refuted"
   ],
   "note": ""
  },
  {
   "property": "C10",
   "status": "proved",
   "theorems": [
    "C10_normalisation_renames",
    "C10_root_names_trace_back"
   ],
   "note": ""
  },
  {
   "property": "C11",
   "status": "proved",
   "theorems": [
    "C11_branching_cofactors"
   ],
   "note": ""
  },
  {
   "property": "C12",
   "status": "proved",
   "theorems": [
    "C12_substitution_restricts",
    "C12_literal_zero_refuted"
   ],
   "note": ""
  },
  {
   "property": "C13",
   "status": "proved",
   "theorems": [
    "C13_equal_text_iff_equal_formula",
    "C13_undecided_text_not_constant"
   ],
   "note": ""
  },
  {
   "property": "C14",
   "status": "proved",
   "theorems": [
    "C14_parse_printed"
   ],
   "note": ""
  },
  {
   "property": "C15",
   "status": "proved",
   "theorems": [
    "C15_properties_round_trip"
   ],
   "note": ""
  },
  {
   "property": "C16",
   "status": "proved",
   "theorems": [
    "C16_single_line",
    "C16_malformed_no_verdict"
   ],
   "note": ""
  },
  {
   "property": "C17",
   "status": "proved",
   "theorems": [
    "C17_command_line_fails"
   ],
   "note": ""
  },
  {
   "property": "C18",
   "status": "proved",
   "theorems": [
    "C18_dimacs_read",
    "C18_empty_clause_ignored"
   ],
   "note": ""
  },
  {
   "property": "C19",
   "status": "proved",
   "theorems": [
    "C19_first_line_ignored",
    "C19_after_blank_ignored",
    "C19_lost_clause_refuted"
   ],
   "note": ""
  },
  {
   "property": "C20",
   "status": "proved",
   "theorems": [
    "C20_wide_clause_rejected",
    "C20_only_last_wide"
   ],
   "note": ""
  },
  {
   "property": "C21",
   "status": "proved",
   "theorems": [
    "C21_sat_verdict_sound"
   ],
   "note": ""
  },
  {
   "property": "C22",
   "status": "proved",
   "theorems": [
    "C22_verdict_exact",
    "C22_collision_refuted"
   ],
   "note": ""
  },
  {
   "property": "C23",
   "status": "proved",
   "theorems": [
    "C23_solver_terminates"
   ],
   "note": ""
  },
  {
   "property": "C24",
   "status": "proved",
   "theorems": [
    "C24_verdict_option_independent"
   ],
   "note": ""
  },
  {
   "property": "C25",
   "status": "proved",
   "theorems": [
    "C25_verifier_exact",
    "C25_found_solution_verifies",
    "C25_literal_zero_refuted"
   ],
   "note": ""
  },
  {
   "property": "C26",
   "status": "proved",
   "theorems": [
    "C26_expanded_once",
    "C26_graph_closed"
   ],
   "note": ""
  },
  {
   "property": "C27",
   "status": "proved",
   "theorems": [
    "C27_graph_of_formulas"
   ],
   "note": ""
  },
  {
   "property": "C28",
   "status": "proved",
   "theorems": [
    "C28_early_exit"
   ],
   "note": ""
  },
  {
   "property": "C29",
   "status": "proved",
   "theorems": [
    "C29_fifo"
   ],
   "note": ""
  },
  {
   "property": "C30",
   "status": "proved",
   "theorems": [
    "C30_db_queue",
    "C30_repeated_id_fails"
   ],
   "note": ""
  },
  {
   "property": "C31",
   "status": "proved",
   "theorems": [
    "C31_unique_queue_drops",
    "C31_unique_db_queue_fails"
   ],
   "note": ""
  },
  {
   "property": "C32",
   "status": "proved",
   "theorems": [
    "C32_unique_counts",
    "C32_reported_uniques"
   ],
   "note": ""
  },
  {
   "property": "C33",
   "status": "proved",
   "theorems": [
    "C33_redundancy_counts"
   ],
   "note": ""
  },
  {
   "property": "C34",
   "status": "proved",
   "theorems": [
    "C34_one_process",
    "C34_ends",
    "C34_sound",
    "C34_same_outcome"
   ],
   "note": ""
  },
  {
   "property": "C35",
   "status": "proved",
   "theorems": [
    "C35_failure_blocks",
    "C35_ends_only_by_solution",
    "C35_solution_unblocks"
   ],
   "note": ""
  },
  {
   "property": "C36",
   "status": "proved",
   "theorems": [
    "C36_fresh_db_harmless",
    "C36_rows",
    "C36_row_formulas",
    "C36_counts"
   ],
   "note": ""
  },
  {
   "property": "C37",
   "status": "proved",
   "theorems": [
    "C37_solved_root",
    "C37_second_run"
   ],
   "note": ""
  },
  {
   "property": "C38",
   "status": "proved",
   "theorems": [
    "C38_lost_root_insert",
    "C38_wrong_verdict_refuted"
   ],
   "note": ""
  },
  {
   "property": "C39",
   "status": "proved",
   "theorems": [
    "C39_loaded_child",
    "C39_resume_safe",
    "C39_resume_aborts",
    "C39_resume_complete"
   ],
   "note": ""
  },
  {
   "property": "C40",
   "status": "proved",
   "theorems": [
    "C40_insert",
    "C40_updates",
    "C40_history",
    "C40_solved_tests"
   ],
   "note": ""
  },
  {
   "property": "C41",
   "status": "proved",
   "theorems": [
    "C41_factorizer",
    "C41_other_sets_skipped"
   ],
   "note": ""
  },
  {
   "property": "C42",
   "status": "proved",
   "theorems": [
    "C42_decoding",
    "C42_factoring_run",
    "C42_no_bits",
    "C42_printed_factors_multiply",
    "C42_shifted_bits_refuted",
    "C42_emptied_clause_refuted"
   ],
   "note": ""
  },
  {
   "property": "C43",
   "status": "proved",
   "theorems": [
    "C43_multiplier",
    "C43_multiplication_run",
    "C43_other_endings"
   ],
   "note": ""
  },
  {
   "property": "C44",
   "status": "proved",
   "theorems": [
    "C44_solution_file"
   ],
   "note": ""
  },
  {
   "property": "C45",
   "status": "proved",
   "theorems": [
    "C45_breadth_first"
   ],
   "note": ""
  },
  {
   "property": "C46",
   "status": "proved",
   "theorems": [
    "C46_drawing_shows_graph",
    "C46_red_boxes",
    "C46_two_arrows"
   ],
   "note": ""
  },
  {
   "property": "C47",
   "status": "proved",
   "theorems": [
    "C47_program_verdict",
    "C47_tautologies_fail",
    "C47_no_clauses_no_verdict"
   ],
   "note": ""
  },
  {
   "property": "C48",
   "status": "proved",
   "theorems": [
    "C48_one_process",
    "C48_ends",
    "C48_sound",
    "C48_rows",
    "C48_same_outcome"
   ],
   "note": ""
  },
  {
   "property": "C49",
   "status": "proved",
   "theorems": [
    "C49_dead_worker_blocks",
    "C49_setup_failure_blocks",
    "C49_no_mem_hangs"
   ],
   "note": ""
  },
  {
   "property": "C50",
   "status": "proved",
   "theorems": [
    "C50_provenance"
   ],
   "note": ""
  },
  {
   "property": "C51",
   "status": "proved",
   "theorems": [
    "C51_thief_order",
    "C51_search_order",
    "C51_size_order",
    "C51_order_kept",
    "C51_runtime_db_renumbers"
   ],
   "note": ""
  },
  {
   "property": "C52",
   "status": "proved",
   "theorems": [
    "C52_factoring_formula",
    "C52_two_and_three"
   ],
   "note": ""
  },
  {
   "property": "C53",
   "status": "proved",
   "theorems": [
    "C53_generated_file",
    "C53_header",
    "C53_verdict"
   ],
   "note": ""
  },
  {
   "property": "C54",
   "status": "proved",
   "theorems": [
    "C54_factoring",
    "C54_large_recursive_refuted"
   ],
   "note": ""
  },
  {
   "property": "C55",
   "status": "proved",
   "theorems": [
    "C55_multiplication"
   ],
   "note": ""
  },
  {
   "property": "C56",
   "status": "proved",
   "theorems": [
    "C56_simulation",
    "C56_zero_fails"
   ],
   "note": ""
  },
  {
   "property": "C57",
   "status": "proved",
   "theorems": [
    "C57_stack_suffices",
    "C57_limit_changes_no_outcome",
    "C57_deep_chain_refuted"
   ],
   "note": ""
  },
  {
   "property": "C58",
   "status": "proved",
   "theorems": [
    "C58_accepted_commands",
    "C58_files_written",
    "C58_solution_names",
    "C58_shown",
    "C58_table_only_with_gdb",
    "C58_default_threads"
   ],
   "note": ""
  },
  {
   "property": "C59",
   "status": "proved",
   "theorems": [
    "C59_program_verdict",
    "C59_no_verdict"
   ],
   "note": ""
  },
  {
   "property": "C60",
   "status": "proved",
   "theorems": [
    "C60_factoring_command",
    "C60_multiplication_command"
   ],
   "note": ""
  },
  {
   "property": "C61",
   "status": "proved",
   "theorems": [
    "C61_generated_verdict",
    "C61_generated_factors",
    "C61_generated_products"
   ],
   "note": ""
  },
  {
   "property": "C62",
   "status": "proved",
   "theorems": [
    "C62_workers_not_shown",
    "C62_seventeen_nodes_five_shown"
   ],
   "note": ""
  },
  {
   "property": "C63",
   "status": "proved",
   "theorems": [
    "C63_delete",
    "C63_tables_apart",
    "C63_statements",
    "C63_rows_kept",
    "C63_verdict_whatever_happened"
   ],
   "note": ""
  },
  {
   "property": "C64",
   "status": "proved",
   "theorems": [
    "C64_denied_ever_after",
    "C64_composite_called_prime"
   ],
   "note": ""
  },
  {
   "property": "C65",
   "status": "proved",
   "theorems": [
    "C65_cardinality",
    "C65_parity",
    "C65_halves",
    "C65_acceptable"
   ],
   "note": ""
  },
  {
   "property": "C66",
   "status": "proved",
   "theorems": [
    "C66_add_clause",
    "C66_unsafe_and_variables",
    "C66_consistent",
    "C66_constructor"
   ],
   "note": ""
  },
  {
   "property": "C67",
   "status": "proved",
   "theorems": [
    "C67_file",
    "C67_read_back",
    "C67_solved",
    "C67_empty_clause_lost"
   ],
   "note": ""
  },
  {
   "property": "C68",
   "status": "proved",
   "theorems": [
    "C68_unary_mapping",
    "C68_binary_mapping",
    "C68_pigeonhole",
    "C68_graph_pigeonhole",
    "C68_binary_pigeonhole"
   ],
   "note": ""
  },
  {
   "property": "C69",
   "status": "proved",
   "theorems": [
    "C69_counting",
    "C69_perfect_matching"
   ],
   "note": ""
  },
  {
   "property": "C70",
   "status": "proved",
   "theorems": [
    "C70_ordering_models",
    "C70_ordering_satisfiable",
    "C70_ordering_principle"
   ],
   "note": ""
  },
  {
   "property": "C71",
   "status": "proved",
   "theorems": [
    "C71_ramsey",
    "C71_pythagorean",
    "C71_clique_coloring"
   ],
   "note": ""
  },
  {
   "property": "C72",
   "status": "proved",
   "theorems": [
    "C72_coloring",
    "C72_even_coloring",
    "C72_dominating_set"
   ],
   "note": ""
  },
  {
   "property": "C73",
   "status": "proved",
   "theorems": [
    "C73_subset_cardinality"
   ],
   "note": ""
  },
  {
   "property": "C74",
   "status": "proved",
   "theorems": [
    "C74_isomorphism",
    "C74_automorphism"
   ],
   "note": ""
  },
  {
   "property": "C75",
   "status": "proved",
   "theorems": [
    "C75_tseitin_models",
    "C75_tseitin_satisfiable",
    "C75_tseitin_default"
   ],
   "note": ""
  },
  {
   "property": "C76",
   "status": "proved",
   "theorems": [
    "C76_subgraph_models",
    "C76_subgraph_satisfiable",
    "C76_induced_subgraph",
    "C76_clique",
    "C76_ramsey_witness"
   ],
   "note": ""
  },
  {
   "property": "C77",
   "status": "proved",
   "theorems": [
    "C77_pebbling",
    "C77_stone",
    "C77_sparse_stone"
   ],
   "note": ""
  },
  {
   "property": "C78",
   "status": "proved",
   "theorems": [
    "C78_arguments",
    "C78_random_formula",
    "C78_how_many",
    "C78_every_outcome",
    "C78_planted"
   ],
   "note": ""
  },
  {
   "property": "C79",
   "status": "proved",
   "theorems": [
    "C79_or",
    "C79_majority",
    "C79_xor",
    "C79_all_equal",
    "C79_not_all_equal",
    "C79_exactly_one",
    "C79_if_then_else",
    "C79_flip",
    "C79_lifting",
    "C79_compression"
   ],
   "note": ""
  },
  {
   "property": "C80",
   "status": "proved",
   "theorems": [
    "C80_shuffle",
    "C80_refused"
   ],
   "note": ""
  },
  {
   "property": "C81",
   "status": "proved",
   "theorems": [
    "C81_pigeonhole_names",
    "C81_number_names",
    "C81_graph_names",
    "C81_edge_names",
    "C81_pebbling_names",
    "C81_subgraph_names",
    "C81_matching_names"
   ],
   "note": ""
  },
  {
   "property": "C82",
   "status": "proved",
   "theorems": [
    "C82_simple_formulas",
    "C82_empty_formulas"
   ],
   "note": ""
  },
  {
   "property": "C83",
   "status": "proved",
   "theorems": [
    "C83_read",
    "C83_refused",
    "C83_last_line",
    "C83_object",
    "C83_round_trip",
    "C83_header"
   ],
   "note": ""
  },
  {
   "property": "C84",
   "status": "proved",
   "theorems": [
    "C84_digraph",
    "C84_simple",
    "C84_bipartite",
    "C84_refused",
    "C84_last_line",
    "C84_round_trip"
   ],
   "note": ""
  },
  {
   "property": "C85",
   "status": "proved",
   "theorems": [
    "C85_read",
    "C85_in_range",
    "C85_refused",
    "C85_round_trip",
    "C85_matrix"
   ],
   "note": ""
  },
  {
   "property": "C86",
   "status": "proved",
   "theorems": [
    "C86_shift",
    "C86_left_regular",
    "C86_regular",
    "C86_regular_unlucky",
    "C86_pyramid",
    "C86_tree"
   ],
   "note": ""
  },
  {
   "property": "C87",
   "status": "proved",
   "theorems": [
    "C87_sample",
    "C87_add",
    "C87_between",
    "C87_clique",
    "C87_biclique"
   ],
   "note": ""
  },
  {
   "property": "C88",
   "status": "proved",
   "theorems": [
    "C88_shuffle",
    "C88_transform",
    "C88_refused",
    "C88_pebbling"
   ],
   "note": ""
  },
  {
   "property": "C89",
   "status": "proved",
   "theorems": [
    "C89_right",
    "C89_result_file",
    "C89_dimacs_style",
    "C89_default",
    "C89_refused"
   ],
   "note": ""
  },
  {
   "property": "C90",
   "status": "proved",
   "theorems": [
    "C90_formula",
    "C90_solved",
    "C90_printed",
    "C90_refused",
    "C90_graphs",
    "C90_other_graphs",
    "C90_numbers"
   ],
   "note": ""
  },
  {
   "property": "C91",
   "status": "proved",
   "theorems": [
    "C91_small",
    "C91_odd",
    "C91_any"
   ],
   "note": ""
  },
  {
   "property": "C92",
   "status": "proved",
   "theorems": [
    "C92_pipe",
    "C92_failures",
    "C92_pipeline",
    "C92_pebbling"
   ],
   "note": ""
  },
  {
   "property": "C93",
   "status": "proved",
   "theorems": [
    "C93_read",
    "C93_same",
    "C93_document",
    "C93_plain",
    "C93_pages",
    "C93_braces"
   ],
   "note": ""
  },
  {
   "property": "C94",
   "status": "proved",
   "theorems": [
    "C94_call",
    "C94_failed_call",
    "C94_range",
    "C94_edges",
    "C94_list",
    "C94_decides",
    "C94_factors"
   ],
   "note": ""
  },
  {
   "property": "C95",
   "status": "proved",
   "theorems": [
    "C95_accepted_words",
    "C95_one_reading",
    "C95_status",
    "C95_order",
    "C95_leading_dash",
    "C95_program",
    "C95_verdict"
   ],
   "note": ""
  },
  {
   "property": "C96",
   "status": "proved",
   "theorems": [
    "C96_layout",
    "C96_verdict",
    "C96_solution",
    "C96_counts",
    "C96_conclusions",
    "C96_memory",
    "C96_one_reading",
    "C96_read_verdict",
    "C96_read_factors",
    "C96_read_product"
   ],
   "note": ""
  },
  {
   "property": "C97",
   "status": "proved",
   "theorems": [
    "C97_labels",
    "C97_clauses",
    "C97_path",
    "C97_leaf_arrows",
    "C97_labels_unambiguous",
    "C97_models_carry_over",
    "C97_command"
   ],
   "note": ""
  },
  {
   "property": "C98",
   "status": "proved",
   "theorems": [
    "C98_autodetect",
    "C98_formats",
    "C98_refused",
    "C98_write",
    "C98_write_open",
    "C98_write_unnamed",
    "C98_round_trip",
    "C98_round_trip_directed",
    "C98_round_trip_bipartite",
    "C98_standard_input"
   ],
   "note": ""
  }
 ]
}