{
 "claims": [
  {
   "property": "C01",
   "status": "proved",
   "theorems": [
    "C01_set_then_get",
    "C01_inverse_mapping"
   ],
   "note": ""
  },
  {
   "property": "C02",
   "status": "proved",
   "theorems": [
    "C02_marginalise",
    "C02_marginalise_scalar",
    "C02_marginalise_rejects"
   ],
   "note": ""
  },
  {
   "property": "C03",
   "status": "proved",
   "theorems": [
    "C03_mass_conserved",
    "C03_two_steps"
   ],
   "note": ""
  },
  {
   "property": "C04",
   "status": "proved",
   "theorems": [
    "C04_total_marginalise",
    "C04_agrees_with_general",
    "C04_rejects"
   ],
   "note": ""
  },
  {
   "property": "C05",
   "status": "proved",
   "theorems": [
    "C05_update",
    "C05_rejects"
   ],
   "note": ""
  },
  {
   "property": "C06",
   "status": "proved",
   "theorems": [
    "C06_absorb"
   ],
   "note": ""
  },
  {
   "property": "C07",
   "status": "proved",
   "theorems": [
    "C07_normalise_array",
    "C07_normalise_potential"
   ],
   "note": ""
  },
  {
   "property": "C08",
   "status": "proved",
   "theorems": [
    "C08_normalise_cpd"
   ],
   "note": ""
  },
  {
   "property": "C09",
   "status": "partial",
   "theorems": [
    "C09_normalise_dimension_refuted",
    "C09_normalise_dimension_partial"
   ],
   "note": "The documented equality is false of the code (refuted by a 2x2 table); the _partial theorem states what the function computes for every table."
  },
  {
   "property": "C10",
   "status": "proved",
   "theorems": [
    "C10_copy",
    "C10_new",
    "C10_new_rejects",
    "C10_retract"
   ],
   "note": ""
  },
  {
   "property": "C11",
   "status": "proved",
   "theorems": [
    "C11_update_evidence",
    "C11_replace_evidence"
   ],
   "note": ""
  },
  {
   "property": "C12",
   "status": "proved",
   "theorems": [
    "C12_init_mapped",
    "C12_init_unmapped"
   ],
   "note": ""
  },
  {
   "property": "C13",
   "status": "proved",
   "theorems": [
    "C13_variable_union",
    "C13_variable_union_empty",
    "C13_variable_union_repetition_overflows"
   ],
   "note": "With a repetition inside one array the function writes out of bounds (C13_variable_union_repetition_overflows)."
  },
  {
   "property": "C14",
   "status": "proved",
   "theorems": [
    "C14_variable_isect"
   ],
   "note": ""
  },
  {
   "property": "C15",
   "status": "proved",
   "theorems": [
    "C15_mapper"
   ],
   "note": ""
  },
  {
   "property": "C16",
   "status": "partial",
   "theorems": [
    "C16_sort_variables_refuted",
    "C16_sort_variables_partial"
   ],
   "note": "The English claim is false of the code: for every array of at least four different variables the result is not ascending (refuted for all such inputs). Up to three variables are sorted."
  },
  {
   "property": "C17",
   "status": "partial",
   "theorems": [
    "C17_state_names",
    "C17_state_names_long_unknown"
   ],
   "note": "Proved for state names of at most 40 characters; longer names are cut on creation and are then never found (C17_state_names_long_unknown), so the claim for all strings is false."
  },
  {
   "property": "C18",
   "status": "proved",
   "theorems": [
    "C18_identity"
   ],
   "note": ""
  },
  {
   "property": "C19",
   "status": "proved",
   "theorems": [
    "C19_heap_sorts",
    "C19_heap_history"
   ],
   "note": ""
  },
  {
   "property": "C20",
   "status": "partial",
   "theorems": [
    "C20_decreased_key_refuted",
    "C20_increased_keys_refuted",
    "C20_increased_keys_partial"
   ],
   "note": "The English claim is false: a decreased key below the root is never noticed (refuted for every built heap), and growing keys changed from the root downwards can go wrong. Proved for growing keys changed from higher to lower index, in particular for one growing key."
  },
  {
   "property": "C21",
   "status": "partial",
   "theorems": [
    "C21_insert_within_initial_size",
    "C21_insert_beyond_refuted"
   ],
   "note": "False beyond the initial size: every further insertion writes out of bounds (refuted for all sizes). Proved up to the initial size."
  },
  {
   "property": "C22",
   "status": "proved",
   "theorems": [
    "C22_moral_graph"
   ],
   "note": ""
  },
  {
   "property": "C23",
   "status": "proved",
   "theorems": [
    "C23_interface_edges"
   ],
   "note": ""
  },
  {
   "property": "C24",
   "status": "proved",
   "theorems": [
    "C24_undirected"
   ],
   "note": ""
  },
  {
   "property": "C25",
   "status": "proved",
   "theorems": [
    "C25_cliques_cover",
    "C25_find_clique",
    "C25_find_family",
    "C25_construction_succeeds"
   ],
   "note": "Any cost functions, hence any elimination order. Graphs without self arcs, n(n-1) within INT_MAX."
  },
  {
   "property": "C26",
   "status": "proved",
   "theorems": [
    "C26_cliques_maximal"
   ],
   "note": "The triangulated graph is the one left by the calls inside nip_graph_to_cliques; it is also shown to be chordal, and every complete set is inside a clique."
  },
  {
   "property": "C27",
   "status": "proved",
   "theorems": [
    "C27_sepsets_tree",
    "C27_single_clique_reported"
   ],
   "note": "A single clique is reported as ENOMEM although the tree is complete (C27_single_clique_reported)."
  },
  {
   "property": "C28",
   "status": "proved",
   "theorems": [
    "C28_running_intersection",
    "C28_built_tree"
   ],
   "note": "Both forms: a way through sepsets with the variable, and every sepset and clique on the path."
  },
  {
   "property": "C29",
   "status": "proved",
   "theorems": [
    "C29_reordered_table"
   ],
   "note": ""
  },
  {
   "property": "C30",
   "status": "partial",
   "theorems": [
    "C30_parsed_factors",
    "C30_distributions_kept_partial",
    "C30_declaration_order_refuted"
   ],
   "note": "False for other orders of declaration (refuted): each table is normalised over the member of the family declared first. Proved when every node is declared before its parents; C30_parsed_factors gives the contents of the model for every order."
  },
  {
   "property": "C31",
   "status": "proved",
   "theorems": [
    "C31_message_preserves_joint",
    "C31_messages_preserve_joint",
    "C31_message_content"
   ],
   "note": ""
  },
  {
   "property": "C32",
   "status": "proved",
   "theorems": [
    "C32_make_consistent_calibrates"
   ],
   "note": ""
  },
  {
   "property": "C33",
   "status": "proved",
   "theorems": [
    "C33_exact_clique_marginals",
    "C33_exact_variable_marginals",
    "C33_get_probability_exact"
   ],
   "note": ""
  },
  {
   "property": "C34",
   "status": "partial",
   "theorems": [
    "C34_latest_evidence",
    "C34_evidence_with_priors_partial",
    "C34_priors_lost_refuted",
    "C34_any_history"
   ],
   "note": "C34_any_history covers every sequence of insertions, priors, resets, propagation and queries. The English claim fails when an insertion revives a state after use_priors: the priors leave the joint (C34_priors_lost_refuted, for all such sequences). Proved without priors, and with priors as long as nothing is revived."
  },
  {
   "property": "C35",
   "status": "proved",
   "theorems": [
    "C35_reset_forgets"
   ],
   "note": ""
  },
  {
   "property": "C36",
   "status": "proved",
   "theorems": [
    "C36_priors_once",
    "C36_priors_idempotent"
   ],
   "note": ""
  },
  {
   "property": "C37",
   "status": "proved",
   "theorems": [
    "C37_mass_is_total",
    "C37_mass_ratio"
   ],
   "note": ""
  },
  {
   "property": "C38",
   "status": "proved",
   "theorems": [
    "C38_distribution"
   ],
   "note": ""
  },
  {
   "property": "C39",
   "status": "partial",
   "theorems": [
    "C39_joint_posterior_partial",
    "C39_joint_posterior_refuted"
   ],
   "note": "Exact for a tree of one clique; refuted for every tree of two or more cliques (the call never returns a table)."
  },
  {
   "property": "C40",
   "status": "proved",
   "theorems": [
    "C40_forward_filtering",
    "C40_forward_likelihood",
    "C40_impossible_data"
   ],
   "note": ""
  },
  {
   "property": "C41",
   "status": "proved",
   "theorems": [
    "C41_forward_backward_smoothing",
    "C41_likelihood"
   ],
   "note": ""
  },
  {
   "property": "C42",
   "status": "proved",
   "theorems": [
    "C42_only_marked_data_count",
    "C42_any_history"
   ],
   "note": ""
  },
  {
   "property": "C43",
   "status": "proved",
   "theorems": [
    "C43_m_step_installs",
    "C43_zero_columns"
   ],
   "note": "C43_zero_columns states what the code really installs when a parent configuration has no support (zero counts cannot arise after the pseudocount is added, they can in m_step alone)."
  },
  {
   "property": "C44",
   "status": "proved",
   "theorems": [
    "C44_stopping_rule",
    "C44_em_learn"
   ],
   "note": "Any calls of rand; the learning curve, the reported code and the stopping rule."
  },
  {
   "property": "C45",
   "status": "proved",
   "theorems": [
    "C45_lottery_picks",
    "C45_lottery_interval"
   ],
   "note": ""
  },
  {
   "property": "C46",
   "status": "partial",
   "theorems": [
    "C46_positive_random",
    "C46_no_impossible_state_refuted"
   ],
   "note": "Holds for every random number above 0; refuted at exactly r = 0, which rand() can return."
  },
  {
   "property": "C47",
   "status": "proved",
   "theorems": [
    "C47_parents_first",
    "C47_valid_states",
    "C47_exact_sampling",
    "C47_cyclic_diverges"
   ],
   "note": "Beyond the claim: the probability of each generated series is its probability under the model given the evidence; a cyclic network never terminates (C47_cyclic_diverges)."
  },
  {
   "property": "C48",
   "status": "partial",
   "theorems": [
    "C48_round_trip_partial",
    "C48_lost_refuted",
    "C48_null_state_refuted"
   ],
   "note": "Series of length zero are lost, and every variable observed in one series is observed (missing) in all (refuted). Proved: everything else survives; with the same observed variables in all series the data are identical. A state called null stands for missing values (refuted), lines must fit the buffer of 10000 characters."
  },
  {
   "property": "C49",
   "status": "proved",
   "theorems": [
    "C49_tokeniser_agrees",
    "C49_fewer_tokens_overflow"
   ],
   "note": ""
  },
  {
   "property": "C50",
   "status": "proved",
   "theorems": [
    "C50_tokens_are_fields",
    "C50_words"
   ],
   "note": ""
  },
  {
   "property": "C51",
   "status": "proved",
   "theorems": [
    "C51_lists_are_sequences"
   ],
   "note": ""
  },
  {
   "property": "C52",
   "status": "proved",
   "theorems": [
    "C52_contains_subset"
   ],
   "note": ""
  },
  {
   "property": "C53",
   "status": "proved",
   "theorems": [
    "C53_error_bookkeeping"
   ],
   "note": ""
  },
  {
   "property": "C54",
   "status": "proved",
   "theorems": [
    "C54_interfaces"
   ],
   "note": ""
  },
  {
   "property": "C55",
   "status": "partial",
   "theorems": [
    "C55_set_then_get_partial",
    "C55_set_rejects",
    "C55_get_rejects",
    "C55_set_time_refuted",
    "C55_get_missing_refuted",
    "C55_get_posterior"
   ],
   "note": "Proved inside the series; set_observation at a time outside of it and get_observation of a missing value are undefined behaviour (refuted for all such calls)."
  },
  {
   "property": "C56",
   "status": "proved",
   "theorems": [
    "C56_expected_counts"
   ],
   "note": ""
  },
  {
   "property": "C57",
   "status": "proved",
   "theorems": [
    "C57_find_family",
    "C57_find_family_mapping"
   ],
   "note": ""
  },
  {
   "property": "C58",
   "status": "partial",
   "theorems": [
    "C58_learning_monotone_refuted"
   ],
   "note": "False of the code (refuted): the pseudocount 1 added to each expected count can lower the likelihood. What learning does not lower is the probability times the product of all table entries: C84."
  },
  {
   "property": "C59",
   "status": "partial",
   "theorems": [
    "C59_learning_continues_refuted",
    "C59_conditionals_kept_partial"
   ],
   "note": "False of the code as stated (refuted): without random initialisation the priors of the parentless variables are forgotten. Proved: the conditional distributions of all variables with parents are kept exactly (they can be read off the clique tables) and the priors become uniform, so the first likelihood is that of the model with uniform priors; for models whose clique tables are products of conditional distributions (parsed and learned models are)."
  },
  {
   "property": "C60",
   "status": "proved",
   "theorems": [
    "C60_graph_construction"
   ],
   "note": ""
  },
  {
   "property": "C61",
   "status": "proved",
   "theorems": [
    "C61_parsed_model",
    "C61_parsing_succeeds",
    "C61_small_files"
   ],
   "note": "Success is conditional on the clique tables being addressable with an int (C61_small_files: e.g. if the whole joint is). `parsed` also promises that variables connected pairwise by the file share a clique, and that no clique lies within another."
  },
  {
   "property": "C62",
   "status": "proved",
   "theorems": [
    "C62_ready_for_learning",
    "C62_conditional_slices"
   ],
   "note": ""
  },
  {
   "property": "C63",
   "status": "partial",
   "theorems": [
    "C63_second_file_refuted"
   ],
   "note": "False of the code (refuted for every pair of proper files): the list of variables is freed, the static pointer to it stays."
  },
  {
   "property": "C64",
   "status": "partial",
   "theorems": [
    "C64_labels_optional_refuted"
   ],
   "note": "False of the code (refuted for every file that starts with a labelled and an unlabelled node): the label is freed, the static pointer to it stays."
  },
  {
   "property": "C65",
   "status": "proved",
   "theorems": [
    "C65_posterior_of_the_file"
   ],
   "note": ""
  },
  {
   "property": "C66",
   "status": "partial",
   "theorems": [
    "C66_quoted_strings_partial",
    "C66_separator_in_quotes_refuted"
   ],
   "note": "False if a quoted string contains a separator and is followed by a character that is neither a separator nor the end (refuted: the blank after it becomes a token). Proved for all other texts."
  },
  {
   "property": "C67",
   "status": "partial",
   "theorems": [
    "C67_reading_partial",
    "C67_blank_file",
    "C67_short_lines_refuted",
    "C67_duplicate_columns_refuted"
   ],
   "note": "False for fields missing at the end of a line, which become the first state, and for two columns of one variable, which are undefined behaviour (both refuted). The theorem says what is read from every other file."
  },
  {
   "property": "C68",
   "status": "partial",
   "theorems": [
    "C68_analysis_partial",
    "C68_headerless_refuted"
   ],
   "note": "With a header proved; without one no columns are found in any file (refuted): the names are never made up."
  },
  {
   "property": "C69",
   "status": "proved",
   "theorems": [
    "C69_text_read_as_declared",
    "C69_posterior_of_the_text"
   ],
   "note": ""
  },
  {
   "property": "C70",
   "status": "partial",
   "theorems": [
    "C70_identifiers_are_symbols_partial",
    "C70_reserved_identifiers_refuted"
   ],
   "note": "False for keywords, for identifiers that start with inf or nan in any case, which strtod reads as numbers, and for a single underscore (refuted: every such file is rejected). All others proved, in files of one node; in other files by C69."
  },
  {
   "property": "C71",
   "status": "partial",
   "theorems": [
    "C71_accepted_files",
    "C71_accepted_terminals",
    "C71_lexer_total",
    "C71_no_nodes_refuted"
   ],
   "note": "Accepted texts: proved. That the others are rejected with NULL is false: a text that does not start with a node, net or class dereferences NULL (refuted)."
  },
  {
   "property": "C72",
   "status": "proved",
   "theorems": [
    "C72_written_text",
    "C72_not_opened",
    "C72_not_closed",
    "C72_written_file_is_proper"
   ],
   "note": "For models whose texts can be quoted (no quotes, separators or line ends in them, at most 40 characters), with at most 100 parents per variable and priors that add up to one."
  },
  {
   "property": "C73",
   "status": "partial",
   "theorems": [
    "C73_distributions_written",
    "C73_round_trip_partial",
    "C73_six_decimals",
    "C73_lost_columns_refuted"
   ],
   "note": "False for states of the parents that the rest of the clique excludes: their columns are written as zeros (refuted). Proved: everything else survives with the numbers rounded to six decimals, the written file can be read, and with numbers of six decimals the joint distribution is the same. Needs children declared before parents (C30) and data for variables without parents. How rounding accumulates in the joint distribution is not stated."
  },
  {
   "property": "C74",
   "status": "proved",
   "theorems": [
    "C74_written",
    "C74_missing",
    "C74_unopened"
   ],
   "note": "Probabilities between 0 and 1; the conversion %f is exact decimal rounding of a rational."
  },
  {
   "property": "C75",
   "status": "partial",
   "theorems": [
    "C75_inference",
    "C75_unknown_variable",
    "C75_no_series",
    "C75_no_data_file",
    "C75_status_refuted"
   ],
   "note": "That the status tells whether results were written is false: it is 0 if the output file cannot be opened (refuted). Everything else is proved. The average of the log-likelihoods printed to stderr is represented by the quotients whose logarithms are averaged. Children declared before parents (C30); if nothing comes from the step before, the records must have positive probability."
  },
  {
   "property": "C76",
   "status": "proved",
   "theorems": [
    "C76_most_probable",
    "C76_nothing_hidden"
   ],
   "note": "The states are the most probable ones one by one, not jointly. Same conditions on the files as C75."
  },
  {
   "property": "C77",
   "status": "proved",
   "theorems": [
    "C77_last_step"
   ],
   "note": "log() and the format %g are an argument (the text for the logarithm of a number); the average of the log-likelihoods on stderr is left out."
  },
  {
   "property": "C78",
   "status": "proved",
   "theorems": [
    "C78_converted",
    "C78_no_known_column"
   ],
   "note": "For the formats univariate and unary; with several known columns only the first one is converted."
  },
  {
   "property": "C79",
   "status": "partial",
   "theorems": [
    "C79_masses",
    "C79_likelihood_refuted"
   ],
   "note": "The masses of each step are proved; that their quotients multiply to the conditional probability of the asked data of the series is refuted. Logarithms and the printed decimals are not modelled."
  },
  {
   "property": "C80",
   "status": "proved",
   "theorems": [
    "C80_sample"
   ],
   "note": "Random numbers are an argument. If no variable has a predecessor in the previous slice, the draw is proved to follow the distributions for given roots and positive random numbers (rand() = 0 picks impossible states, C46)."
  },
  {
   "property": "C81",
   "status": "partial",
   "theorems": [
    "C81_trained",
    "C81_runs_end",
    "C81_endless",
    "C81_ends_refuted",
    "C81_ends"
   ],
   "note": "Everything but termination in general is proved. That niptrain always ends is refuted: if no tables give the data the probability asked for, it starts new runs forever (C81_endless). If the data are possible and the demands are modest enough, the first run ends it (C81_ends). Random numbers are an argument and must be positive; logarithms are represented by probabilities. Same conditions on the files as C73."
  },
  {
   "property": "C82",
   "status": "proved",
   "theorems": [
    "C82_join_trees",
    "C82_models",
    "C82_without_states_refuted",
    "C82_loop_refuted",
    "C82_copy_refuted"
   ],
   "note": "Allocations always succeed; lists of properties of potentials are empty. The three refuted statements concern calls outside of the claim: variables without names of states, a clique connected to itself, and nip_copy_variable, whose copies can never be freed."
  },
  {
   "property": "C83",
   "status": "proved",
   "theorems": [
    "C83_series"
   ],
   "note": "Allocations always succeed."
  },
  {
   "property": "C84",
   "status": "proved",
   "theorems": [
    "C84_learning",
    "C84_training"
   ],
   "note": "Correct version of C58. For models read from NET files and series with any missing values; random numbers are an argument and must be positive; exact arithmetic."
  },
  {
   "property": "C85",
   "status": "partial",
   "theorems": [
    "C85_joint_partial",
    "C85_cliques_refuted",
    "C85_unknown",
    "C85_no_series",
    "C85_released",
    "C85_freed_twice_refuted"
   ],
   "note": "False for networks of two or more cliques (get_joint_probability returns NULL, which is dereferenced) and for the memory when no symbols are given (an array of the series is freed twice). Proved for networks where every two variables are connected by the file. The masses are results of the model instead of text (%g is not modelled); log is left out."
  },
  {
   "property": "C86",
   "status": "proved",
   "theorems": [
    "C86_propagation",
    "C86_history",
    "C86_posterior",
    "C86_completes",
    "C86_relative_error",
    "C86_double",
    "C86_exact"
   ],
   "note": "One rounding per operation; numbers in the parsed tables and evidence vectors are taken as given; a run in which the rounding has no result (overflow, subnormal numbers) is not looked at. The mass, likelihoods and learning are not covered."
  },
  {
   "property": "C87",
   "status": "proved",
   "theorems": [
    "C87_filtering",
    "C87_smoothing",
    "C87_completes",
    "C87_exact"
   ],
   "note": "For calls without loglikelihood. That zero stays zero and positive stays positive is C86_relative_error. One rounding per operation; the numbers in the tables are taken as given; runs in which the rounding has no result (overflow, subnormal numbers) are not looked at."
  },
  {
   "property": "C88",
   "status": "partial",
   "theorems": [
    "C88_counts",
    "C88_completes",
    "C88_exact",
    "C88_possible_data_refuted"
   ],
   "note": "Proved: the counts, impossible data, completion (any log(): it enters only the decision whether to report bad luck). Refuted (C88_possible_data_refuted): that possible data are counted; in the format double a series of probability one can be reported as bad luck, because the test of the log-likelihood against zero is exact. Overflow and subnormal numbers are not looked at (the M-step: C90)."
  },
  {
   "property": "C89",
   "status": "proved",
   "theorems": [
    "C89_reading",
    "C89_blank_file",
    "C89_missing_file",
    "C89_files"
   ],
   "note": "Proved for the memory of MemoryModel2.v; allocations succeed and calloc(0) is not NULL, as in glibc. Files with two columns of one variable are excluded: there the array of hidden variables is overrun (C67_duplicate_columns_refuted)."
  },
  {
   "property": "C90",
   "status": "partial",
   "theorems": [
    "C90_learning",
    "C90_completes",
    "C90_exact",
    "C90_learns_refuted"
   ],
   "note": "Proved: the error of the learnt model for every number of rounds, the stopping rule, termination (any log(): it enters only the decisions). Refuted (C90_learns_refuted): that learning succeeds if it does without rounding; the cause is that of C88. The accuracy of the entries of the learning curve is not covered (they are logarithms). Overflow and subnormal numbers are not looked at."
  },
  {
   "property": "C91",
   "status": "partial",
   "theorems": [
    "C91_join_tree_memory",
    "C91_nothing_left",
    "C91_everything_freed_refuted"
   ],
   "note": "Refuted (C91_everything_freed_refuted): sepsets between cliques that are no neighbours can be lost. Proved: everything else, and exactly how much is lost: 11 or 12 blocks for each pair in a list, whose members are no neighbours and share at least as many variables as some sepset; all pairs that share more are in it. Graphs, heaps, clusters and lists are blocks without fields (their contents are in HeapModel.v and GraphModel.v). Allocations succeed."
  },
  {
   "property": "C92",
   "status": "partial",
   "theorems": [
    "C92_parse_memory",
    "C92_nothing_left",
    "C92_everything_freed_refuted"
   ],
   "note": "Refuted (C92_everything_freed_refuted): a label, NIP_next or list of states that a node gives beside the one that counts is never freed. Proved: everything else, and exactly how many blocks are left: those texts (counted from the file) and the sepsets that C91 loses; nothing at all if there are none of either (C92_nothing_left). Lists of the parser are blocks with their contents beside them. Allocations succeed; files that are not parsed are not covered."
  },
  {
   "property": "C93",
   "status": "partial",
   "theorems": [
    "C93_predicted",
    "C93_rejects",
    "C93_unwritten",
    "C93_endless",
    "C93_ends_refuted",
    "C93_ends"
   ],
   "note": "Everything but termination in general is proved (C93_predicted, C93_rejects); that it always ends is refuted (C93_ends_refuted: contradictory data and a minimum likelihood below 1), C93_ends says when it does. C93_unwritten: the status is 0 although the file could not be opened. Random numbers are an argument and must be positive; logarithms are represented by probabilities. Same conditions on the files as C73; all six arguments are given."
  },
  {
   "property": "C94",
   "status": "proved",
   "theorems": [
    "C94_programs",
    "C94_learning",
    "C94_inference",
    "C94_sampling"
   ],
   "note": "Proved for programs over the memory model. Simplified: arrays that a function called on the way allocates and frees itself (nip_message_pass, nip_enter_index_observation, nip_find_family) appear only as sizes; the exchange of the two potentials of a sepset, the learning curve and the callback, which belong to the caller, are left out; allocation succeeds. Branches after a failing message between time steps are not taken, since start_ and finish_timeslice_message_pass never fail."
  },
  {
   "property": "C95",
   "status": "proved",
   "theorems": [
    "C95_inference",
    "C95_next",
    "C95_map",
    "C95_map_unclosed",
    "C95_likelihood",
    "C95_sample",
    "C95_train",
    "C95_nothing_left",
    "C95_map_frees_refuted"
   ],
   "note": "Proved, with the exceptions in the statement; that nipmap frees everything in every case is refuted (C95_map_unclosed, C95_map_frees_refuted). Simplified as in C92 and C94: what numbers decide is an argument, arrays that a called function allocates and frees itself appear as sizes, elements of arrays of the model other than the variables are named by numbers, the learning curve grows after em_learn instead of during it, allocation succeeds. Failing parses and other exits before the model exists are not covered."
  },
  {
   "property": "C96",
   "status": "proved",
   "theorems": [
    "C96_benchmark",
    "C96_benchmark_single",
    "C96_convert",
    "C96_benchmark_frees_refuted"
   ],
   "note": "Proved, with the exceptions in the statement; that nipbenchmark frees everything is refuted (C96_benchmark_single, C96_benchmark_frees_refuted). Simplified as in C95: what numbers decide is an argument, the learning curve grows after em_learn, allocation succeeds; the size of the union of observed variables comes from the series (C67), and the values that nipconvert reads are in C78."
  },
  {
   "property": "C97",
   "status": "partial",
   "theorems": [
    "C97_answers",
    "C97_once",
    "C97_copy",
    "C97_replaced_refuted",
    "C97_shared_refuted"
   ],
   "note": "False for a key that is set twice (C97_replaced_refuted: the value set first stays) and for copies (C97_copy: a copy has no properties). Proved: the answers are those of the first setting (C97_answers), the last one if no key is set twice (C97_once), and everything is freed. That each setting hands over two strings of its own is needed (C97_shared_refuted). Missing: allocation that fails."
  },
  {
   "property": "C98",
   "status": "partial",
   "theorems": [
    "C98_cost",
    "C98_exact",
    "C98_no_overflow",
    "C98_overflow",
    "C98_small_tables_refuted",
    "C98_small_cliques_refuted"
   ],
   "note": "False: the cost of the cluster of a variable and all its neighbours overflows although all cliques are small (C98_small_tables_refuted for every binary variable with thirty or more binary children, C98_small_cliques_refuted, and C98_overflow in general). Proved: a cost is exact or undefined (C98_cost), a defined result is that of exact costs (C98_exact), and there is no overflow if the configurations of all the variables together can be counted with an int (C98_no_overflow)."
  },
  {
   "property": "C99",
   "status": "partial",
   "theorems": [
    "C99_argument",
    "C99_rejected",
    "C99_sample_repeated",
    "C99_train_repeated",
    "C99_benchmark_repeated",
    "C99_defined",
    "C99_different",
    "C99_process_refuted",
    "C99_different_refuted",
    "C99_wide_refuted",
    "C99_train_refuted"
   ],
   "note": "False for process numbers from 65535 on (C99_process_refuted: int overflow) and for niptrain without a seed (C99_train_refuted: given the seed it printed, it also initialises the parameters at random). Proved: the seed alone determines the generator, arguments without an integer are rejected, printed seeds give the same state, made-up seeds are defined and different for smaller process numbers. Seeds 2^32 apart are the same (C99_wide_refuted). Missing: the generator behind srand, a failing localtime."
  },
  {
   "property": "C100",
   "status": "partial",
   "theorems": [
    "C100_gather",
    "C100_joint",
    "C100_one_clique",
    "C100_undefined_refuted",
    "C100_kept_refuted"
   ],
   "note": "False: nipjoint without names frees an array of a series twice, and prints NULL if there is no table (C100_undefined_refuted); it frees nothing if there are no series or a variable is unknown (C100_kept_refuted); an array is left for each message between cliques and for each failed message (C100_gather). Proved: exactly these are left, nothing else, and nothing undefined happens otherwise (C100_gather, C100_joint; nothing is left for one clique, C100_one_clique). What numbers decide is an argument; allocation succeeds."
  },
  {
   "property": "C101",
   "status": "partial",
   "theorems": [
    "C101_run",
    "C101_file",
    "C101_rejected",
    "C101_large_refuted",
    "C101_small_refuted",
    "C101_missing_refuted",
    "C101_threshold",
    "C101_lowest",
    "C101_no_numbers",
    "C101_nan_refuted",
    "C101_infinite",
    "C101_iterations"
   ],
   "note": "False: amounts that no int holds, infinities and NaN are undefined instead of rejected (C101_large_refuted), lengths below 1 are accepted (C101_small_refuted), NaN passes as threshold and as lowest log-likelihood (C101_nan_refuted), missing arguments give status 0 (C101_missing_refuted). Proved: from the texts of the arguments to the file for all other amounts (C101_run, C101_file), rejection of the others (C101_rejected), and exactly which thresholds and log-likelihoods pass. Missing: rounding of strtod, text behind a number."
  },
  {
   "property": "C102",
   "status": "partial",
   "theorems": [
    "C102_rest",
    "C102_line_ends",
    "C102_rest_refuted",
    "C102_reread_refuted"
   ],
   "note": "False: the rest of the line of the error is read in front of the next file (C102_rest), and every next file is undefined unless a file can begin with that rest (C102_rest_refuted, C102_reread_refuted). Proved: files given up at ends of lines leave nothing behind in the lexer (C102_line_ends). The number of tokens taken before giving up is an argument of the model."
  },
  {
   "property": "C103",
   "status": "partial",
   "theorems": [
    "C103_answers",
    "C103_outside_refuted",
    "C103_again",
    "C103_forgotten_refuted"
   ],
   "note": "False for variables whose identifier is outside the range of those in the graph: the index is read outside its array (C103_outside_refuted). Proved for all sequences of calls with identifiers in the range, whether or not they are in the graph (C103_answers). Variables may be added again (C103_again), but then the graph forgets their arcs (C103_forgotten_refuted)."
  },
  {
   "property": "C104",
   "status": "partial",
   "theorems": [
    "C104_rejected",
    "C104_nodes_kept_refuted",
    "C104_corrected_refuted"
   ],
   "note": "False: the next file gives the model of a file with the nodes of the rejected one in front (C104_nodes_kept_refuted, for all such files), and a corrected file read again gives a variable twice (C104_corrected_refuted). Proved: such files are rejected without undefined behaviour (C104_rejected)."
  },
  {
   "property": "C105",
   "status": "partial",
   "theorems": [
    "C105_attempts",
    "C105_nothing_lost_refuted"
   ],
   "note": "Nothing undefined happens, and everything that can be reached can be freed (C105_attempts, any number of calls). That no memory is lost is false: each call loses the struct of the model, and the strings of the wrong declaration (C105_attempts says exactly how many blocks, C105_nothing_lost_refuted that they have no bound)."
  },
  {
   "property": "C106",
   "status": "partial",
   "theorems": [
    "C106_fresh",
    "C106_rejected",
    "C106_once_refuted",
    "C106_corrected_refuted"
   ],
   "note": "False: the file is rejected and leaves the parents of the potential in a static list (C106_rejected); if one of them has two states or more, a corrected file with exactly the needed numbers is then rejected, too (C106_once_refuted), and so are all further ones as long as nothing undefined happens (C106_corrected_refuted, any number of attempts). C106_fresh ties the model to the one of the other parser theorems; that a new process accepts the file of the example is C106_case."
  },
  {
   "property": "C107",
   "status": "partial",
   "theorems": [
    "C107_first_file",
    "C107_declared",
    "C107_carried_refuted",
    "C107_rejected_refuted",
    "C107_every_document"
   ],
   "note": "False: the size is the last one declared in any file the process has read, rejected ones included (C107_carried_refuted, for all sequences of files); a file without one that is read after a rejected one gets the size of that (C107_rejected_refuted). Proved: the first file gets its own size or 80 by 60 (C107_first_file, for all texts), and a file that declares a size always gets it (C107_declared). Earlier files may be wrong anywhere behind the net block or in a node_size declaration; missing are those with an error in the value of an unknown declaration of the net block."
  }
 ]
}