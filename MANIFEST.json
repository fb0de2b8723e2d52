{
 "claims": [
  {
   "property": "C01",
   "status": "proved",
   "theorems": [
    "C01_fitness_history",
    "C01_multi_objective",
    "C01_multi_objective_once",
    "C01_multi_objective_reset",
    "C01_new",
    "C01_relative_not_copied",
    "C01_new_multi_objective"
   ],
   "note": ""
  },
  {
   "property": "C02",
   "status": "proved",
   "theorems": [
    "C02_better_direction",
    "C02_irreflexive",
    "C02_asymmetric",
    "C02_transitive",
    "C02_negatively_transitive",
    "C02_equal_is_incomparable",
    "C02_finite_fitness_scores",
    "C02_unevaluated_raises",
    "C02_nan_refuted",
    "C02_mixed_direction_refuted",
    "C02_other_values"
   ],
   "note": ""
  },
  {
   "property": "C03",
   "status": "proved",
   "theorems": [
    "C03_smaller_is_better",
    "C03_tradeoff",
    "C03_antitone_and_pure_unaffected",
    "C03_zero_weight",
    "C03_infinite"
   ],
   "note": ""
  },
  {
   "property": "C04",
   "status": "proved",
   "theorems": [
    "C04_clone_copies",
    "C04_clone_independent"
   ],
   "note": ""
  },
  {
   "property": "C05",
   "status": "proved",
   "theorems": [
    "C05_ids_and_lineage",
    "C05_evolve_keeps_lineage"
   ],
   "note": ""
  },
  {
   "property": "C06",
   "status": "proved",
   "theorems": [
    "C06_elitism"
   ],
   "note": ""
  },
  {
   "property": "C07",
   "status": "proved",
   "theorems": [
    "C07_tournaments",
    "C07_too_small"
   ],
   "note": ""
  },
  {
   "property": "C08",
   "status": "proved",
   "theorems": [
    "C08_accepted",
    "C08_distribution",
    "C08_order",
    "C08_interval",
    "C08_selection",
    "C08_over_approximated",
    "C08_proportional_refuted"
   ],
   "note": "Sums and quotients are exact rationals; the exponential function is arbitrary except for non-negativity, monotonicity and exp 0 = 1."
  },
  {
   "property": "C09",
   "status": "proved",
   "theorems": [
    "C09_size_kept"
   ],
   "note": ""
  },
  {
   "property": "C10",
   "status": "proved",
   "theorems": [
    "C10_crossover_mixes_positions",
    "C10_crossover_keeps_bounds"
   ],
   "note": ""
  },
  {
   "property": "C11",
   "status": "proved",
   "theorems": [
    "C11_one_point",
    "C11_two_point_effect",
    "C11_two_point_documented",
    "C11_k_points_refuted"
   ],
   "note": ""
  },
  {
   "property": "C12",
   "status": "proved",
   "theorems": [
    "C12_mutation_in_bounds",
    "C12_at_most_n_cells",
    "C12_uniform_never_fails",
    "C12_two_individuals_refuted",
    "C12_effect",
    "C12_applied",
    "C12_integers_kept"
   ],
   "note": ""
  },
  {
   "property": "C13",
   "status": "proved",
   "theorems": [
    "C13_gauss_ends_in_bounds"
   ],
   "note": ""
  },
  {
   "property": "C14",
   "status": "proved",
   "theorems": [
    "C14_bits_kept",
    "C14_at_most_n_flips",
    "C14_flip_one",
    "C14_flip_involutive",
    "C14_nflip_default_one_bit"
   ],
   "note": ""
  },
  {
   "property": "C15",
   "status": "proved",
   "theorems": [
    "C15_check_decides",
    "C15_length_two_raises"
   ],
   "note": ""
  },
  {
   "property": "C16",
   "status": "proved",
   "theorems": [
    "C16_creators",
    "C16_int_default_bounds_raise",
    "C16_other_default_bounds"
   ],
   "note": ""
  },
  {
   "property": "C17",
   "status": "proved",
   "theorems": [
    "C17_replace_part",
    "C17_overlong_part_grows",
    "C17_replace_random",
    "C17_replace_random_too_long",
    "C17_random_part",
    "C17_add_cell",
    "C17_set_cell",
    "C17_set_cell_beyond",
    "C17_constructor",
    "C17_refilled"
   ],
   "note": ""
  },
  {
   "property": "C18",
   "status": "proved",
   "theorems": [
    "C18_default_getter_raises",
    "C18_failing_mutation_raises"
   ],
   "note": ""
  },
  {
   "property": "C19",
   "status": "proved",
   "theorems": [
    "C19_created",
    "C19_succeeds",
    "C19_unique"
   ],
   "note": ""
  },
  {
   "property": "C20",
   "status": "proved",
   "theorems": [
    "C20_half_and_half",
    "C20_split",
    "C20_too_few",
    "C20_succeeds",
    "C20_bloat_weight_lost"
   ],
   "note": ""
  },
  {
   "property": "C21",
   "status": "proved",
   "theorems": [
    "C21_size",
    "C21_depth",
    "C21_depth_without_parameters_refuted",
    "C21_execute"
   ],
   "note": "depth fails for parameterless functions: C21_depth_without_parameters_refuted"
  },
  {
   "property": "C22",
   "status": "proved",
   "theorems": [
    "C22_drawn",
    "C22_reachable",
    "C22_replaced",
    "C22_every_subtree_refuted"
   ],
   "note": "that every subtree can be drawn is refuted by C22_every_subtree_refuted"
  },
  {
   "property": "C23",
   "status": "proved",
   "theorems": [
    "C23_crossover",
    "C23_acts",
    "C23_different_function_sets_refuted"
   ],
   "note": "different function sets: refuted"
  },
  {
   "property": "C24",
   "status": "proved",
   "theorems": [
    "C24_mutation",
    "C24_succeeds",
    "C24_acts"
   ],
   "note": ""
  },
  {
   "property": "C25",
   "status": "proved",
   "theorems": [
    "C25_erc_mutation",
    "C25_acts",
    "C25_shape",
    "C25_int_stays_int_refuted"
   ],
   "note": ""
  },
  {
   "property": "C26",
   "status": "proved",
   "theorems": [
    "C26_rejected",
    "C26_accepted",
    "C26_constant_terminal",
    "C26_array_rejected"
   ],
   "note": ""
  },
  {
   "property": "C27",
   "status": "proved",
   "theorems": [
    "C27_well_typed",
    "C27_other_erc_refuted"
   ],
   "note": ""
  },
  {
   "property": "C28",
   "status": "proved",
   "theorems": [
    "C28_never_shared",
    "C28_like_values",
    "C28_others_untouched",
    "C28_twice_refuted",
    "C28_shared_start_refuted",
    "C28_clone"
   ],
   "note": "Node objects are addresses in a store; deep copies use a memo. The value-level operators are those used in all other tree theorems."
  },
  {
   "property": "C29",
   "status": "proved",
   "theorems": [
    "C29_bad_arity",
    "C29_zero_arity"
   ],
   "note": ""
  },
  {
   "property": "C30",
   "status": "proved",
   "theorems": [
    "C30_old_individuals_untouched"
   ],
   "note": ""
  },
  {
   "property": "C31",
   "status": "proved",
   "theorems": [
    "C31_best_of_run",
    "C31_never_worse",
    "C31_nan_refuted",
    "C31_missed_refuted"
   ],
   "note": ""
  },
  {
   "property": "C32",
   "status": "proved",
   "theorems": [
    "C32_best_kept",
    "C32_generation_kept_refuted",
    "C32_multi_objective_refuted"
   ],
   "note": ""
  },
  {
   "property": "C33",
   "status": "proved",
   "theorems": [
    "C33_run_structure",
    "C33_evaluated_once",
    "C33_multi_objective"
   ],
   "note": ""
  },
  {
   "property": "C34",
   "status": "proved",
   "theorems": [
    "C34_prior_state",
    "C34_prior_state_generation",
    "C34_seeds",
    "C33_run_structure"
   ],
   "note": ""
  },
  {
   "property": "C35",
   "status": "proved",
   "theorems": [
    "C35_kept_without_variation",
    "C35_elites_protected_refuted"
   ],
   "note": ""
  },
  {
   "property": "C36",
   "status": "proved",
   "theorems": [
    "C36_brackets"
   ],
   "note": "The action is an arbitrary result; callbacks are arbitrary but do not (un)register."
  },
  {
   "property": "C37",
   "status": "proved",
   "theorems": [
    "C37_subscribers",
    "C37_publish",
    "C37_register_number",
    "C37_register_unknown",
    "C37_publish_unknown",
    "C37_unregister",
    "C37_existing_events_refuted"
   ],
   "note": "Over all histories of calls. Refuted for a publisher made from an existing events dictionary: ids restart at 0 and replace subscribers. The data passed to callbacks is the subject of C82."
  },
  {
   "property": "C38",
   "status": "proved",
   "theorems": [
    "C38_stagnation"
   ],
   "note": ""
  },
  {
   "property": "C39",
   "status": "proved",
   "theorems": [
    "C39_threshold",
    "C39_any_checker",
    "C39_no_checker",
    "C39_target"
   ],
   "note": ""
  },
  {
   "property": "C40",
   "status": "proved",
   "theorems": [
    "C40_own_values",
    "C40_first_exception",
    "C40_any_schedule",
    "C40_submit_stores_objects",
    "C40_submit_checks",
    "C40_one_subpopulation"
   ],
   "note": ""
  },
  {
   "property": "C41",
   "status": "proved",
   "theorems": [
    "C41_copied_iff",
    "C41_restored",
    "C41_fitness",
    "C41_comparison_raises",
    "C41_initialized",
    "C41_population",
    "C41_checkpoint_refuted",
    "C41_vector_mutation_refuted",
    "C41_ids_refuted"
   ],
   "note": "Objects are trees: shared references are copied separately in the model."
  },
  {
   "property": "C42",
   "status": "proved",
   "theorems": [
    "C42_only_once"
   ],
   "note": ""
  },
  {
   "property": "C43",
   "status": "proved",
   "theorems": [
    "C43_first_success",
    "C43_attempts"
   ],
   "note": ""
  },
  {
   "property": "C44",
   "status": "proved",
   "theorems": [
    "C44_chance",
    "C44_skipped",
    "C44_applied",
    "C44_probability_one",
    "C44_probability_negative",
    "C44_probability_zero"
   ],
   "note": "For the built-in operators; a Gauss mutation that falls back also records the uniform mutation and the ids twice."
  },
  {
   "property": "C45",
   "status": "proved",
   "theorems": [
    "C45_elites_in_range",
    "C45_elites_nearest",
    "C45_elites_monotone",
    "C45_all_elites",
    "C45_accepted",
    "C45_powers_of_two",
    "C45_six_creators",
    "C45_49_creators"
   ],
   "note": ""
  },
  {
   "property": "C46",
   "status": "proved",
   "theorems": [
    "C46_best",
    "C46_worst",
    "C46_average",
    "C46_average_between_refuted",
    "C46_average_infinite"
   ],
   "note": ""
  },
  {
   "property": "C47",
   "status": "proved",
   "theorems": [
    "C47_meaning",
    "C47_irreflexive",
    "C47_asymmetric",
    "C47_transitive",
    "C47_errors"
   ],
   "note": ""
  },
  {
   "property": "C48",
   "status": "proved",
   "theorems": [
    "C48_partition",
    "C48_ranks"
   ],
   "note": ""
  },
  {
   "property": "C49",
   "status": "proved",
   "theorems": [
    "C49_survivors",
    "C49_too_many"
   ],
   "note": ""
  },
  {
   "property": "C50",
   "status": "proved",
   "theorems": [
    "C50_crowding",
    "C50_infinite_refuted"
   ],
   "note": ""
  },
  {
   "property": "C51",
   "status": "proved",
   "theorems": [
    "C51_inverted",
    "C51_ranked",
    "C51_unranked",
    "C51_errors",
    "C51_equal",
    "C51_equal_unranked"
   ],
   "note": ""
  },
  {
   "property": "C52",
   "status": "proved",
   "theorems": [
    "C52_doubling",
    "C52_proportionate_fails",
    "C52_elitism_fails",
    "C52_sizes",
    "C52_default_run",
    "C52_default_fails"
   ],
   "note": ""
  },
  {
   "property": "C53",
   "status": "proved",
   "theorems": [
    "C53_two_objectives",
    "C53_three_objectives_refuted",
    "C53_unranked",
    "C53_run",
    "C53_numbered",
    "C53_scalar"
   ],
   "note": ""
  },
  {
   "property": "C54",
   "status": "proved",
   "theorems": [
    "C54_range",
    "C54_quantiles",
    "C54_monotone",
    "C54_nan",
    "C54_predict",
    "C54_predict_again",
    "C54_predict_forgets",
    "C54_root_method",
    "C54_unfitted",
    "C54_no_class_refuted",
    "C54_argmax_range_refuted",
    "C54_methods"
   ],
   "note": "Thresholds i/n are exact; the rounding of np.linspace is not modelled."
  },
  {
   "property": "C55",
   "status": "proved",
   "theorems": [
    "C55_division",
    "C55_inverse",
    "C55_root_domain",
    "C55_log_domain",
    "C55_log_default",
    "C55_log_value",
    "C55_finite_trees",
    "C55_nan_passed_on_refuted"
   ],
   "note": "Exact arithmetic: overflow to infinity is not modelled."
  },
  {
   "property": "C56",
   "status": "proved",
   "theorems": [
    "C56_truth_tables",
    "C56_if_then_else",
    "C56_de_morgan_refuted",
    "C56_floats_rejected",
    "C56_typed_de_morgan",
    "C56_typed_trees_run_refuted",
    "C56_lte_gt",
    "C56_lte0_gt0",
    "C56_nan_complementary_refuted"
   ],
   "note": ""
  },
  {
   "property": "C57",
   "status": "proved",
   "theorems": [
    "C57_add_tree",
    "C57_typed_refuted"
   ],
   "note": ""
  },
  {
   "property": "C58",
   "status": "proved",
   "theorems": [
    "C58_rows",
    "C58_integer_array_refuted"
   ],
   "note": ""
  },
  {
   "property": "C59",
   "status": "proved",
   "theorems": [
    "C59_created_population"
   ],
   "note": ""
  },
  {
   "property": "C60",
   "status": "proved",
   "theorems": [
    "C60_default_checker",
    "C60_default_run"
   ],
   "note": ""
  },
  {
   "property": "C61",
   "status": "proved",
   "theorems": [
    "C61_crowding_checker",
    "C61_stops"
   ],
   "note": ""
  },
  {
   "property": "C62",
   "status": "proved",
   "theorems": [
    "C62_get_params",
    "C62_set_params",
    "C62_params_law_refuted",
    "C62_clone",
    "C62_clone_fails",
    "C62_clone_fitted_refuted",
    "C62_saved_unfitted",
    "C62_fitted",
    "C62_fit",
    "C62_fit_raises"
   ],
   "note": ""
  },
  {
   "property": "C63",
   "status": "proved",
   "theorems": [
    "C63_run_completes",
    "C63_vectors",
    "C63_trees",
    "C63_number_terminals_raise",
    "C63_documented_terminals_refuted",
    "C63_numbers_where_needed"
   ],
   "note": "The condition on the textual form is needed because finish() shows the best individual; C63_documented_terminals_refuted is the version without it, refuted."
  },
  {
   "property": "C64",
   "status": "proved",
   "theorems": [
    "C64_determined",
    "C64_nsga2"
   ],
   "note": ""
  },
  {
   "property": "C65",
   "status": "proved",
   "theorems": [
    "C65_order_only",
    "C65_negated"
   ],
   "note": "Conditions on the configuration: by_comparison in Spec/OrderSpec.v. Fitness-proportionate selection, the stagnation and threshold checkers and bloat weights other than zero use the values themselves and are excluded."
  },
  {
   "property": "C66",
   "status": "proved",
   "theorems": [
    "C66_text",
    "C66_printable",
    "C66_numbers",
    "C66_unambiguous",
    "C66_determines_value"
   ],
   "note": ""
  },
  {
   "property": "C67",
   "status": "proved",
   "theorems": [
    "C67_error",
    "C67_error_rejects",
    "C67_fit_best",
    "C67_fit_completes",
    "C67_unfitted",
    "C67_bad_data",
    "C67_fit_again",
    "C67_integer_table_refuted",
    "C67_failed_fit"
   ],
   "note": "C67_integer_table_refuted: predictions do not depend on the numbers of the table alone. C67_fit_best assumes a fitness without bloat weight; with one, the winner is the best by penalised value (C31)."
  },
  {
   "property": "C68",
   "status": "proved",
   "theorems": [
    "C68_selection",
    "C68_generation",
    "C68_run",
    "C68_small_population_refuted"
   ],
   "note": "The bound of two individuals per objective is needed: C68_small_population_refuted is a finding (population 2, two objectives)."
  },
  {
   "property": "C69",
   "status": "proved",
   "theorems": [
    "C69_selection",
    "C69_generation",
    "C69_two_generations_refuted"
   ],
   "note": "Holds per generation; over several generations the front can lose ground (refuted with a witness run of two generations, four individuals and two objectives)."
  },
  {
   "property": "C70",
   "status": "proved",
   "theorems": [
    "C70_functions",
    "C70_trees",
    "C70_integers",
    "C70_argmax_nan",
    "C70_booleans",
    "C70_booleans_mixed",
    "C70_booleans_count",
    "C70_arguments",
    "C70_infinite",
    "C70_nan"
   ],
   "note": "Exact arithmetic: rounding and integer overflow are not modelled. Square root, logarithm and trigonometric functions are covered by C55 only."
  },
  {
   "property": "C71",
   "status": "proved",
   "theorems": [
    "C71_run_completes",
    "C71_vectors",
    "C71_only_once",
    "C71_crowding_checker"
   ],
   "note": "Evaluation by map (the executor's), exact arithmetic. Custom termination checkers only, because the default one raises on list fitness (5.2 in DESIGN.md)."
  },
  {
   "property": "C72",
   "status": "proved",
   "theorems": [
    "C72_observers",
    "C72_observers_moo",
    "C72_reports"
   ],
   "note": "Finding: a run over max_generation=0 or any run that continues never reports its initial population. Callbacks are registered before the run, may write lines and are given the data of the event (C85); a report is the list of values put into the format string."
  },
  {
   "property": "C73",
   "status": "proved",
   "theorems": [
    "C73_limits",
    "C73_limits_moo",
    "C73_longer"
   ],
   "note": "Both runs are assumed to end without an exception. User-defined checkers may look at the population, its individuals, the best individual, the generation number and what they have stored; they do not modify individuals or draw random numbers. The after_generation event of a run that stops at its initial population has no counterpart in a longer run."
  },
  {
   "property": "C74",
   "status": "proved",
   "theorems": [
    "C74_best",
    "C74_vector",
    "C74_program",
    "C74_number_terminals",
    "C74_before",
    "C74_multi_objective_refuted"
   ],
   "note": "C74_multi_objective_refuted: the same does not hold for multi-objective runs."
  },
  {
   "property": "C75",
   "status": "proved",
   "theorems": [
    "C75_extremes",
    "C75_found",
    "C75_find",
    "C75_lists",
    "C75_averages"
   ],
   "note": "By C73 the state after each generation of a run is the final state of a run with that limit, so C75_extremes holds after each generation. Non-NaN fitness."
  },
  {
   "property": "C76",
   "status": "proved",
   "theorems": [
    "C76_accepted",
    "C76_rejected",
    "C76_subpopulation",
    "C76_seeds",
    "C76_events",
    "C76_runs",
    "C76_vectors",
    "C76_methods",
    "C76_multi_objective",
    "C76_multi_objective_runs",
    "C76_others_rejected"
   ],
   "note": "An argument of a wrong type is one value ('something else'). A Population without subpopulations, or with several, is accepted by the constructor; its run raises ValueError (C40_one_subpopulation). Creation probabilities are assumed not to be negative in C76_runs."
  },
  {
   "property": "C77",
   "status": "proved",
   "theorems": [
    "C77_draws",
    "C77_tournaments",
    "C77_victories",
    "C77_better",
    "C77_last",
    "C77_everyone"
   ],
   "note": "random.sample is the pool algorithm; CPython's other algorithm for large populations (rejecting repetitions) has the same distribution but is not modelled."
  },
  {
   "property": "C78",
   "status": "proved",
   "theorems": [
    "C78_vectors",
    "C78_inside",
    "C78_number",
    "C78_programs",
    "C78_half"
   ],
   "note": "Typed trees: the terminals form a dictionary without numbers if there is an ERC range. The identity of a new number object is part of the tape, so it counts among the draws of a tree. Floats are exact."
  },
  {
   "property": "C79",
   "status": "proved",
   "theorems": [
    "C79_operator",
    "C79_run",
    "C79_functions",
    "C79_typed_run"
   ],
   "note": "A limitation of the implementation: the whole search space of C78 is open to the creators only. C79_untyped shows that untyped roots can be replaced."
  },
  {
   "property": "C80",
   "status": "proved",
   "theorems": [
    "C80_moves",
    "C80_connected",
    "C80_even_flips",
    "C80_cuts",
    "C80_points",
    "C80_trees",
    "C80_programs",
    "C80_exchanges",
    "C80_constants"
   ],
   "note": "Floats are the 2^53 values per cell that uniform draws; the place of a subtree is the first occurrence of its root (C22)."
  },
  {
   "property": "C81",
   "status": "proved",
   "theorems": [
    "C81_one_subpopulation",
    "C81_needs",
    "C81_no_selection",
    "C81_mixed_keys",
    "C81_tree_creators",
    "C81_too_many_points",
    "C81_crossover_alone",
    "C81_too_many_cells",
    "C81_no_selection_moo",
    "C81_too_early",
    "C81_arities",
    "C81_elites_of_objectives",
    "C81_tournament_too_large",
    "C81_wrong_arguments",
    "C81_trees_only"
   ],
   "note": "The operators are applied with certainty (probability at least 1)."
  },
  {
   "property": "C82",
   "status": "proved",
   "theorems": [
    "C82_genetic",
    "C82_shown",
    "C82_this_time_refuted",
    "C82_selection_mute",
    "C82_selection_given",
    "C82_creator",
    "C82_evaluator",
    "C82_individual_evaluator",
    "C82_breeder",
    "C82_breeding_silent"
   ],
   "note": "Listeners only look and may raise; they neither register nor unregister."
  },
  {
   "property": "C83",
   "status": "proved",
   "theorems": [
    "C83_accepted",
    "C83_refused",
    "C83_attributes",
    "C83_documented_probability_refuted",
    "C83_given_arity_refuted",
    "C83_tournament",
    "C83_documented_replacement_refuted",
    "C83_grow",
    "C83_full",
    "C83_half",
    "C83_creators_refused",
    "C83_vector_program",
    "C83_tree_program",
    "C83_effect",
    "C83_vectors"
   ],
   "note": "Arguments that are functions (cell selectors, gene creators) are not given."
  },
  {
   "property": "C84",
   "status": "proved",
   "theorems": [
    "C84_events",
    "C84_moo_events",
    "C84_best",
    "C84_recorded",
    "C84_restart",
    "C84_best_forgotten_refuted"
   ],
   "note": "C84_best and C84_recorded: one subpopulation with scalar fitness, population executor 'map'. In the generation whose evaluation failed, the individuals before the first failing one have got their values; they do not count for best_of_run_."
  },
  {
   "property": "C85",
   "status": "proved",
   "theorems": [
    "C85_told",
    "C85_moo_told",
    "C85_last",
    "C85_moo_last"
   ],
   "note": "The listener is one that notes what it is given; that it does not influence the run is C72. The run starts with an algorithm that has not run before. The other objects in the data of 'init' (statistics, breeder, checker, events, max_workers) are opaque."
  },
  {
   "property": "C86",
   "status": "proved",
   "theorems": [
    "C86_one_max",
    "C86_one_max_float"
   ],
   "note": "Sums of floats are exact in the model; a rounded sum can be 100 although a cell is slightly less than 1. The number of individuals on the heap before the run is 0."
  },
  {
   "property": "C87",
   "status": "proved",
   "theorems": [
    "C87_knapsack",
    "C87_items_refuted",
    "C87_no_list"
   ],
   "note": "Sums are exact. C87_items_refuted refutes that a list of (weight, price) pairs is accepted."
  },
  {
   "property": "C88",
   "status": "proved",
   "theorems": [
    "C88_zdt",
    "C88_basic"
   ],
   "note": "Exact arithmetic; no plotting."
  },
  {
   "property": "C89",
   "status": "proved",
   "theorems": [
    "C89_nothing",
    "C89_recursion",
    "C89_default",
    "C89_root_refuted"
   ],
   "note": "RecursionError stands for exceeding a number of nested calls of create_tree."
  },
  {
   "property": "C90",
   "status": "proved",
   "theorems": [
    "C90_multiplexer"
   ],
   "note": "Trees are executed row by row (the base functions act elementwise); shares and the charge are exact rationals, the weight 0.00001 and the threshold 0.01 are doubles."
  },
  {
   "property": "C91",
   "status": "proved",
   "theorems": [
    "C91_symbolic"
   ],
   "note": "Trees are executed row by row; arithmetic is exact, the threshold 0.001 is a double; library functions are parameters that are finite where defined."
  },
  {
   "property": "C92",
   "status": "proved",
   "theorems": [
    "C92_accuracy",
    "C92_accuracy_rejects",
    "C92_fit",
    "C92_breast",
    "C92_search",
    "C92_third_class",
    "C92_labels_refuted",
    "C92_bad_data",
    "C92_failed_fit",
    "C92_unfitted",
    "C92_predict_again",
    "C92_search_names"
   ],
   "note": "That answers are labels seen in training is refuted. Exact arithmetic; class thresholds i/n are exact, the termination threshold 0.03 is a double; one subpopulation."
  },
  {
   "property": "C93",
   "status": "proved",
   "theorems": [
    "C93_fit",
    "C93_program",
    "C93_polynomial"
   ],
   "note": "Exact arithmetic: no overflow. In C93_fit sqrt, log and the trigonometric functions are parameters that give finite numbers for finite ones. One subpopulation."
  },
  {
   "property": "C94",
   "status": "proved",
   "theorems": [
    "C94_rounded",
    "C94_error",
    "C94_range",
    "C94_functions",
    "C94_doubles",
    "C94_classifier",
    "C94_measures",
    "C94_regressor",
    "C94_program",
    "C94_overflow_refuted"
   ],
   "note": "Finding: fitting a regressor can raise ValueError because a program overflows (C94_overflow_refuted)."
  },
  {
   "property": "C95",
   "status": "proved",
   "theorems": [
    "C95_first_vectors",
    "C95_optimal_vector",
    "C95_first_programs",
    "C95_optimal_program"
   ],
   "note": "Draws are those of an arbitrary stream for each seed, so this says that nothing is structurally excluded; that the streams of CPython's generator for the 2^32-odd seeds contain them is not claimed. For programs all the creators must be able to make the list."
  },
  {
   "property": "C96",
   "status": "proved",
   "theorems": [
    "C96_closure",
    "C96_genes",
    "C96_best",
    "C96_converged",
    "C96_nodes",
    "C96_copies"
   ],
   "note": "The vector and tree theorems also say that the run completes. C96_mutation_run shows that a single bit-flip mutation breaks the claim."
  },
  {
   "property": "C97",
   "status": "proved",
   "theorems": [
    "C97_probability",
    "C97_applied",
    "C97_creators",
    "C97_points",
    "C97_cells",
    "C97_places",
    "C97_second_refuted",
    "C97_functions",
    "C97_terminals",
    "C97_constants"
   ],
   "note": "C97_second_refuted: the second x of add(x, x) is never replaced. As `random() <= p` is the test, an operator of probability 0 is applied for one number in 2^53. The second half of C97_applied leaves out the Gaussian mutations, whose fallback uses the probability again."
  },
  {
   "property": "C98",
   "status": "proved",
   "theorems": [
    "C98_next_vectors",
    "C98_next_bits",
    "C98_next_programs",
    "C98_any_history",
    "C98_any_program_history"
   ],
   "note": "The seed of the generation must differ from the seed of the run (it does, except after 2^32 generations or with an unlucky pair of arguments), because both name a stream. As in C95 a stream for each seed is arbitrary: nothing is structurally excluded. Without such a mutation the claim is false (C96)."
  },
  {
   "property": "C99",
   "status": "proved",
   "theorems": [
    "C99_own_streams",
    "C99_same_until",
    "C99_own_streams_moo",
    "C99_same_until_moo",
    "C99_seeds",
    "C99_past"
   ],
   "note": "User code (fitness functions, checkers, schedules) is a parameter that does not draw from the generators. C99_past is about SimpleEvolution with tournament selection, as in C58 and C95; individuals may still be renumbered (generation field) after their own generation."
  },
  {
   "property": "C100",
   "status": "proved",
   "theorems": [
    "C100_resumed",
    "C100_fresh_seed_refuted",
    "C100_best",
    "C100_moo_given"
   ],
   "note": "The documentation of generation_seed says that it is useful for resuming a previously paused experiment. Evaluation by map; the user's fitness function always gives the same value for the same genome (an oracle function of the genome)."
  }
 ]
}
