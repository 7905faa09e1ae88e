{
 "claims": [
  {
   "property": "C01",
   "status": "proved",
   "theorems": [
    "C01_lt_means_worse",
    "C01_strict_weak_order"
   ],
   "note": "For every coin outcome; floats are exact rationals with infinities."
  },
  {
   "property": "C02",
   "status": "proved",
   "theorems": [
    "C02_nan_worse_than_numbers",
    "C02_two_nans_toss_a_coin",
    "C02_best_is_numeric"
   ],
   "note": ""
  },
  {
   "property": "C03",
   "status": "partial",
   "theorems": [
    "C03_gt_agrees_with_lt_refuted",
    "C03_gt_agrees_with_lt_partial",
    "C03_le_and_ge"
   ],
   "note": "False as stated: built-in floats within rel. 1e-9 compare == so > is False. Refuted with a witness; the partial theorem says exactly when the two tests agree."
  },
  {
   "property": "C04",
   "status": "proved",
   "theorems": [
    "C04_max_returns_a_best",
    "C04_max_exact_without_near_ties",
    "C04_max_total"
   ],
   "note": "Tolerance version for all populations; exact version when no two different built-in floats are within 1e-9."
  },
  {
   "property": "C05",
   "status": "proved",
   "theorems": [
    "C05_best_so_far_probe",
    "C05_best_so_far_iter_probe"
   ],
   "note": "BestSoFarProbe compares twice, so its bound is 2e-9; the iterator probe's is 1e-9."
  },
  {
   "property": "C06",
   "status": "proved",
   "theorems": [
    "C06_clone_is_unevaluated_child",
    "C06_clone_is_isolated",
    "C06_ids_stay_distinct"
   ],
   "note": "Clone modelled on an explicit heap of individuals and arrays; isolation for any interleaved sequence of in-place writes."
  },
  {
   "property": "C07",
   "status": "partial",
   "theorems": [
    "C07_evaluate_scores_current_genome",
    "C07_evaluate_population_scores_current_genomes",
    "C07_grouped_evaluate_partial",
    "C07_grouped_evaluate_any",
    "C07_grouped_evaluate_stale_refuted",
    "C07_grouped_evaluate_default_problem_refuted",
    "C07_pipeline_offspring_carry_their_own_score"
   ],
   "note": "evaluate, evaluate_population and pipelines ending in ops.evaluate proved for every world. grouped_evaluate scores the cached phenome, not the current genome, and raises with a problem whose evaluate_multiple does not take the individuals keyword (both refuted with witnesses). C07_grouped_evaluate_any says what it does on every population, chunk size and cache state, errors included; C07_grouped_evaluate_partial is the stated claim under current caches."
  },
  {
   "property": "C08",
   "status": "proved",
   "theorems": [
    "C08_robust_evaluation",
    "C08_latest_attempt_counts"
   ],
   "note": "RobustIndividual.evaluate; viability, NaN fitness and exception depend only on the latest attempt."
  },
  {
   "property": "C09",
   "status": "proved",
   "theorems": [
    "C09_truncation_keeps_best",
    "C09_truncation_ties_to_earlier",
    "C09_truncation_with_key",
    "C09_near_ties_refuted"
   ],
   "note": "Exact when no two different built-in floats in the pool are within 1e-9; C09_near_ties_refuted shows that condition is needed. Also proved for key functions."
  },
  {
   "property": "C10",
   "status": "proved",
   "theorems": [
    "C10_elitist_survival",
    "C10_elitism_never_loses_the_best"
   ],
   "note": "Same sharpness condition as C09. The model also shows the caller's offspring list is extended in place."
  },
  {
   "property": "C11",
   "status": "proved",
   "theorems": [
    "C11_elitism_monotone",
    "C11_near_ties_refuted",
    "C11_one_member_losses"
   ],
   "note": "Fitness values drawn from any set without two different floats within 1e-9 (see C09); that this cannot be dropped is recorded as refuted."
  },
  {
   "property": "C12",
   "status": "proved",
   "theorems": [
    "C12_generational_run",
    "C12_exact_number_of_generations",
    "C12_stop_at_generation"
   ],
   "note": "Pipeline and stop predicate are arbitrary functions of the call number, published generation and population. max_generations finite."
  },
  {
   "property": "C13",
   "status": "proved",
   "theorems": [
    "C13_tournament",
    "C13_random_selection"
   ],
   "note": ""
  },
  {
   "property": "C14",
   "status": "partial",
   "theorems": [
    "C14_every_offspring_competes_refuted",
    "C14_first_offspring_competes_partial",
    "C14_no_slot_gets_worse_partial"
   ],
   "note": "False as stated: return inside the loop, only the first child competes. Refuted; partial theorems cover the first child and the no-slot-worse claim."
  },
  {
   "property": "C15",
   "status": "proved",
   "theorems": [
    "C15_naive_cyclic_order",
    "C15_naive_cyclic_tours",
    "C15_naive_cyclic_balanced",
    "C15_cyclic_tours",
    "C15_cyclic_first_tour_in_order",
    "C15_cyclic_balanced"
   ],
   "note": "shuffle is any permutation-producing oracle."
  },
  {
   "property": "C16",
   "status": "partial",
   "theorems": [
    "C16_sus_fair_shares_partial",
    "C16_all_starts_partial",
    "C16_shares_if_last_positive",
    "C16_zero_start_refuted"
   ],
   "note": "The natural statement fails for a random start of exactly 0 (C16_zero_start_refuted: population[-1] is picked first). C16_sus_fair_shares_partial proves it for starts strictly inside the spacing; C16_all_starts_partial says exactly what every start in [0, spacing) gives, with and without reshuffling; C16_shares_if_last_positive proves the shares (not the order) for every start when the last individual has a positive value. Exact arithmetic."
  },
  {
   "property": "C17",
   "status": "partial",
   "theorems": [
    "C17_pop_min_values",
    "C17_offset_preserves_order",
    "C17_proportional_selection_partial",
    "C17_sus_rejects_negative",
    "C17_sus_starts_iff",
    "C17_proportional_iff",
    "C17_sus_all_zero",
    "C17_raises_without_negative_refuted",
    "C17_even_exponent_refuted"
   ],
   "note": "Scaled values and their order are proved. \"Raise exactly when some value is negative\" is false: all-zero values raise in proportional_selection (C17_raises_without_negative_refuted), n <= 0 raises in sus_selection. C17_proportional_iff and C17_sus_starts_iff give the exact conditions; C17_sus_all_zero: on all-zero values SUS yields the last individual for ever. Exact arithmetic."
  },
  {
   "property": "C18",
   "status": "proved",
   "theorems": [
    "C18_pool_size_and_demand",
    "C18_pool_succeeds",
    "C18_short_source_raises",
    "C18_pool_in_two_goes"
   ],
   "note": "ops.pool over any stack of generators; exact per-operator demand counts, progress, and exhaustion behaviour (StopIteration or RuntimeError)."
  },
  {
   "property": "C19",
   "status": "proved",
   "theorems": [
    "C19_uniform_crossover",
    "C19_unequal_lengths_raise"
   ],
   "note": "UniformCrossover.recombine for all masks; unequal lengths raise IndexError."
  },
  {
   "property": "C20",
   "status": "proved",
   "theorems": [
    "C20_nary_crossover",
    "C20_short_genomes_rejected",
    "C20_unequal_lengths_lose_genes_refuted"
   ],
   "note": "NAryCrossover.recombine for all cut points; for unequal lengths genes are lost (refuted as an extra)."
  },
  {
   "property": "C21",
   "status": "proved",
   "theorems": [
    "C21_performed_crossover",
    "C21_skipped_crossover",
    "C21_children_handed_out_once",
    "C21_single_generator",
    "C21_interleaved_generators_refuted"
   ],
   "note": "Crossover operator object with shared second_child; interleaved pulling of two generators of one operator is outside the claim and refuted as an extra."
  },
  {
   "property": "C22",
   "status": "proved",
   "theorems": [
    "C22_bitflip",
    "C22_bitflip_all_or_none",
    "C22_rate_parameters_checked",
    "C22_individual"
   ],
   "note": "Draws of numpy are arguments; exact rationals instead of floats."
  },
  {
   "property": "C23",
   "status": "proved",
   "theorems": [
    "C23_gaussian",
    "C23_gaussian_parameters",
    "C23_binomial",
    "C23_randint",
    "C23_randint_reaches_every_value",
    "C23_misfitting_bounds",
    "C23_too_many_mutations",
    "C23_individual",
    "C23_binomial_width",
    "C23_binomial_width_refusals"
   ],
   "note": "NaN genes are not modelled; binomial's p from std is abstract."
  },
  {
   "property": "C24",
   "status": "partial",
   "theorems": [
    "C24_add_segment_partial",
    "C24_remove_segment_partial",
    "C24_copy_segment_partial",
    "C24_add_and_remove_share_nothing",
    "C24_mutation_is_segment_wise_partial",
    "C24_copied_segment_is_shared_refuted",
    "C24_copy_from_empty_genome_raises"
   ],
   "note": "Segment operators proved; independence of copied segments is false (copy_segment inserts the same array)."
  },
  {
   "property": "C25",
   "status": "proved",
   "theorems": [
    "C25_segments_decode_to_their_value",
    "C25_one_segment_bijective",
    "C25_pieces_exist",
    "C25_segmented_decoder",
    "C25_empty_segment_depends_on_history_refuted",
    "C25_long_segment_overflows_refuted"
   ],
   "note": "Every layout of segments of 1..63 bits, every genome and every history of the decoder. Zero-length descriptors (0 at first, then ValueError) and 64-bit segments (int64 overflow) lie outside the quantifier and are refuted separately."
  },
  {
   "property": "C26",
   "status": "proved",
   "theorems": [
    "C26_segments_decode_to_their_gray_value",
    "C26_gray_code",
    "C26_loop_on_negative_numbers",
    "C26_endless_exactly",
    "C26_endless_on_half"
   ],
   "note": "Segments of 1..63 bits. The decoding loop does not terminate on negative numbers; a segment of 64 bits, which numpy reads as signed, produces them for half of all genomes. Recorded as theorems of their own."
  },
  {
   "property": "C27",
   "status": "proved",
   "theorems": [
    "C27_real_segment",
    "C27_all_segments",
    "C27_extreme_segments"
   ],
   "note": "Rational arithmetic instead of float rounding."
  },
  {
   "property": "C28",
   "status": "proved",
   "theorems": [
    "C28_one_call",
    "C28_only_emigrants_are_inserted",
    "C28_leap_selectors_are_honest",
    "C28_tournament_replacement"
   ],
   "note": "Any replacement selector that reports the index of the individual it yields (proved of random and tournament selection); heterogeneous problems allowed. A call that raises ends the history."
  },
  {
   "property": "C29",
   "status": "proved",
   "theorems": [
    "C29_departures",
    "C29_delivered_exactly_once",
    "C29_island_without_neighbours_refuted"
   ],
   "note": "networkx is represented by the neighbour lists. The code sends one emigrant per migration step (there is no parameter for more). An island without out-neighbours raises IndexError (recorded as a finding)."
  },
  {
   "property": "C30",
   "status": "proved",
   "theorems": [
    "C30_islands_once_per_generation",
    "C30_exact_number_of_generations",
    "C30_shared_then_own_operators"
   ],
   "note": "Exceptions in an operator abort the run; the history theorem is about completed runs, the count theorem about unstopped ones."
  },
  {
   "property": "C31",
   "status": "proved",
   "theorems": [
    "C31_generation_counter",
    "C31_birth_counter"
   ],
   "note": "Callbacks are assumed not to raise nor touch the counter."
  },
  {
   "property": "C32",
   "status": "partial",
   "theorems": [
    "C32_branding_unique_partial",
    "C32_branding_permanent",
    "C32_branding_with_clones_partial",
    "C32_branding_permanent_with_clones",
    "C32_population_all_branded",
    "C32_failed_generator",
    "C32_clone_shares_number_refuted",
    "C32_second_pull_refuted"
   ],
   "note": "Partial: clones copy the birth attribute past the brander, and pulling a generator-fed brander twice raises AttributeError (both refuted with witnesses). Uniqueness, sequential numbering and permanence proved for all clone-free histories; C32_branding_with_clones_partial: with clones, a number is shared exactly within the clones of its one owner."
  },
  {
   "property": "C33",
   "status": "proved",
   "theorems": [
    "C33_comparison_is_dominance",
    "C33_strict_partial_order",
    "C33_le_and_ge",
    "C33_equality_is_transitive_refuted"
   ],
   "note": "Vectors of any dimension (NaN comparable with nothing). Extra observation: == is not transitive."
  },
  {
   "property": "C34",
   "status": "proved",
   "theorems": [
    "C34_fast_sort_assigns_front_numbers",
    "C34_front_numbers_are_determined",
    "C34_repeated_object_refuted"
   ],
   "note": "Any population of distinct objects, any previous attribute values. Extra finding: with the same object listed twice an individual can be left with rank 0."
  },
  {
   "property": "C35",
   "status": "proved",
   "theorems": [
    "C35_rank_ordinal_assigns_front_numbers",
    "C35_sorts_agree"
   ],
   "note": "Rank-ordinal sort proved correct against the same front specification (even with repeated objects), hence agreement. numpy's treatment of NaN is not modelled."
  },
  {
   "property": "C36",
   "status": "partial",
   "theorems": [
    "C36_keeps_everybody_refuted",
    "C36_crowding_partial",
    "C36_distances",
    "C36_infinite_objectives",
    "C36_extreme_infinite_refuted",
    "C36_nan_objective",
    "C36_nan_left_out"
   ],
   "note": "False as stated: a rank in which no objective varies (for instance a rank with one individual) is dropped from the result (proved). Proved: exact characterisation for all other ranks - distances meet an independent specification of crowding distance, the result is exactly the members of varying ranks, in blocks of equal rank. Beyond the quantifier: with infinite objective values (no NaN) the distances are specified objective by objective; next to an infinite value they become NaN, so an extreme individual may lose its infinite distance (refuted extra)."
  },
  {
   "property": "C37",
   "status": "partial",
   "theorems": [
    "C37_keeps_size_refuted",
    "C37_keeps_best_front_refuted",
    "C37_survival_partial",
    "C37_survival_nondegenerate_partial",
    "C37_never_grows"
   ],
   "note": "False as stated: since degenerate ranks are dropped by the crowding step, the population can shrink to nothing and the individual dominating all others can be lost (both proved). Proved: the survivors are the best by (rank, distance) of the members of non-degenerate ranks; if all ranks are non-degenerate the stated property holds; populations never grow over a run."
  },
  {
   "property": "C38",
   "status": "partial",
   "theorems": [
    "C38_contents",
    "C38_true_layers_partial",
    "C38_true_layers_refuted"
   ],
   "note": "For every number of objectives the layers hold exactly the inserted individuals, no layer is empty and rank is the layer number. With one or two objectives (no NaN, distinct objects) the layers are the true fronts, for every insertion sequence. With three objectives the claim is false; witness given (the zenith shortcut of _split_dominated)."
  },
  {
   "property": "C39",
   "status": "proved",
   "theorems": [
    "C39_capacity",
    "C39_dropped",
    "C39_dropped_worst_front"
   ],
   "note": "Finite fitness and distinct objects. Size after n insertions is min(n, pop_size); the dropped one is in the last maintained layer with a smallest crowding distance in it. With one or two objectives the last maintained layer is proved to be the worst true front."
  },
  {
   "property": "C40",
   "status": "proved",
   "theorems": [
    "C40_ledger",
    "C40_exact_budget",
    "C40_all_failing_never_ends",
    "C40_batches_refuted"
   ],
   "note": "The ledger holds after every number of completions, for every completion order and failure pattern. Termination with exactly the budget is proved for a non-empty initial population when failures are counted or stop at some point. Outside the claim: C40_all_failing_never_ends (non-termination) and C40_batches_refuted (pipelines with several offspring per call exceed the budget). Dask is an oracle."
  },
  {
   "property": "C41",
   "status": "proved",
   "theorems": [
    "C41_greedy",
    "C41_tournament",
    "C41_greedy_takes_worst"
   ],
   "note": "Proved along every run for greedy and tournament insertion with pop_size >= 1 and scalar fitness."
  },
  {
   "property": "C42",
   "status": "partial",
   "theorems": [
    "C42_population",
    "C42_pool",
    "C42_counter_partial",
    "C42_counter_bounds_partial",
    "C42_counter_refuted"
   ],
   "note": "Order, fitness and failures proved for every finishing order. The counter part is false: C42_counter_refuted shows a lost update between two worker threads; C42_counter_partial (sequential updates) and C42_counter_bounds_partial (any interleaving) give what holds. Workers in other processes update a copy of the context, so the caller's counter does not move at all there."
  },
  {
   "property": "C43",
   "status": "proved",
   "theorems": [
    "C43_bounds_mean_feasible",
    "C43_check_constraints",
    "C43_decodes",
    "C43_decodes_with_parameters",
    "C43_circuit_edges",
    "C43_arity",
    "C43_constructor",
    "C43_levels_back",
    "C43_large_arity_refuted",
    "C43_primitive_ids",
    "C43_rejects_out_of_bounds_refuted"
   ],
   "note": "Bounds mean exactly the block structure with sources from inputs and earlier layers within levels_back; check_constraints accepts exactly those; decode (with and without pruning and parameters) gives the circuit of the feed-forward program. Outside the quantifier: the constructor does not compare arity with max_arity (C43_large_arity_refuted)."
  },
  {
   "property": "C44",
   "status": "proved",
   "theorems": [
    "C44_pruning_preserves_outputs",
    "C44_pruned_is_interpretation",
    "C44_with_parameters",
    "C44_raising_primitive_refuted",
    "C44_outputs_have_one_source"
   ],
   "note": "Proved for total primitives; with raising primitives the pruned circuit is exactly the interpretation, and C44_raising_primitive_refuted shows that an unpruned circuit can raise in a node no output needs."
  },
  {
   "property": "C45",
   "status": "proved",
   "theorems": [
    "C45_initialised_in_bounds",
    "C45_mutation_in_bounds",
    "C45_histories_decode",
    "C45_levels_back_zero_refuted"
   ],
   "note": "Any draws, any number of mutations. levels_back = 0 (accepted by the constructor) makes initialisation raise (C45_levels_back_zero_refuted)."
  },
  {
   "property": "C46",
   "status": "proved",
   "theorems": [
    "C46_offset_keeps_order",
    "C46_offset_explicit_direction",
    "C46_infinite_offset_refuted",
    "C46_offset_equality_refuted",
    "C46_average_is_mean",
    "C46_average_of_deterministic",
    "C46_constant_is_flat",
    "C46_average_problem",
    "C46_grouped_average_is_mean",
    "C46_grouped_average_of_deterministic",
    "C46_alternating_takes_turns"
   ],
   "note": "Offsets must be finite (an infinite one erases differences: refuted extra). Preservation is for worse_than/better; `==` of individuals uses a relative tolerance and can change (refuted extra). Alternation is stated with a step-by-step rotation, not with the code's division."
  },
  {
   "property": "C47",
   "status": "proved",
   "theorems": [
    "C47_problem_evaluates_combinations",
    "C47_default_combination",
    "C47_problem_returns",
    "C47_operator_evaluates_combinations",
    "C47_collaborators_of_each_trial",
    "C47_logging_refuted",
    "C47_logging_always_fails"
   ],
   "note": "Both CooperativeProblem and CooperativeEvaluate; selectors are arbitrary functions returning members. With a log stream CooperativeProblem raises AttributeError (refuted extra)."
  },
  {
   "property": "C48",
   "status": "proved",
   "theorems": [
    "C48_max_ones",
    "C48_leading_ones",
    "C48_deceptive_trap",
    "C48_two_max",
    "C48_image",
    "C48_leading_ones_empty_refuted",
    "C48_wrong_length_refuted"
   ],
   "note": "Bit strings are lists of integers; TwoMax's float halves and truncation are computed in Q. Wrong-length target and empty LeadingOnes raise NameError/StopIteration (refuted extras)."
  },
  {
   "property": "C49",
   "status": "proved",
   "theorems": [
    "C49_fires_a_nearest_rule",
    "C49_every_nearest_rule_can_fire",
    "C49_nan_gene_refuted",
    "C49_with_nan"
   ],
   "note": "Genes are exact rationals or NaN. Distances are specified as least distances to the interval, independently of the code's case split. A NaN gene in the first rule captures every input (refuted extra); C49_with_nan says which rule fires for any mixture of NaN genes."
  },
  {
   "property": "C50",
   "status": "proved",
   "theorems": [
    "C50_lexical",
    "C50_lexical_truncation",
    "C50_koza"
   ],
   "note": "Python's tuple and number comparisons on keys; lexical parsimony also through truncation_selection."
  },
  {
   "property": "C51",
   "status": "proved",
   "theorems": [
    "C51_parents_untouched"
   ],
   "note": "Any pipeline stack made of clone followed by mutation, crossover and evaluation."
  },
  {
   "property": "C52",
   "status": "proved",
   "theorems": [
    "C52_pairwise",
    "C52_zero_iff_equal",
    "C52_sum_of_variances"
   ],
   "note": "Square root followed by squaring is modelled as the sum of squares (exact arithmetic)."
  },
  {
   "property": "C53",
   "status": "partial",
   "theorems": [
    "C53_supplied_context_refuted",
    "C53_zero_evaluations_refuted",
    "C53_random_search_partial",
    "C53_any_pipeline"
   ],
   "note": "Partial: the counter ignores a supplied context and evaluations < 1 still evaluates one (both refuted). C53_random_search_partial proves the stated trajectory for evaluations >= 1 and one-individual pipelines; C53_any_pipeline describes every run, for any number of evaluations, any pipeline output and any failure. The counter is in the global context."
  },
  {
   "property": "C54",
   "status": "proved",
   "theorems": [
    "C54_external_values",
    "C54_external_input",
    "C54_external_one"
   ],
   "note": "Text is a list of byte codes; the program is an arbitrary function of its input; str/float are parameters."
  },
  {
   "property": "C55",
   "status": "proved",
   "theorems": [
    "C55_decodes",
    "C55_decoded_is_total",
    "C55_initial_genomes",
    "C55_initial_genomes_matrix_refuted",
    "C55_mutation",
    "C55_memory_never_decodes",
    "C55_no_outputs_never_decodes"
   ],
   "note": "With a memory space nothing decodes (extra theorem). For matrix-shaped input spaces initial genes are ordered differently from the bounds (refuted extra)."
  },
  {
   "property": "C56",
   "status": "proved",
   "theorems": [
    "C56_fixated_columns",
    "C56_fixated_columns_lower",
    "C56_close_columns_refuted"
   ],
   "note": "isclose's absolute tolerance 1e-8 makes near-constant real columns count as fixated (refuted extra)."
  },
  {
   "property": "C57",
   "status": "proved",
   "theorems": [
    "C57_spheroid",
    "C57_rosenbrock",
    "C57_step",
    "C57_noisy_quartic",
    "C57_shekel",
    "C57_shekel_defaults"
   ],
   "note": ""
  },
  {
   "property": "C58",
   "status": "proved",
   "theorems": [
    "C58_translated",
    "C58_translated_rejects",
    "C58_scaled",
    "C58_matrix",
    "C58_matrix_rejects",
    "C58_matrix_must_be_square"
   ],
   "note": "The matrix problem also rejects phenomes and rows of wrong length."
  },
  {
   "property": "C59",
   "status": "proved",
   "theorems": [
    "C59_lowest_basin",
    "C59_global_minimum",
    "C59_generated",
    "C59_not_diagonal_rejected",
    "C59_generate_rejects",
    "C59_optimum_within_bounds_refuted"
   ],
   "note": "A non-diagonal D (beyond numpy's tolerance), reversed bounds and more optima than basins raise AssertionError."
  },
  {
   "property": "C60",
   "status": "partial",
   "theorems": [
    "C60_returned_matrix_is_orthonormal",
    "C60_orthonormal_matrix_partial",
    "C60_one_dimension_refuted",
    "C60_one_dimension_never_succeeds",
    "C60_exactly_independent_draws"
   ],
   "note": "False for n = 1: the self-check reads matrix[1] and raises IndexError (refuted); proved for n >= 2. Uses the axioms of Coq's real numbers."
  },
  {
   "property": "C61",
   "status": "proved",
   "theorems": [
    "C61_rastrigin",
    "C61_griewank",
    "C61_griewank_ripples",
    "C61_ackley",
    "C61_weierstrass",
    "C61_langermann_bound",
    "C61_lunacek",
    "C61_lunacek_default_s",
    "C61_lunacek_default_mu2",
    "C61_lunacek_one_dimension_refuted",
    "C61_schwefel_mirror",
    "C61_gaussian",
    "C61_gaussian_height_refuted",
    "C61_cosine_family",
    "C61_refusals",
    "C61_langermann_refusals"
   ],
   "note": "Uses the axioms of Coq's real numbers (and classic for the lemmas on roots of sin). Extra findings: GaussianProblem ignores its width and height (refuted), Lunacek's default s is negative for N = 1 (refuted)."
  },
  {
   "property": "C62",
   "status": "proved",
   "theorems": [
    "C62_get_step",
    "C62_get_step_otherwise"
   ],
   "note": "get_step(use_generation=False) returns None even though births are available; recorded in the theorem."
  },
  {
   "property": "C63",
   "status": "proved",
   "theorems": [
    "C63_refusals",
    "C63_sch",
    "C63_zdt1",
    "C63_zdt2",
    "C63_zdt3",
    "C63_zdt4",
    "C63_zdt5",
    "C63_zdt6",
    "C63_front_values_123",
    "C63_front_values_4",
    "C63_front_values_5",
    "C63_front_values_6",
    "C63_check",
    "C63_check_zdt4",
    "C63_check_zdt5",
    "C63_negative_first_variable",
    "C63_zdt3_converse_refuted",
    "C63_length_checked_refuted",
    "C63_one_variable_refuted"
   ],
   "note": "Real-number theorems; use the classical-reals axioms of the standard library. Findings: the length of a phenome is not checked, and n = 1 yields NaN."
  },
  {
   "property": "C64",
   "status": "proved",
   "theorems": [
    "C64_decode",
    "C64_network_is_determined",
    "C64_too_few_layers",
    "C64_sizes",
    "C64_graph",
    "C64_graph_unfit",
    "C64_no_inputs_refuted"
   ],
   "note": "Weights are opaque values. The refutation concerns a declared shape without inputs."
  },
  {
   "property": "C65",
   "status": "proved",
   "theorems": [
    "C65_forward_pass",
    "C65_output_is_activation",
    "C65_wrong_input_size",
    "C65_sigmoid",
    "C65_relu",
    "C65_softmax",
    "C65_sigmoid_network",
    "C65_softmax_network",
    "C65_fails_exactly"
   ],
   "note": "Exact reals; float overflow is not modelled. Softmax is not pointwise, so C65_output_is_activation and C65_softmax_network cover it."
  },
  {
   "property": "C66",
   "status": "proved",
   "theorems": [
    "C66_table",
    "C66_fitness"
   ],
   "note": "Output comparison is an arbitrary boolean test, so NumPy comparison quirks are covered only as far as they give one boolean."
  },
  {
   "property": "C67",
   "status": "proved",
   "theorems": [
    "C67_episodes",
    "C67_raises",
    "C67_survival_within_steps_refuted",
    "C67_space_dimensions",
    "C67_num_inputs_refuted"
   ],
   "note": "Rewards are exact rationals. Two refutations record that survival counts the first observation and that num_inputs returns nothing."
  },
  {
   "property": "C68",
   "status": "proved",
   "theorems": [
    "C68_argmax",
    "C68_argmax_fails",
    "C68_decoded_argmax",
    "C68_keyboard",
    "C68_keyboard_idle",
    "C68_keymap",
    "C68_keymap_nine_refuted"
   ],
   "note": "Outputs without NaN. The refutation records that the digit 9 is mapped to 0."
  },
  {
   "property": "C69",
   "status": "proved",
   "theorems": [
    "C69_fitness",
    "C69_mismatch",
    "C69_one_output",
    "C69_three_outputs_refuted"
   ],
   "note": "Image loading is not modelled: the problem is given the pixel access and the flat pixel list. The refutation records that one output channel is broadcast over three."
  },
  {
   "property": "C70",
   "status": "proved",
   "theorems": [
    "C70_deltas",
    "C70_convex",
    "C70_concave",
    "C70_affine",
    "C70_convex_p",
    "C70_deviation",
    "C70_linear_p_is_zero",
    "C70_linear_p_refuted",
    "C70_two_individuals_refuted"
   ],
   "note": "Rational genomes and fitnesses. C70_linear_p_refuted records that linear_p is always 0; C70_two_individuals_refuted that a sample of two is refused."
  },
  {
   "property": "C71",
   "status": "proved",
   "theorems": [
    "C71_real_vector",
    "C71_real_vector_reaches",
    "C71_population",
    "C71_individual",
    "C71_seeded",
    "C71_every_population_seeded_refuted",
    "C71_repertoire",
    "C71_repertoire_kwargs",
    "C71_population_algorithm_refuted"
   ],
   "note": "The CSV import and export of a repertoire are not modelled. Two refutations: a seeded initializer seeds only the first population, and generational_ea's return value does not fit build_repertoire."
  },
  {
   "property": "C72",
   "status": "proved",
   "theorems": [
    "C72_result",
    "C72_box",
    "C72_generations",
    "C72_best_of_all_points_refuted",
    "C72_zero_generations",
    "C72_empty_population"
   ],
   "note": "zero generations raise AttributeError and an empty population ValueError (separate theorems); dask and plotting not modelled"
  },
  {
   "property": "C73",
   "status": "proved",
   "theorems": [
    "C73_collect",
    "C73_collect_raises",
    "C73_normalize",
    "C73_verdict",
    "C73_equal_accepted",
    "C73_impossible_rejected",
    "C73_uniform",
    "C73_zero_cell_accepts_anything",
    "C73_different_rejected_refuted",
    "C73_comparison_repeatable_refuted",
    "C73_gaussian",
    "C73_gaussian_corrected_variance_refuted"
   ],
   "note": "zero cells on both sides accept anything (proved and refuted separately); chi-squared and t tails are arguments"
  },
  {
   "property": "C74",
   "status": "proved",
   "theorems": [
    "C74_appends",
    "C74_table",
    "C74_statistics_order",
    "C74_nan_columns",
    "C74_number_kind",
    "C74_empty_population",
    "C74_modulo_zero",
    "C74_no_header",
    "C74_unquoted_refuted",
    "C74_interrupted_line_refuted"
   ],
   "note": "str() of numbers is an arbitrary function; np.std appears as its square, the variance, and a rendering of its root. The two refuted statements lie outside the property (entries with commas; raising metrics)."
  },
  {
   "property": "C75",
   "status": "proved",
   "theorems": [
    "C75_init",
    "C75_rows",
    "C75_best_only",
    "C75_best_only_empty",
    "C75_missing_attribute",
    "C75_dataframe_agrees",
    "C75_dataframe_snapshot_refuted",
    "C75_no_dataframe",
    "C75_column_collision_refuted"
   ],
   "note": "str() of numbers and genomes is arbitrary; csv.DictWriter is modelled up to its quoting (lines are lists of entries). The refuted statements are outside the property: genomes changed in place, and colliding column names."
  },
  {
   "property": "C76",
   "status": "proved",
   "theorems": [
    "C76_population",
    "C76_completion",
    "C76_exact_budget",
    "C76_failing_evaluation_aborts",
    "C76_failures_tolerated_refuted",
    "C76_sort_by_dominance"
   ],
   "note": "exact rationals for fitness and distances; ids stand for object identity; evaluations before a failure need not be assumed fine for the abort theorem"
  },
  {
   "property": "C77",
   "status": "proved",
   "theorems": [
    "C77_auc_area",
    "C77_credits_exist",
    "C77_auc_order",
    "C77_auc_bounds",
    "C77_auc_monotone",
    "C77_auc_linear",
    "C77_first_value_ignored",
    "C77_missing",
    "C77_strictly_monotone_refuted",
    "C77_tied_times_refuted",
    "C77_max_value"
   ],
   "note": "Areas over integer times and exact rationals; the sort is any sort by time. The first row's value has weight zero and tied times make the area depend on the sort (refuted theorems)."
  },
  {
   "property": "C78",
   "status": "proved",
   "theorems": [
    "C78_init",
    "C78_probe_file",
    "C78_defaults_refuted",
    "C78_avg_curves",
    "C78_scalar_metrics_per_run",
    "C78_avg_scalar_metrics",
    "C78_auc_never_fails",
    "C78_averages_commute",
    "C78_separate_files",
    "C78_same_job_refuted",
    "C78_missing_experiment",
    "C78_every_row_counts_refuted"
   ],
   "note": "Key columns are integers standing for their order; standard deviations by their square. The default experiment_cols always fails its own assertion."
  },
  {
   "property": "C79",
   "status": "proved",
   "theorems": [
    "C79_series",
    "C79_own_axes",
    "C79_unmeasured",
    "C79_fitness_plot",
    "C79_failure_is_permanent",
    "C79_recovery_refuted",
    "C79_shared_axes_refuted",
    "C79_nan_box_refuted",
    "C79_rescale"
   ],
   "note": "matplotlib is modelled as the lines of an Axes and the box given to update_datalim; relim refuses lines of unequal lengths unless one has length 1. Default metrics=None: TypeError (Example C79_default_metrics)."
  },
  {
   "property": "C80",
   "status": "proved",
   "theorems": [
    "C80_cartesian",
    "C80_sum",
    "C80_empty_population",
    "C80_short_phenome",
    "C80_short_objectives",
    "C80_pareto",
    "C80_sum_curve",
    "C80_granularity",
    "C80_histogram",
    "C80_hist_probe",
    "C80_heat_map_refuted",
    "C80_negative_limit_refuted",
    "C80_infinite_refuted"
   ],
   "note": "The view of an Axes is its four limits; set_xlim/set_ylim refuse non-finite values. The contour plots of the constructors are not modelled. Default ax=None of ParetoPlotProbe2D: AttributeError (Example C80_pareto_default)."
  },
  {
   "property": "C81",
   "status": "proved",
   "theorems": [
    "C81_read_back",
    "C81_migration_log",
    "C81_no_stream",
    "C81_worker_log",
    "C81_worker_missing_attribute",
    "C81_dict_writer",
    "C81_log_pop",
    "C81_log_pop_zero",
    "C81_log_pop_interrupted",
    "C81_cooperative_log",
    "C81_cooperative_log_size",
    "C81_note_clash_refuted",
    "C81_carriage_return_refuted",
    "C81_snapshot_once_refuted"
   ],
   "note": "csv quoting as in CPython up to 3.12; str() of values is an argument; writing to the stream does not fail. csv.reader's limit on field sizes is not modelled."
  },
  {
   "property": "C82",
   "status": "proved",
   "theorems": [
    "C82_round_trip",
    "C82_round_trips",
    "C82_text_genes",
    "C82_any_genes",
    "C82_no_line_end",
    "C82_apply",
    "C82_integers_refuted",
    "C82_windows_refuted"
   ],
   "note": "str() and float() are parameters; the round trip asks of them only what is needed for the numbers in the repertoire. Genomes are lists of genes; that loaded genomes are lists rather than arrays is not modelled."
  },
  {
   "property": "C83",
   "status": "proved",
   "theorems": [
    "C83_grid",
    "C83_problem",
    "C83_default_points",
    "C83_failing_point",
    "C83_refused",
    "C83_empty_range",
    "C83_contour_arguments_refuted",
    "C83_first_value_refuted",
    "C83_int_grid",
    "C83_once_per_point_refuted"
   ],
   "note": "What matplotlib does with the arrays, the title and the axes are not modelled. np.vectorize is modelled from numpy's documentation: output type from a first call, then one call per point."
  },
  {
   "property": "C84",
   "status": "proved",
   "theorems": [
    "C84_boxes",
    "C84_picture_predicts",
    "C84_failures",
    "C84_interval_refuted",
    "C84_dimensions_refuted",
    "C84_graph",
    "C84_graph_otherwise"
   ],
   "note": "What matplotlib and networkx do with the shapes is not modelled; fitnesses are numbers as in C01, so best means best up to the comparison tolerance."
  },
  {
   "property": "C85",
   "status": "proved",
   "theorems": [
    "C85_curves",
    "C85_colors",
    "C85_colors_refuted",
    "C85_avg_curves",
    "C85_commands",
    "C85_boxes",
    "C85_same_colors_refuted",
    "C85_all_legends",
    "C85_all_succeeds",
    "C85_all_modulo",
    "C85_modulo_boxes_refuted",
    "C85_analyze",
    "C85_avg_file_rows",
    "C85_combined_file",
    "C85_avg_file",
    "C85_avg_file_refuted",
    "C85_plot_avg_scalars_refuted"
   ],
   "note": "The pictures are given by their lines, legends and boxes; five findings are stated as refuted theorems: only ten colours, different legends for rows without a time, boxes that change with modulo, the averages' file that its command cannot plot, and plot_avg_scalars, which always raises TypeError. Reading and writing the text of the files is not part of the model."
  },
  {
   "property": "C86",
   "status": "proved",
   "theorems": [
    "C86_messages",
    "C86_deterministic",
    "C86_second_setup",
    "C86_own_logger",
    "C86_own_verbosity_refuted",
    "C86_names_the_worker_refuted"
   ],
   "note": "one process; propagation to the root logger's handlers, time stamps and forked processes are not modelled"
  },
  {
   "property": "C87",
   "status": "partial",
   "theorems": [
    "C87_print_individual",
    "C87_upstream_fails",
    "C87_print_probe",
    "C87_print_probe_values_readable_refuted",
    "C87_print_probe_values_readable_partial",
    "C87_str_identifies",
    "C87_print_population",
    "C87_print_list"
   ],
   "note": "False as stated for print_probe: it writes no line break, so values run together (refuted); with a prefix that starts with a line break they can be read back (partial theorem). Everything else is proved."
  },
  {
   "property": "C88",
   "status": "proved",
   "theorems": [
    "C88_transparent",
    "C88_sound",
    "C88_bad_connection",
    "C88_bad_connection_before_any_work",
    "C88_missing_argument",
    "C88_broken_promise"
   ],
   "note": "Proved for arbitrary functions inside the decorators. Iterators are opaque values here; pulling them is in C18 and C51."
  },
  {
   "property": "C89",
   "status": "proved",
   "theorems": [
    "C89_each_mutator_its_segment",
    "C89_wrong_number_of_mutators_changes_nothing",
    "C89_a_failing_mutator_stops_the_turn",
    "C89_mismatch_is_an_assertion_error_refuted",
    "C89_failure_leaves_no_stale_fitness_refuted"
   ],
   "note": "Mutators are arbitrary, including ones that write in place or return a new array. Two findings as extra theorems: a wrong number of mutators shows as NameError, not AssertionError; and a mutator that fails after earlier ones wrote in place leaves an individual with a changed genome and its old fitness."
  },
  {
   "property": "C90",
   "status": "proved",
   "theorems": [
    "C90_whole_run",
    "C90_best_never_gets_worse",
    "C90_run_completes",
    "C90_bit_string_runs"
   ],
   "note": "Joins the heap model of individuals (C06-C08), the lazy pipeline (C18, C51), the survival operator (C11) and the generation counter (C31) into one program. Pipelines with exactly one clone-vary-evaluate chain and scalar fitness."
  },
  {
   "property": "C91",
   "status": "proved",
   "theorems": [
    "C91_integer_runs",
    "C91_real_runs",
    "C91_cgp_truth_table_runs"
   ],
   "note": "Whole runs with the library's own initialisers and operators, obtained from the run invariant of C90: integer vectors, real vectors with finite bounds, and CGP on truth tables. Draw lists are assumed to be as long as the operators ask for; Gaussian runs use one finite pair of bounds per gene."
  },
  {
   "property": "C92",
   "status": "proved",
   "theorems": [
    "C92_buildable",
    "C92_refusal",
    "C92_direction",
    "C92_bounds",
    "C92_value",
    "C92_optimum",
    "C92_box",
    "C92_translated_bounds_refuted",
    "C92_lists"
   ],
   "note": "Towers of wrappers by induction over the stack; values as exact rationals. The refuted theorem shows that TranslatedProblem keeps the wrapped bounds, so the optimum may lie outside the declared bounds."
  },
  {
   "property": "C93",
   "status": "proved",
   "theorems": [
    "C93_run",
    "C93_raises",
    "C93_no_deterioration_refuted",
    "C93_small_population_refuted"
   ],
   "note": "Pools with a front in which nothing varies are excluded (they lose members, see C36 and C37). The two refuted theorems mark the limits: first fronts larger than the population, and populations smaller than two per objective. Distances are exact rationals."
  },
  {
   "property": "C94",
   "status": "proved",
   "theorems": [
    "C94_draws",
    "C94_at_most",
    "C94_at_least",
    "C94_wins",
    "C94_pressure",
    "C94_ties",
    "C94_masks",
    "C94_uniform_crossover"
   ],
   "note": "Draws of random.choices are taken as equally likely k-tuples and mask bits as independent; how the generator approximates that is outside. Crossover chances are exact rationals."
  },
  {
   "property": "C95",
   "status": "proved",
   "theorems": [
    "C95_no_new_genes",
    "C95_bitflip",
    "C95_certain_flip",
    "C95_randint",
    "C95_gaussian"
   ],
   "note": "Reachability is for one application of the operator, with draws from the half-open unit interval and exact arithmetic; binomial mutation, whose steps are bounded, is not covered."
  },
  {
   "property": "C96",
   "status": "proved",
   "theorems": [
    "C96_roulette",
    "C96_mean_flips",
    "C96_mutants",
    "C96_randint"
   ],
   "note": "Draws are real numbers of the unit interval (roulette) or the points k/N of a grid for any N (bit flips), which contains numpy's grid of 2^53 points; exact arithmetic."
  },
  {
   "property": "C97",
   "status": "proved",
   "theorems": [
    "C97_island_runs",
    "C97_run_completes",
    "C97_own_problem_refuted"
   ],
   "note": "The migrate operator is the last of the shared pipeline; the stamp is either the default or the re-evaluation described in the comment at ops.py:1208-1211. Selectors are arbitrary functions of the heap and the population. Island-specific operators are part of the operators of each island."
  },
  {
   "property": "C98",
   "status": "proved",
   "theorems": [
    "C98_whole_run",
    "C98_best_never_gets_worse",
    "C98_no_new_variety",
    "C98_run_completes",
    "C98_crossover_of_copies_refuted"
   ],
   "note": "also shows (C98_no_new_variety) that duplicated segments can never diverge under in-place mutators: gene duplication followed by mutation adds no variety."
  },
  {
   "property": "C99",
   "status": "proved",
   "theorems": [
    "C99_operator_run",
    "C99_problem_run",
    "C99_operator_run_completes",
    "C99_problem_run_completes",
    "C99_species_stay_apart",
    "C99_fitness_in_range",
    "C99_fitness_was_reached",
    "C99_last_species_met_the_result",
    "C99_stale_fitness_refuted",
    "C99_default_evaluation_fails",
    "C99_left_over_subpopulations_refuted",
    "C99_left_over_scores"
   ],
   "note": "refutes two natural readings of cooperative runs: fitnesses of returned individuals are not those of teams of returned individuals, and the default initial evaluation uses the context of an earlier run."
  },
  {
   "property": "C100",
   "status": "proved",
   "theorems": [
    "C100_search",
    "C100_search_succeeds_in_the_end",
    "C100_bit_flips",
    "C100_bit_flips_succeed_in_the_end",
    "C100_integers",
    "C100_integers_succeed_in_the_end",
    "C100_tables_exist",
    "C100_without_elites_refuted"
   ],
   "note": "draws are taken equally likely from a finite grid (N points for coins, L numbers for integers), as in C94 and C96; generations are counted without a stop predicate; mutation is the last operator before evaluation and the only one after cloning"
  },
  {
   "property": "C101",
   "status": "proved",
   "theorems": [
    "C101_comparison",
    "C101_failure_is_worse_refuted",
    "C101_fast_sort",
    "C101_rank_ordinal",
    "C101_sorts",
    "C101_identical_ranks_refuted",
    "C101_generation",
    "C101_run",
    "C101_a_returning_run_saw_no_failure",
    "C101_robustness_refuted"
   ],
   "note": "The natural reading (a failure is the worst, runs survive it) is refuted; what the operators do with failures is stated exactly. NumPy 1.21 or later (1.23.5 is pinned): np.unique collapses NaN in one dimension and keeps records with NaN distinct."
  },
  {
   "property": "C102",
   "status": "proved",
   "theorems": [
    "C102_generational_run",
    "C102_island_run",
    "C102_segmented_run",
    "C102_cooperative_run",
    "C102_cooperative_problem_run",
    "C102_migrations"
   ],
   "note": "E is arbitrary, so each theorem also bounds what the algorithm itself raises; the misuse disjunctions (E IndexError or valid picks, ...) say exactly when E may exclude the algorithm's own exceptions."
  },
  {
   "property": "C103",
   "status": "proved",
   "theorems": [
    "C103_constructor",
    "C103_decode",
    "C103_parameters",
    "C103_first_call",
    "C103_first_exception"
   ],
   "note": "Exactly which integer genomes decode and run, and which exception the others raise. The call result assumes function genes in 0..P-1 and the unpruned circuit; feasible genomes are C43/C44."
  },
  {
   "property": "C104",
   "status": "proved",
   "theorems": [
    "C104_tournament_insert",
    "C104_greedy_insert",
    "C104_truth_table",
    "C104_ela_constructor",
    "C104_ratio",
    "C104_stack",
    "C104_broadcast",
    "C104_migration",
    "C104_no_place",
    "C104_heap_emigration",
    "C104_heap_migration",
    "C104_survival",
    "C104_rule_box",
    "C104_crowding",
    "C104_fast_sort",
    "C104_ordinal_sort",
    "C104_image",
    "C104_external",
    "C104_cat_files",
    "C104_grouped",
    "C104_no_trials",
    "C104_keywords",
    "C104_rule_system",
    "C104_branding_ends",
    "C104_nobody",
    "C104_network_graph",
    "C104_no_period",
    "C104_lost_lines",
    "C104_no_spacing",
    "C104_short_bounds",
    "C104_average",
    "C104_no_trials_unlogged",
    "C104_ones",
    "C104_shekel",
    "C104_matrix",
    "C104_tournament",
    "C104_random",
    "C104_insertion",
    "C104_empty_source",
    "C104_segmented_nobody",
    "C104_rule_call",
    "C104_rule_bounds",
    "C104_rule_genomes",
    "C104_quadratic",
    "C104_quadratic_point"
   ],
   "note": "Equivalences: each operation is refused on exactly the arguments named. The broken message of the parameter check is in C103."
  },
  {
   "property": "C105",
   "status": "proved",
   "theorems": [
    "C105_nand",
    "C105_not",
    "C105_wrapper",
    "C105_complete",
    "C105_one_mutation",
    "C105_unary",
    "C105_not_alone"
   ],
   "note": "Truth values are the numbers 0 and 1. Other primitives may be in the list; the circuit does not use them."
  },
  {
   "property": "C106",
   "status": "proved",
   "theorems": [
    "C106_draws",
    "C106_order",
    "C106_gene",
    "C106_linkage",
    "C106_few_points",
    "C106_last_gene",
    "C106_uniform"
   ],
   "note": "random.choice is modelled by the ordered draws without replacement, all equally likely."
  },
  {
   "property": "C107",
   "status": "partial",
   "theorems": [
    "C107_rounding",
    "C107_order",
    "C107_exact",
    "C107_pass",
    "C107_refuted",
    "C107_powers_partial",
    "C107_rare_partial"
   ],
   "note": "False in general (C107_refuted); C107_pass is the exact condition, the _partial theorems give the safe cases. Overflow, infinities and NaN are not modelled in Model/Floats.v; np.sum is an argument."
  },
  {
   "property": "C108",
   "status": "partial",
   "theorems": [
    "C108_uniform",
    "C108_decode_order_partial",
    "C108_decode_error_partial",
    "C108_decode_partial",
    "C108_decode_refuted",
    "C108_scaled_partial",
    "C108_symmetric",
    "C108_scaled_refuted"
   ],
   "note": "Uniform draws hold in full; decoders and ScaledProblem are false in general (two _refuted theorems), the _partial theorems say what holds and when. Missing: nothing that is true is known to be missing."
  },
  {
   "property": "C109",
   "status": "proved",
   "theorems": [
    "C109_rate",
    "C109_none",
    "C109_all",
    "C109_all_refuted"
   ],
   "note": "Overflow not modelled. The finding about 49 genes is C109_all_refuted."
  },
  {
   "property": "C110",
   "status": "proved",
   "theorems": [
    "C110_picks"
   ],
   "note": "np.sum is an argument; overflow not modelled."
  },
  {
   "property": "C111",
   "status": "proved",
   "theorems": [
    "C111_left",
    "C111_any_order",
    "C111_any_whole",
    "C111_between",
    "C111_error",
    "C111_error_linear",
    "C111_independent_refuted",
    "C111_order",
    "C111_whole",
    "C111_constant_refuted"
   ],
   "note": "The order of numpy's additions is a parameter of the model (any bracketing in which each number occurs once); overflow is not modelled."
  },
  {
   "property": "C112",
   "status": "proved",
   "theorems": [
    "C112_offset_order",
    "C112_offset_whole",
    "C112_offset_error",
    "C112_offset_strict_refuted",
    "C112_koza_order",
    "C112_koza_whole",
    "C112_koza_pressure_refuted",
    "C112_table",
    "C112_pop_min",
    "C112_crowding_skip",
    "C112_crowding",
    "C112_crowding_parts",
    "C112_crowding_wider",
    "C112_crowding_full",
    "C112_diversity_nonneg",
    "C112_diversity_converged",
    "C112_diversity_exact",
    "C112_diversity_converged_refuted",
    "C112_diversity_zero_refuted",
    "C112_root"
   ],
   "note": "Overflow, infinities, NaN and the sign of zero are not modelled; np.sum's order and np.sqrt are parameters; only exponent 1 of compute_population_values."
  },
  {
   "property": "C113",
   "status": "proved",
   "theorems": [
    "C113_bounds",
    "C113_visits_in_the_end",
    "C113_half_rate"
   ],
   "note": "The pipeline (cyclic_selection, clone, mutate, evaluate, pool(size=1) on one individual) is seen through the genomes it passes on."
  },
  {
   "property": "C114",
   "status": "proved",
   "theorems": [
    "C114_whole_life",
    "C114_initialize",
    "C114_unread_parameters",
    "C114_two_segments",
    "C114_shared_array_refuted"
   ],
   "note": "Circuits of floats and gaussian mutation of integer parameter arrays are not modelled; the parameter bounds are one finite pair, as in the example program."
  },
  {
   "property": "C115",
   "status": "proved",
   "theorems": [
    "C115_eleven_keep_colours",
    "C115_wide_ranges",
    "C115_tangent_unbounded",
    "C115_modulo_reaches",
    "C115_values",
    "C115_bits",
    "C115_exact_values",
    "C115_ignored_arguments",
    "C115_circuits_keep",
    "C115_images_keep_colours"
   ],
   "note": "Over the reals: NumPy's rounding, integer overflow and inf or nan from division by zero are not modelled; the axioms are those of Coq's real numbers."
  },
  {
   "property": "C116",
   "status": "proved",
   "theorems": [
    "C116_levels",
    "C116_max_ones",
    "C116_leading_ones",
    "C116_without_elites_refuted",
    "C116_late",
    "C116_late_max_ones"
   ],
   "note": "Fitness-level bound on the mean waiting time of heap_ea, for every number of generations; the general theorem asks that the first child comes from a best parent, which is automatic for one parent. MaxOnes and LeadingOnes with mutate_bitflip, draws on a grid. C116_without_elites_refuted: the condition on elites is needed."
  },
  {
   "property": "C117",
   "status": "proved",
   "theorems": [
    "C117_plus_near_ties_refuted",
    "C117_one_parent_generation",
    "C117_one_parent_losses",
    "C117_whole_run",
    "C117_plus_generation",
    "C117_plus_never_falls",
    "C117_plus_keeps_best",
    "C117_insert_generation",
    "C117_insert_keeps_best_refuted",
    "C117_run_completes",
    "C117_children",
    "C117_replacement",
    "C117_simple_ep",
    "C117_simple_es",
    "C117_simple_ev",
    "C117_simple_ep_generation",
    "C117_simple_es_generation",
    "C117_simple_ev_generation",
    "C117_callbacks"
   ],
   "note": "The natural claims about the truncation programs are proved for runs without near ties; what near ties do to them, and the claim about insertion that fails, are recorded as refuted."
  }
 ]
}