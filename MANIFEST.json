{
 "claims": [
  {
   "property": "C01",
   "status": "proved",
   "theorems": [
    "C01_circular_buffer_refines_deque"
   ],
   "note": "Refinement to a bounded deque for every operation sequence, undefined behaviour excluded."
  },
  {
   "property": "C02",
   "status": "proved",
   "theorems": [
    "C02_circular_buffer_from_range",
    "C02_circular_buffer_equality"
   ],
   "note": ""
  },
  {
   "property": "C03",
   "status": "partial",
   "theorems": [
    "C03_set_capacity_exception_safety_refuted",
    "C03_reset_exception_safety_refuted",
    "C03_set_capacity_no_exception_balanced_partial"
   ],
   "note": "Refuted: the scope guard of set_capacity releases the old, still owned block. Only the exception-free path is balanced."
  },
  {
   "property": "C04",
   "status": "proved",
   "theorems": [
    "C04_cache_refines_fifo_map"
   ],
   "note": "Refinement to a bounded FIFO map for every operation sequence, including copies."
  },
  {
   "property": "C05",
   "status": "partial",
   "theorems": [
    "C05_range_insert_is_iterated_insert_refuted",
    "C05_range_insert_is_iterated_insert_partial"
   ],
   "note": "Refuted: range insertion looks only at the last capacity() items, so a repeated or already cached key gives another result than inserting one by one. Holds for ranges no longer than the capacity and for fresh distinct keys."
  },
  {
   "property": "C06",
   "status": "partial",
   "theorems": [
    "C06_bitset_is_bool_sequence_refuted",
    "C06_resize_false_leaves_garbage_refuted",
    "C06_bitset_is_bool_sequence_partial",
    "C06_bitset_equality_partial"
   ],
   "note": "Refuted: resize() across a block boundary masks the new last block with the old mask, so the new bits inside the old last block keep stale values. Holds for all histories whose growing resizes start at a multiple of 64 or stay inside the last block."
  },
  {
   "property": "C07",
   "status": "partial",
   "theorems": [
    "C07_empty_bitset_queries_refuted",
    "C07_empty_bitset_queries_partial"
   ],
   "note": "Refuted: partial_block() reads blocks_.back() of an empty vector in popcount, any_set, all_set, none_set and ==. find_first and operator~ are defined."
  },
  {
   "property": "C08",
   "status": "partial",
   "theorems": [
    "C08_small_vector_is_sequence_refuted",
    "C08_small_vector_is_sequence_partial"
   ],
   "note": "Refuted: insert of a count or range with spare capacity inserts size()-count behind the requested position when the displaced tail is longer than the inserted part. All other operations (and insertions with a short tail) behave as on a list; pop_back needs a trivially destructible type (see C09). Exceptions and self-aliasing arguments: C110 and C111."
  },
  {
   "property": "C09",
   "status": "partial",
   "theorems": [
    "C09_pop_back_lifetime_refuted",
    "C09_small_vector_lifetimes_partial"
   ],
   "note": "Refuted: pop_back destroys the cell behind the last element. All other histories construct and destroy every object exactly once (exception-free executions)."
  },
  {
   "property": "C10",
   "status": "partial",
   "theorems": [
    "C10_matrix_is_row_list_refuted",
    "C10_matrix_is_row_list_partial",
    "C10_matrix_equality_partial"
   ],
   "note": "Refuted: rows without columns are not counted (an appended empty row leaves nrows() at 0). Holds for all histories whose rows have at least one column."
  },
  {
   "property": "C100",
   "status": "proved",
   "theorems": [
    "C100_tsp",
    "C100_tsp_outside",
    "C100_string_finder",
    "C100_string_finder_optimal"
   ],
   "note": "Over the exact reals; std::hypot(dx, dy) is the square root of the sum of the squares."
  },
  {
   "property": "C101",
   "status": "proved",
   "theorems": [
    "C101_max_gen",
    "C101_evals",
    "C101_value",
    "C101_no_early_stop",
    "C101_best_stall",
    "C101_mean_stall"
   ],
   "note": "FitnessMeanStall: the means up to a bound on the rounding errors. The stall conditions as in C58 (patience + 1 < 2^64, improvement by at least delta)."
  },
  {
   "property": "C102",
   "status": "proved",
   "theorems": [
    "C102_generation",
    "C102_first"
   ],
   "note": "The iterations of the parallel loops run one after the other (they write disjoint elements)."
  },
  {
   "property": "C103",
   "status": "partial",
   "theorems": [
    "C103_cached_partial",
    "C103_refuted"
   ],
   "note": "Refuted: with a cache for n generations no chromosome of the last n generations is evaluated again. A chromosome that stays in the population keeps its age in the cache and is dropped while still in use (n = 1, two candidates, third generation), and the current population is added to the cache only after its children were evaluated. Proved instead: it holds for the n generations before the current one, for chromosomes that were in none of the earlier ones."
  },
  {
   "property": "C104",
   "status": "proved",
   "theorems": [
    "C104_discard",
    "C104_reset",
    "C104_points",
    "C104_phi",
    "C104_alpha"
   ],
   "note": "Over binary64. std::pow is assumed to have a relative error of at most 2^-50 for a base in [1, 4] and an exponent in [0, 1], and to return at least 1 there. The steps for up to 2^40 dimensions."
  },
  {
   "property": "C105",
   "status": "proved",
   "theorems": [
    "C105_splitmix",
    "C105_xoroshiro",
    "C105_reproducible",
    "C105_registered",
    "C105_seeded",
    "C105_draws"
   ],
   "note": "The reference algorithms are written down from their definitions; splitmix64 is also compared with published outputs. One atomic step per operation on the generators."
  },
  {
   "property": "C106",
   "status": "proved",
   "theorems": [
    "C106_spinlock_free",
    "C106_spinlock_handover",
    "C106_exclusive_free",
    "C106_shared_free",
    "C106_all_left"
   ],
   "note": "A step that gets the lock exists; whether the scheduler gives it to a waiting thread is not claimed (the locks are not fair)."
  },
  {
   "property": "C107",
   "status": "proved",
   "theorems": [
    "C107_fence",
    "C107_sequential_steps",
    "C107_freed_once",
    "C107_waits",
    "C107_delete"
   ],
   "note": "About read_lock with a fence behind the store of the epoch, which the code does not have; with sequentially consistent memory the fence changes nothing. Fewer than 2^64-1 calls of synchronize; read sections not nested."
  },
  {
   "property": "C108",
   "status": "proved",
   "theorems": [
    "C108_log",
    "C108_sort",
    "C108_root",
    "C108_pick"
   ],
   "note": "Exact arithmetic. The mirror mapping is only shown to keep the simplex (C80)."
  },
  {
   "property": "C109",
   "status": "partial",
   "theorems": [
    "C109_iota",
    "C109_iota_walk",
    "C109_stable_partial",
    "C109_stable_refuted",
    "C109_stable_distance",
    "C109_stable_back",
    "C109_stable_deref",
    "C109_stable_walk",
    "C109_derived",
    "C109_walk",
    "C109_container",
    "C109_stable_mixed",
    "C109_stable_outside"
   ],
   "note": "iota_iterator (T = size_t) proved in full. Refuted for stable_iterator: operator- returns the absolute distance, so first - last is positive and a + (b - a) is not b whenever a is behind b; and the assertion of operator+= does not catch a step longer than the container, because size() - n wraps around. Everything else is proved for containers of fewer than 2^63 elements."
  },
  {
   "property": "C11",
   "status": "proved",
   "theorems": [
    "C11_lower_bound_first_not_less"
   ],
   "note": ""
  },
  {
   "property": "C110",
   "status": "partial",
   "theorems": [
    "C110_reserve",
    "C110_shrink",
    "C110_push",
    "C110_resize",
    "C110_clear",
    "C110_destroy",
    "C110_assign",
    "C110_erase",
    "C110_emplace",
    "C110_insert",
    "C110_construct",
    "C110_step",
    "C110_history",
    "C110_lifetime",
    "C110_construct_input_partial",
    "C110_construct_input_refuted"
   ],
   "note": "Refuted: the constructor from input iterators has no guard, so when an element or an allocation throws, the block and the elements made so far are never released (the destructor does not run). Everything else is proved for every sequence of exceptions. insert is shown to insert at the place found in C08. Operations on two vectors (move, swap, copy assignment through them) and pop_back are not part of this model."
  },
  {
   "property": "C111",
   "status": "partial",
   "theorems": [
    "C111_push",
    "C111_emplace",
    "C111_assign",
    "C111_resize_partial",
    "C111_resize_refuted",
    "C111_insert_partial",
    "C111_insert_refuted",
    "C111_insert_realloc_refuted"
   ],
   "note": "Refuted: resize(n, v[i]) reads v[i] after its storage was released when it reallocates; insert(pos, n, v[i]) copies a moved-from object when v[i] is among the elements moved first (behind the place with spare capacity, in front of it when reallocating). Correct: push_back, emplace, insert of one element, assign(n, v[i]), resize within the capacity, insert of elements in front of the moved ones."
  },
  {
   "property": "C112",
   "status": "proved",
   "theorems": [
    "C112_norm",
    "C112_normalize",
    "C112_normalize_zero",
    "C112_distance",
    "C112_perpendicular",
    "C112_perpendicular_zero",
    "C112_volume",
    "C112_lengths",
    "C112_mean",
    "C112_empty",
    "C112_stdDev_one",
    "C112_stdDev_of",
    "C112_stdDev",
    "C112_fitness_mean",
    "C112_variance",
    "C112_fitness_deviation",
    "C112_two_deviations",
    "C112_integral"
   ],
   "note": "Exact arithmetic. stdDev divides by n, fitnessStdDev by n - 1 (C112_two_deviations). stdDev with a given mean is characterised for two or more values; for one value it returns 0 whatever the given mean is (C112_stdDev_one)."
  },
  {
   "property": "C113",
   "status": "partial",
   "theorems": [
    "C113_integer",
    "C113_positive_size",
    "C113_non_negative_size",
    "C113_double",
    "C113_probability",
    "C113_non_negative",
    "C113_positive",
    "C113_negative",
    "C113_nan",
    "C113_bounded_value_refuted"
   ],
   "note": "Refuted: every interval accepts NaN, because contains only rejects values that compare below or above a bound; Probability(NaN) passes its assertion. Proved for integers and for every double that is not NaN."
  },
  {
   "property": "C114",
   "status": "partial",
   "theorems": [
    "C114_tasks",
    "C114_drained",
    "C114_defined",
    "C114_terminates",
    "C114_no_deadlock",
    "C114_accepts",
    "C114_default",
    "C114_resize_partial",
    "C114_unclosed_refuted",
    "C114_resize_refuted"
   ],
   "note": "Refuted: when the creation of a thread fails in thread_count(count), the old workers are already stopped, so the pool refuses every task from then on, also after thread_count is called with the number of threads it still reports; and if at least one new thread had been made, its destruction waits forever, because its queue was not closed. Proved when every thread can be made. Operations of the queue are single steps (C76 has their interleavings); tasks are single steps that end."
  },
  {
   "property": "C115",
   "status": "proved",
   "theorems": [
    "C115_restored",
    "C115_nested",
    "C115_scope_exit",
    "C115_solve",
    "C115_solve_zero",
    "C115_solve_default"
   ],
   "note": "The rest of solve is an arbitrary function of the members that may throw."
  },
  {
   "property": "C116",
   "status": "partial",
   "theorems": [
    "C116_default_accepts",
    "C116_algorithm_partial",
    "C116_algorithm_refuted",
    "C116_rate_given",
    "C116_rate_partial",
    "C116_rate_refuted",
    "C116_stop",
    "C116_inverse_length",
    "C116_permutation_rate",
    "C116_zero_length"
   ],
   "note": "Refuted: GA(size, unique_ptr) with a null algorithm and GA(size, crossover, mutation, stop) by value use SingleObjective instead of deducing the algorithm, and so violate an assertion with more than one objective; a deduced mutation rate is kept in later runs, whatever their chromosome length is. Everything else is proved for all histories of setters and runs. Operators are reduced to their mutation rate; the deduced rates are over binary64."
  },
  {
   "property": "C117",
   "status": "proved",
   "theorems": [
    "C117_range_length",
    "C117_next",
    "C117_prev",
    "C117_walk",
    "C117_inverse"
   ],
   "note": "Integral types of 1 to 64 bits, int of 32 bits; integral promotion and signed overflow are modelled."
  },
  {
   "property": "C118",
   "status": "partial",
   "theorems": [
    "C118_get_partial",
    "C118_get_metric_partial",
    "C118_get_refuted",
    "C118_track",
    "C118_run",
    "C118_same"
   ],
   "note": "Refuted: a tracked metric whose class is not itself the argument of its Monitor base, such as a class derived from another metric, is not found by get_metric_if of its own class. Proved for metrics that are. Different objects are assumed to have different addresses."
  },
  {
   "property": "C119",
   "status": "proved",
   "theorems": [
    "C119_map_push",
    "C119_map_index",
    "C119_move_only",
    "C119_is_set",
    "C119_function_ref",
    "C119_function_ref_empty"
   ],
   "note": "Calls may change the state of a callable but do not throw and do not use the variables themselves. The allocator returns addresses that are not in use."
  },
  {
   "property": "C12",
   "status": "proved",
   "theorems": [
    "C12_argsort",
    "C12_partial_argsort",
    "C12_extrema",
    "C12_index_vector"
   ],
   "note": "std::sort and std::partial_sort enter through their contracts."
  },
  {
   "property": "C13",
   "status": "proved",
   "theorems": [
    "C13_erase_duplicates",
    "C13_find_indices",
    "C13_find_first",
    "C13_erase_first_stable",
    "C13_select",
    "C13_elementwise",
    "C13_partial_shuffle"
   ],
   "note": "std::sort enters through its contract; erase_duplicates needs an order whose equivalence is equality."
  },
  {
   "property": "C14",
   "status": "proved",
   "theorems": [
    "C14_float_comparison_trichotomy",
    "C14_float_comparison_exact",
    "C14_vector_equality"
   ],
   "note": "IEEE binary64, round to nearest even, rounding and overflow of the tolerance and difference included."
  },
  {
   "property": "C15",
   "status": "proved",
   "theorems": [
    "C15_scoped_tolerances_restored"
   ],
   "note": "Single thread, as the class requires."
  },
  {
   "property": "C16",
   "status": "partial",
   "theorems": [
    "C16_dominance_strict_partial_order_refuted",
    "C16_dominance_strict_partial_order_partial"
   ],
   "note": "Refuted: with the default tolerances two vectors can dominate each other and dominance is not transitive. Irreflexive always, asymmetric for zero relative tolerance or non-negative vectors, a strict partial order (exact dominance) for zero tolerances."
  },
  {
   "property": "C17",
   "status": "partial",
   "theorems": [
    "C17_dominance_tests_agree_refuted",
    "C17_dominance_tests_agree_partial"
   ],
   "note": "Refuted: the two tests scale the tolerance differently for negative values. Non-zero paretoCompare always implies paretoCompareLess; full agreement for zero relative tolerance or non-negative vectors."
  },
  {
   "property": "C18",
   "status": "proved",
   "theorems": [
    "C18_front_is_nondominated_set",
    "C18_population_front"
   ],
   "note": "Exact comparison (zero tolerances), finite values; std::sort through its contract."
  },
  {
   "property": "C19",
   "status": "partial",
   "theorems": [
    "C19_front_safe_partial",
    "C19_front_1D_safe",
    "C19_kung_empty_refuted"
   ],
   "note": "Proved for every non-empty matrix and every comparison outcome, and for the empty one except: Refuted: the divide-and-conquer variant does not terminate on an empty matrix."
  },
  {
   "property": "C20",
   "status": "partial",
   "theorems": [
    "C20_front_respects_dominance_refuted",
    "C20_front_respects_dominance_partial",
    "C20_sort_front_partial"
   ],
   "note": "Refuted: under the default tolerances dominance is not transitive, so a dropped point need not be dominated by a returned one, and returned points can dominate each other. Proved: dropped points are dominated by some point, earlier returned points never beat later ones; the sort-based variant keeps a dominating point for every dropped one."
  },
  {
   "property": "C21",
   "status": "partial",
   "theorems": [
    "C21_merge_every_schedule_partial",
    "C21_merge_possible",
    "C21_merge_default_tolerances_refuted"
   ],
   "note": "Proved for exact comparison, every interleaving and every value a relaxed load may return. Refuted: with the default tolerances a dominated candidate can remain."
  },
  {
   "property": "C22",
   "status": "proved",
   "theorems": [
    "C22_nondominated_sort_ranks"
   ],
   "note": "Both tolerances zero, finite values, std::sort by contract."
  },
  {
   "property": "C23",
   "status": "proved",
   "theorems": [
    "C23_sorts_agree",
    "C23_tasks_terminate"
   ],
   "note": "Both tolerances zero, finite values; every interleaving of the per-objective tasks, with relaxed loads that may miss stores."
  },
  {
   "property": "C24",
   "status": "partial",
   "theorems": [
    "C24_ens_terminates_partial",
    "C24_fnds_dds_refuted"
   ],
   "note": "Proved for the efficient sort (the default) under every tolerance. Refuted: with the default tolerances three points can dominate each other in a circle; the fast sort then reads past the end of its result and the dominance degree sort never ends."
  },
  {
   "property": "C25",
   "status": "proved",
   "theorems": [
    "C25_ranks",
    "C25_fronts",
    "C25_partial_front",
    "C25_resize"
   ],
   "note": ""
  },
  {
   "property": "C26",
   "status": "proved",
   "theorems": [
    "C26_nadir_point"
   ],
   "note": "Exact comparison, finite values."
  },
  {
   "property": "C27",
   "status": "proved",
   "theorems": [
    "C27_generic_crossovers_permute",
    "C27_permutation_crossovers_permute"
   ],
   "note": "Generic functions for every gene type with decidable equality; the operators of permutation.cpp for every random outcome, including chromosomes with fewer than two genes. Termination: the model's loops have explicit fuel and the theorems say that it is never used up."
  },
  {
   "property": "C28",
   "status": "proved",
   "theorems": [
    "C28_order_crossovers"
   ],
   "note": "Stated for the generic functions; C29 carries it over to the ones for unsigned genes."
  },
  {
   "property": "C29",
   "status": "proved",
   "theorems": [
    "C29_specialised_crossovers_agree"
   ],
   "note": "Edge crossover is not claimed: its two versions pick a different start gene among equals, so they do differ."
  },
  {
   "property": "C30",
   "status": "proved",
   "theorems": [
    "C30_cycle_crossover"
   ],
   "note": ""
  },
  {
   "property": "C31",
   "status": "proved",
   "theorems": [
    "C31_pmx_crossover"
   ],
   "note": ""
  },
  {
   "property": "C32",
   "status": "proved",
   "theorems": [
    "C32_n_point_crossover",
    "C32_point_and_uniform_crossovers"
   ],
   "note": "std::sort enters through its contract."
  },
  {
   "property": "C33",
   "status": "partial",
   "theorems": [
    "C33_crossover_flag",
    "C33_crossover_flag_real_partial",
    "C33_crossover_flag_exact_real_partial",
    "C33_crossover_flag_refuted"
   ],
   "note": "Proved for binary, integer and permutation genes. Refuted for real genes: operator== is tolerant, so a child that differs from a parent by less than the tolerance takes over its fitness. With zero tolerances it holds up to the sign of zero."
  },
  {
   "property": "C34",
   "status": "partial",
   "theorems": [
    "C34_arithmetic_in_bounds",
    "C34_blx_in_bounds_partial",
    "C34_sbx_in_bounds_partial",
    "C34_wright_in_bounds_partial",
    "C34_blx_refuted",
    "C34_sbx_refuted",
    "C34_wright_refuted"
   ],
   "note": "Proved for arithmetic crossover with any finite bounds, and for the others when the bounds are not too large. Refuted for very large bounds: BLX-alpha, SBX and Wright produce a NaN gene, which std::clamp keeps."
  },
  {
   "property": "C35",
   "status": "partial",
   "theorems": [
    "C35_permutation_mutations",
    "C35_shift_mutation_partial"
   ],
   "note": "Proved for inversion, swap2, swap3 and shuffle; for shift when the range parameter is below 1. Missing: shift with range parameter 1, where the precondition of the sampling is violated (see C36)."
  },
  {
   "property": "C36",
   "status": "partial",
   "theorems": [
    "C36_sampling_preconditions_partial",
    "C36_sampleUnique_precondition",
    "C36_shift_refuted"
   ],
   "note": "Refuted: shift mutation with the allowed range parameter 1 asks for two different positions out of one, for every chromosome of at least two genes. Proved for the other operators and for shift below 1."
  },
  {
   "property": "C37",
   "status": "partial",
   "theorems": [
    "C37_boundary_in_bounds",
    "C37_uniform_in_bounds_partial",
    "C37_nonuniform_in_bounds_partial",
    "C37_polynomial_in_bounds_partial",
    "C37_gauss_in_bounds_partial",
    "C37_wide_bounds_refuted"
   ],
   "note": "Proved for boundary mutation with any finite bounds and for the other operators when upper - lower does not overflow. Refuted for the widest finite bounds: uniform, Gauss, polynomial and non-uniform mutation each produce a NaN gene."
  },
  {
   "property": "C38",
   "status": "partial",
   "theorems": [
    "C38_integer_uniform_result_partial",
    "C38_integer_uniform_in_bounds",
    "C38_integer_uniform_terminates_partial",
    "C38_integer_uniform_refuted"
   ],
   "note": "Refuted for bounds with lower == upper: the redraw loop never ends. Proved otherwise: a result is always in bounds, differs at the chosen positions, and the loop ends if every gene has two values and the generator does not repeat one number for ever."
  },
  {
   "property": "C39",
   "status": "partial",
   "theorems": [
    "C39_mutation_flag",
    "C39_mutation_flag_real_partial",
    "C39_mutation_flag_exact_real_partial",
    "C39_mutation_flag_refuted"
   ],
   "note": "Proved for binary, integer and permutation genes and every mutation. Refuted for real genes: operator== is tolerant, so a slightly changed candidate keeps its old fitness. With zero tolerances it holds up to the sign of zero."
  },
  {
   "property": "C40",
   "status": "partial",
   "theorems": [
    "C40_crossover_rate_zero",
    "C40_inversion_rate_zero",
    "C40_permutation_rate_zero_partial",
    "C40_gene_count_rate_zero_partial",
    "C40_rate_zero_refuted",
    "C40_gene_count_rate_one",
    "C40_crossover_rate_one"
   ],
   "note": "Proved for crossover, inversion and, with more than 5 genes, for the operators that draw a gene count. Refuted for a draw of exactly 0: swap2, swap3, shuffle, shift, and all other mutations of at most 5 genes act with rate 0."
  },
  {
   "property": "C41",
   "status": "partial",
   "theorems": [
    "C41_keep_children",
    "C41_elitism",
    "C41_keep_best",
    "C41_exact_partial",
    "C41_tolerant_order_refuted"
   ],
   "note": "Proved whenever the comparison orders the rows strictly weakly, which std::sort requires, and in particular for one objective and zero tolerances. Refuted with the default tolerances: the tolerant comparison is not a strict weak ordering, so the precondition of std::sort fails for some fitness values."
  },
  {
   "property": "C42",
   "status": "partial",
   "theorems": [
    "C42_best_never_decreases_partial",
    "C42_one_generation",
    "C42_default_tolerances_refuted"
   ],
   "note": "Proved over whole runs for zero tolerances and finite fitness values (any fitness function, operators, random outcomes, run length). Refuted with the default tolerances: Elitism may keep a parent that is worse by less than the tolerance."
  },
  {
   "property": "C43",
   "status": "partial",
   "theorems": [
    "C43_weights",
    "C43_roulette_partial",
    "C43_roulette_fitness_partial",
    "C43_tournament",
    "C43_rank_partial",
    "C43_sigma",
    "C43_boltzmann",
    "C43_roulette_subnormal_refuted",
    "C43_rank_single_refuted"
   ],
   "note": "Proved for tournament, sigma and Boltzmann selection, and for roulette and rank selection outside the refuted cases. Refuted: roulette selection with only subnormal fitness values builds a NaN distribution, and rank selection of a population of one computes the weight 0/0. The mean and deviation of sigma selection are parameters; populations of at most 2^40 members."
  },
  {
   "property": "C44",
   "status": "partial",
   "theorems": [
    "C44_sigma_scale_ignored",
    "C44_sigma_scale_refuted"
   ],
   "note": "Refuted: the scale parameter is stored but never used; the weights are the same for every scale."
  },
  {
   "property": "C45",
   "status": "partial",
   "theorems": [
    "C45_next_population_partial",
    "C45_next_population_ranks_partial",
    "C45_overflow_refuted"
   ],
   "note": "Proved for exact comparison and fitness values up to 2^1022 in magnitude (differences do not overflow); for any tolerances everything but non-dominance is proved relative to the computed ranks. Distances are compared as double values. C45_overflow_refuted: beyond that magnitude a distance can be NaN and the precondition of std::sort is violated."
  },
  {
   "property": "C46",
   "status": "partial",
   "theorems": [
    "C46_select_compares",
    "C46_initial_partial",
    "C46_next_ranks_partial",
    "C46_distances_refuted"
   ],
   "note": "Refuted: after nextPopulation the distances stay indexed by the combined population and are truncated, so selection compares candidates by other candidates' distances (C46_distances_refuted). Proved: the comparison made by selection, both arrays after initialize, and the ranks after nextPopulation."
  },
  {
   "property": "C47",
   "status": "proved",
   "theorems": [
    "C47_next_population"
   ],
   "note": "Any tolerances, sort contract, random stream and reference lines; 0 < population size < combined size (with equal sizes the partial front is a default constructed range and the code has undefined behaviour, modelled as None). Relative to the ranks the sort returns; for exact comparison these are the non-domination ranks and no unchosen candidate dominates a chosen one."
  },
  {
   "property": "C48",
   "status": "partial",
   "theorems": [
    "C48_niching_partial",
    "C48_niching_refuted"
   ],
   "note": "Refuted: findClosestAssociated also searches the candidates picked before, so a pick can re-select one of them and swap in an arbitrary candidate of another line (C48_niching_refuted). Proved (finite distances): the list of lines stays ordered by count, holds the line of every unpicked member, each pick takes a listed line with the smallest count, a closest member of it, and counts it."
  },
  {
   "property": "C49",
   "status": "partial",
   "theorems": [
    "C49_fitness_sound_partial",
    "C49_real_genes_refuted"
   ],
   "note": "Proved for every gene type whose candidate operator== is exact (binary, integer, permutation). Refuted for real genes: operator== is tolerant, so a slightly changed candidate keeps its old fitness. Initial candidates marked evaluated must carry their fitness; std::sort by contract."
  },
  {
   "property": "C50",
   "status": "proved",
   "theorems": [
    "C50_population_size"
   ],
   "note": "For algorithms that return population_size indices; that the built-in ones do is C41, C45 and C47."
  },
  {
   "property": "C51",
   "status": "proved",
   "theorems": [
    "C51_generations",
    "C51_counters_reset",
    "run_terminates"
   ],
   "note": "run_terminates: under the contract of EngineSpec.v for the user supplied functions no assertion fails and the run ends."
  },
  {
   "property": "C52",
   "status": "partial",
   "theorems": [
    "C52_generation_counter_partial",
    "C52_generation_counter_refuted"
   ],
   "note": "Refuted: the counter is incremented after the callbacks, so they see 0, 0, 1, 2, ... (C52_generation_counter_partial gives the exact sequence for every run)."
  },
  {
   "property": "C53",
   "status": "proved",
   "theorems": [
    "C53_evals_counted",
    "C53_not_evaluated_again",
    "C53_every_schedule",
    "C53_schedules_agree",
    "C53_schedule_progress"
   ],
   "note": "The call findNumberOfObjectives makes is not counted, it does not evaluate a candidate. C53_every_schedule is for every interleaving of the calls of evaluate in a parallel_for."
  },
  {
   "property": "C54",
   "status": "partial",
   "theorems": [
    "C54_cache_transparent_partial",
    "C54_real_genes_refuted"
   ],
   "note": "Proved for gene types with an exact operator==, the same outcomes of all random and user supplied parts (stop conditions that look at the number of evaluations are excluded by this). Refuted for real genes: through the tolerant operator== a wrong fitness gets into the cache."
  },
  {
   "property": "C55",
   "status": "partial",
   "theorems": [
    "C55_solutions_partial",
    "C55_duplicate_solutions_refuted"
   ],
   "note": "Proved for exact comparison: mutually non-dominated, complete, and without equal chromosomes unless the run ends with the initial population. Refuted in that case: with keep_all_optimal_solutions the front of the initial population is returned with its duplicates."
  },
  {
   "property": "C56",
   "status": "proved",
   "theorems": [
    "C56_initial_population",
    "C56_first_generation"
   ],
   "note": ""
  },
  {
   "property": "C57",
   "status": "partial",
   "theorems": [
    "C57_dynamic_evaluates",
    "C57_dynamic_run_partial",
    "C57_dynamic_cache_refuted"
   ],
   "note": "Refuted: with a dynamic fitness function and a cache size setting other than 0 the assertion in evaluate fails in the first evaluation. Proved without assertions (or cache size 0): every evaluation calls the fitness function and the cache stays empty."
  },
  {
   "property": "C58",
   "status": "partial",
   "theorems": [
    "C58_stall_partial",
    "C58_never_before_partial",
    "C58_stall_refuted",
    "C58_patience_refuted"
   ],
   "note": "Proved: stops exactly when there was no improvement by at least delta over the tracked level in more than patience consecutive generations, whatever state a previous run left; never before there was no improvement by more than delta. Refuted: the code compares with >=, so with delta = 0 a constant value counts as improvement and the run never stops; with patience 2^64-1 the counter wraps around and the run stops immediately."
  },
  {
   "property": "C59",
   "status": "partial",
   "theorems": [
    "C59_reached_stops",
    "C59_not_dominated_partial",
    "C59_single_objective",
    "C59_incomparable_refuted"
   ],
   "note": "Refuted with two objectives: a candidate incomparable with the threshold stops the run. Proved for one objective (exact comparison), and that a candidate reaching the threshold always stops it."
  },
  {
   "property": "C60",
   "status": "partial",
   "theorems": [
    "C60_strict_partial",
    "C60_disjunction_partial",
    "C60_short_circuit_refuted",
    "C60_not_last_refuted"
   ],
   "note": "Proved for expressions in which no || has a stateful right operand (every generation), and for such expressions joined by || in a run that ends with the first true. Refuted: under && a short-circuited || does not update its right operand; and in the last generation every condition is true, also a negated one."
  },
  {
   "property": "C61",
   "status": "proved",
   "theorems": [
    "C61_exact",
    "C61_sequential",
    "C61_independent",
    "C61_binary64"
   ],
   "note": "Exact arithmetic on integers as in the statement, and in addition the doubles of the code for integer coordinates whose boxes stay below 2^53 (zero tolerances, any order of multiplications). std::sort and std::reduce by contract."
  },
  {
   "property": "C62",
   "status": "partial",
   "theorems": [
    "C62_two_objectives_partial",
    "C62_upper_bound_partial",
    "C62_binary64_partial",
    "C62_three_objectives_refuted"
   ],
   "note": "Proved for one and two objectives. Refuted for three objectives: the correction adds the volume between the old and the new reference point below the ideal point, which is too much for some fronts. For any number of objectives the recorded values are proved to be upper bounds."
  },
  {
   "property": "C63",
   "status": "proved",
   "theorems": [
    "C63_min",
    "C63_max",
    "C63_mean",
    "C63_one_entry_per_generation",
    "C63_evaluations"
   ],
   "note": "Minimum and maximum exactly, the mean up to a proved rounding error; for populations without NaN. The other monitors (variance, quality indicators) appear only as functions of the fitness matrix in C63_one_entry_per_generation."
  },
  {
   "property": "C64",
   "status": "partial",
   "theorems": [
    "C64_randomReal_range",
    "C64_randomReal_between_partial",
    "C64_randomReal_half_open_refuted",
    "C64_randomReal_overflow_refuted",
    "C64_randomReal_between_value"
   ],
   "note": "Proved for randomReal() and, for the closed interval, for randomReal(a, b) when b - a does not overflow. Refuted: rounding can return b itself, and the widest bounds return a NaN."
  },
  {
   "property": "C65",
   "status": "partial",
   "theorems": [
    "C65_sampleUnique_partial",
    "C65_sampleUnique_large_partial",
    "C65_sampleUnique_refuted"
   ],
   "note": "Proved for ranges of fewer than 65536 numbers or at most two numbers. Refuted for longer ranges: three numbers from [0, 65536) can repeat."
  },
  {
   "property": "C66",
   "status": "partial",
   "theorems": [
    "C66_sampleCdf_in_range",
    "C66_sampleCdf_weight_partial",
    "C66_sampleCdf_weight_refuted",
    "C66_sampleCdf_first"
   ],
   "note": "The index is always valid. Refuted for the weight: see C66_sampleCdf_weight_refuted."
  },
  {
   "property": "C67",
   "status": "proved",
   "theorems": [
    "C67_state_nonzero"
   ],
   "note": ""
  },
  {
   "property": "C68",
   "status": "proved",
   "theorems": [
    "C68_jump"
   ],
   "note": ""
  },
  {
   "property": "C69",
   "status": "proved",
   "theorems": [
    "C69_full_period",
    "C69_streams_disjoint",
    "C69_no_state_reused",
    "C69_no_state_reused_from_start"
   ],
   "note": "Registration and seeding are atomic under the lock (C77); drawing is thread local."
  },
  {
   "property": "C70",
   "status": "proved",
   "theorems": [
    "C70_bits"
   ],
   "note": ""
  },
  {
   "property": "C71",
   "status": "proved",
   "theorems": [
    "C71_randomBinomial_range",
    "C71_randomBinomial_returns",
    "C71_randomBinomial_exact"
   ],
   "note": "The standard normal and Poisson draws are arbitrary values."
  },
  {
   "property": "C72",
   "status": "proved",
   "theorems": [
    "C72_unit_cube"
   ],
   "note": "For seeds up to 2^63 and std::pow by contract (a number >= 1 to a non-negative power is at least 1)."
  },
  {
   "property": "C73",
   "status": "proved",
   "theorems": [
    "C73_exactly_once",
    "C73_blocks",
    "C73_task_count"
   ],
   "note": "Programs are finite trees of nested loops; queues, latch and exception slot at the granularity of their atomic operations."
  },
  {
   "property": "C74",
   "status": "partial",
   "theorems": [
    "C74_refuted",
    "C74_no_task_left_partial",
    "C74_propagates",
    "C74_defined_partial",
    "C74_caller",
    "C74_throws"
   ],
   "note": "Refuted: when the operation throws in the block the caller runs itself, execute_loop is left by that exception without waiting for the latch, so submitted tasks still use the dead frame. Proved: after a normal return or a rethrown task exception no task is left, and without a throw in a caller's own block nothing ever uses a dead frame."
  },
  {
   "property": "C75",
   "status": "proved",
   "theorems": [
    "C75_completes",
    "C75_no_deadlock",
    "C75_never_stuck",
    "C75_schedules"
   ],
   "note": "Under every fair schedule; with exceptions in a caller's own block the execution may become undefined instead (C74)."
  },
  {
   "property": "C76",
   "status": "proved",
   "theorems": [
    "C76_fifo_exactly_once",
    "C76_content",
    "C76_no_lost_wakeup",
    "C76_progress"
   ],
   "note": "std::mutex and std::condition_variable by contract; 'is taken by some consumer' is C76_no_lost_wakeup and C76_progress: no consumer sleeps while elements wait without as many consumers on their way to them."
  },
  {
   "property": "C77",
   "status": "proved",
   "theorems": [
    "C77_spinlock",
    "C77_shared_spinlock",
    "C77_shared_coexist"
   ],
   "note": "Loads may return any value allowed by coherence, so the theorems do not depend on the memory orders."
  },
  {
   "property": "C78",
   "status": "partial",
   "theorems": [
    "C78_sequential_partial",
    "C78_store_buffer_refuted"
   ],
   "note": "Refuted: with store buffers (x86-TSO) the reader's epoch store may still be buffered when it loads the pointer, the writer sees NOT_READING and frees the object; the load of the own epoch in read_lock does not prevent it. Proved for sequentially consistent memory, and (C107) with store buffers when read_lock has a fence, for fewer than 2^64-1 calls of synchronize and read sections that are not nested."
  },
  {
   "property": "C79",
   "status": "partial",
   "theorems": [
    "C79_best_match",
    "C79_points",
    "C79_reserve_enough_partial",
    "C79_dangling_refuted"
   ],
   "note": "Refuted (second half): buildTree writes node.left and node.right through a reference that push_back invalidates when more than 4n/8 nodes are needed, e.g. eleven equal points, or twelve powers of three. Proved: the search is right for every tree that is built (exact arithmetic), and reserving 2n-1 nodes would always be enough."
  },
  {
   "property": "C80",
   "status": "proved",
   "theorems": [
    "C80_log",
    "C80_sort",
    "C80_root",
    "C80_mirror",
    "C80_mirror_ends",
    "C80_generated_log",
    "C80_generated_sort",
    "C80_generated_root",
    "C80_generated_mirror",
    "C80_pick",
    "C80_pick_simplex",
    "C80_normalized"
   ],
   "note": "Exact arithmetic; std::pow keeps the unit interval (contract), std::log is ln. The loop of the mirror mapping is shown to end for points with a common denominator, so for all points of doubles."
  },
  {
   "property": "C81",
   "status": "partial",
   "theorems": [
    "C81_binary",
    "C81_binary_all",
    "C81_integer",
    "C81_integer_all",
    "C81_permutation",
    "C81_real",
    "C81_real_refuted"
   ],
   "note": "Binary, integer and permutation proved for all lengths, bounds and draws. Real proved when the width upper - lower of the bounds is finite. Refuted: for the widest bounds the width overflows and the generated gene can be a NaN."
  },
  {
   "property": "C82",
   "status": "proved",
   "theorems": [
    "C82_flip"
   ],
   "note": ""
  },
  {
   "property": "C83",
   "status": "proved",
   "theorems": [
    "C83_cycle_alternates",
    "C83_cycle_operator_alternates"
   ],
   "note": ""
  },
  {
   "property": "C84",
   "status": "partial",
   "theorems": [
    "C84_edge_greedy",
    "C84_edge_operator_greedy",
    "C84_follows_edges_refuted"
   ],
   "note": "Refuted: the code compares the neighbours with a default gene (the first or least unused one) and takes that one if no neighbour has fewer unused neighbours, so the child can leave the parents' edges although an unused neighbour is left. The exact greedy choice is proved."
  },
  {
   "property": "C85",
   "status": "proved",
   "theorems": [
    "C85_wright"
   ],
   "note": "For bounds up to 2^1021, so that nothing overflows (larger bounds: see C34)."
  },
  {
   "property": "C86",
   "status": "proved",
   "theorems": [
    "C86_arithmetic"
   ],
   "note": "For bounds up to 2^1021, so that nothing overflows."
  },
  {
   "property": "C87",
   "status": "proved",
   "theorems": [
    "C87_blx"
   ],
   "note": "For bounds M with (1+alpha)*M up to 2^1018, so that nothing overflows (larger bounds: see C34)."
  },
  {
   "property": "C88",
   "status": "partial",
   "theorems": [
    "C88_sbx_spread_limited_refuted",
    "C88_sbx_reciprocal_exponent"
   ],
   "note": "Refuted: the code raises to -(eta+1) where the bounded operator needs 1/(eta+1); genes 4 and 6 with lower bound 0, eta = 1 and u = 1/10 give a child below -20, which is then clamped to the bound. Proved: with the exponent 1/(eta+1) no clamping would be needed. Exact arithmetic."
  },
  {
   "property": "C89",
   "status": "proved",
   "theorems": [
    "C89_permutation_mutations_applied",
    "C89_every_part_possible"
   ],
   "note": "Up to 2^53 genes; Swap3 for fewer than 65536 genes (C65); shift mutation for a range parameter below 1 (C36)."
  },
  {
   "property": "C90",
   "status": "proved",
   "theorems": [
    "C90_boundary",
    "C90_uniform",
    "C90_nonuniform",
    "C90_polynomial",
    "C90_gauss"
   ],
   "note": "For bounds up to 2^1020 so that nothing overflows (larger bounds: C37) and fewer than 65536 genes (more: C65); the powers are those of std::pow, an argument with a contract."
  },
  {
   "property": "C91",
   "status": "proved",
   "theorems": [
    "C91_sampleUnique_uniform"
   ],
   "note": "For the ranges and counts for which the numbers are distinct at all (C65: fewer than 65536 numbers, or at most two of them). The draws of randomInt are what is counted, as std::uniform_int_distribution is not modelled."
  },
  {
   "property": "C92",
   "status": "proved",
   "theorems": [
    "C92_cdf_shares",
    "C92_select_share"
   ],
   "note": "For weights that can be normalized (finite, not negative, none or at least one not subnormal; C43 refutes the rest), up to 2^40 of them; the ends of the shares are exact up to n * 2^-47."
  },
  {
   "property": "C93",
   "status": "partial",
   "theorems": [
    "C93_roulette_nonneg",
    "C93_roulette_negative",
    "C93_roulette_follows",
    "C93_rank",
    "C93_sigma",
    "C93_boltzmann",
    "C93_boltzmann_formula_refuted"
   ],
   "note": "Proved: the weights of all four operators up to rounding; sigma and Boltzmann for fitness values whose spread is neither tiny nor huge compared with the values. Refuted: the documented Boltzmann probabilities, proportional to exp(f / T); the code scales the fitness values by their range first, so 0 and 2 with T = 1 get exp(0) and exp(1). The sigma weights are those for scale 1 (C44)."
  },
  {
   "property": "C94",
   "status": "proved",
   "theorems": [
    "C94_association",
    "C94_closest_exact",
    "C94_closest_line",
    "C94_next_population"
   ],
   "note": "The ideal point has to be finite and the extreme points rows of the right length, which initialize and every nextPopulation establish. The line found is closest up to (3 delta + 48 d 2^-53) |x|^2 where delta bounds how far the lines are from unit length; entries up to 2^900."
  },
  {
   "property": "C95",
   "status": "proved",
   "theorems": [
    "C95_initialize",
    "C95_select",
    "C95_optimal_nsga2",
    "C95_optimal_nsga3",
    "C95_optimal_initial"
   ],
   "note": "The claims about domination are for exact comparison (tolerances 0; see C15 for what fails otherwise) and, for NSGA-II, fitness values up to 2^1022 (C45)."
  },
  {
   "property": "C96",
   "status": "partial",
   "theorems": [
    "C96_formulas",
    "C96_sphere",
    "C96_rastrigin",
    "C96_rosenbrock",
    "C96_rosenbrock_documented_refuted",
    "C96_schwefel_partial",
    "C96_griewank",
    "C96_ackley",
    "C96_levy",
    "C96_levy_documented_refuted",
    "C96_boxes"
   ],
   "note": "Over the exact reals. Proved for Sphere, Rastrigin, Rosenbrock, Griewank, Ackley and Levy. Schwefel: the value at optimum() is within n/100 below and n/50 above optimal_value(), and no point has a value above n/50 (the constants of the code are decimals, so equality does not hold exactly). Refuted: the documentation's claims that the Rosenbrock optimum is at (0, ..., 0) and that the sum of Levy's function runs to the last variable."
  },
  {
   "property": "C97",
   "status": "partial",
   "theorems": [
    "C97_formulas",
    "C97_zdt1",
    "C97_zdt2",
    "C97_zdt3",
    "C97_zdt4",
    "C97_zdt5",
    "C97_zdt6",
    "C97_kursawe_partial",
    "C97_kursawe_ideal_refuted",
    "C97_boxes"
   ],
   "note": "Over the exact reals. Proved: the formulas, exactly which points are optimal for ZDT1 to ZDT6, the values at optimum(), and the ideal and nadir points of ZDT1, ZDT2, ZDT4 and ZDT5. ZDT3: the ideal point is a bound; Refuted: its nadir point (an optimal point has f1 = -0.851 < -0.85). ZDT6: Refuted: the ideal point is never attained (f1 < 0) and the nadir point is not a bound (f2 < -0.92 at x = 0.0815). Kursawe: optimum() is optimal with the stated value; Refuted: the ideal point, documented as approximate, is exceeded for every n >= 10; whether the first entry of the nadir point is a bound is not decided."
  },
  {
   "property": "C98",
   "status": "partial",
   "theorems": [
    "C98_formulas",
    "C98_dtlz1",
    "C98_dtlz23",
    "C98_dtlz4",
    "C98_dtlz56_partial",
    "C98_dtlz56_refuted",
    "C98_dtlz7_partial",
    "C98_dtlz7_refuted",
    "C98_boxes"
   ],
   "note": "Over the exact reals, for every number of objectives. Proved in full for DTLZ1, DTLZ2 and DTLZ3. DTLZ4: everything but the value; Refuted: f(optimum()) is not optimal_value() (its last entry is -sin(pi/2 * 2^-100), which a double cannot tell from 0 beside the others). DTLZ5 and DTLZ6: the documented points are optimal and form the documented curve for every number of objectives, and they are all the optimal points for 2 and 3 objectives; Refuted: with 4 objectives another point is optimal and lies below the nadir point. DTLZ7: exactly which points are optimal, the value at optimum(), ideal and nadir bounds, the ideal within (M-1)/10^6; Refuted: that every point with the last variables 0 is optimal, and that ideal and nadir points are attained."
  },
  {
   "property": "C99",
   "status": "partial",
   "theorems": [
    "C99_convert",
    "C99_monotone",
    "C99_accurate",
    "C99_invoke",
    "C99_above_refuted",
    "C99_nan_refuted"
   ],
   "note": "Over binary64, std::pow(2.0, n) assumed exact, bounds up to 2^1021. Proved for 1 to 1023 bits per variable: range, ends, monotonicity, independence of the other bits, the upper bound when the difference of the bounds is a double (true of all problems of the library), accuracy up to 53 bits. Refuted: that a variable never exceeds its upper bound (bounds -1.2 and 1.0 give 1.0000000000000002), and that it is a number for 0 bits or for 1024 and more bits."
  }
 ]
}