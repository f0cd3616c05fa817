{
 "claims": [
  {
   "property": "C01",
   "status": "proved",
   "theorems": [
    "C01_apply_pointwise",
    "C03_calls_succeed"
   ],
   "note": "for every program history without a stale cache; operands in the domain of the operator"
  },
  {
   "property": "C02",
   "status": "proved",
   "theorems": [
    "C02_equals_exact"
   ],
   "note": "for histories without reordering"
  },
  {
   "property": "C03",
   "status": "proved",
   "theorems": [
    "C03_live_diagrams_kept",
    "C03_calls_succeed"
   ],
   "note": "all modelled calls"
  },
  {
   "property": "C04",
   "status": "proved",
   "theorems": [
    "C04_force_gc_complete"
   ],
   "note": "completeness for programs that do not use from_expression_tree (see C18)"
  },
  {
   "property": "C05",
   "status": "proved",
   "theorems": [
    "C05_total_count",
    "C05_index_count",
    "C05_diagram_count"
   ],
   "note": "per diagram: for programs without from_expression_tree (see C18)"
  },
  {
   "property": "C06",
   "status": "proved",
   "theorems": [
    "C06_evaluate"
   ],
   "note": ""
  },
  {
   "property": "C07",
   "status": "proved",
   "theorems": [
    "C07_from_vector"
   ],
   "note": ""
  },
  {
   "property": "C08",
   "status": "proved",
   "theorems": [
    "C08_to_vector",
    "C08_round_trip_diagram",
    "C08_round_trip_vector"
   ],
   "note": ""
  },
  {
   "property": "C09",
   "status": "proved",
   "theorems": [
    "C09_satisfy_count"
   ],
   "note": "the product of all domains must fit the type domain_product computes in (see C38); no from_expression_tree before (C18)"
  },
  {
   "property": "C10",
   "status": "proved",
   "theorems": [
    "C10_satisfy_one",
    "C10_array",
    "C10_array_refuted"
   ],
   "note": "for std::vector; into std::array only the assigned elements count"
  },
  {
   "property": "C11",
   "status": "proved",
   "theorems": [
    "C11_satisfy_all",
    "C11_array",
    "C11_iterator",
    "C11_iterator_refuted"
   ],
   "note": "for insert iterators; an iterator into a buffer keeps the last solution only"
  },
  {
   "property": "C12",
   "status": "proved",
   "theorems": [
    "C12_cofactor"
   ],
   "note": ""
  },
  {
   "property": "C13",
   "status": "proved",
   "theorems": [
    "C13_cofactors"
   ],
   "note": ""
  },
  {
   "property": "C14",
   "status": "proved",
   "theorems": [
    "C14_transform",
    "C14_negate_involutive"
   ],
   "note": ""
  },
  {
   "property": "C15",
   "status": "proved",
   "theorems": [
    "C15_reduce_identity"
   ],
   "note": ""
  },
  {
   "property": "C16",
   "status": "proved",
   "theorems": [
    "C16_left_fold",
    "C16_tree_fold"
   ],
   "note": "operands in a set of values closed under the operator"
  },
  {
   "property": "C17",
   "status": "proved",
   "theorems": [
    "C17_from_expression_tree"
   ],
   "note": ""
  },
  {
   "property": "C18",
   "status": "proved",
   "theorems": [
    "C18_leak_refuted",
    "C18_query_refuted"
   ],
   "note": "REFUTED: the code violates this property; the theorem gives the witness. Nodes stay marked after from_expression_tree; they are never collected and a later satisfy_count on another diagram returns 0."
  },
  {
   "property": "C19",
   "status": "proved",
   "theorems": [
    "C19_dependency_set"
   ],
   "note": "histories without reordering and without from_expression_tree (C18)"
  },
  {
   "property": "C20",
   "status": "proved",
   "theorems": [
    "C20_cache_transparent"
   ],
   "note": ""
  },
  {
   "property": "C21",
   "status": "proved",
   "theorems": [
    "C21_moduli_refuted"
   ],
   "note": "REFUTED: the code violates this property; the theorem gives the witness. PLUS<4> and PLUS<2> share an operation id, so the second result comes from the cache of the first."
  },
  {
   "property": "C22",
   "status": "proved",
   "theorems": [
    "C22_reorder_preserves"
   ],
   "note": ""
  },
  {
   "property": "C23",
   "status": "proved",
   "theorems": [
    "C23_order_permutation"
   ],
   "note": ""
  },
  {
   "property": "C24",
   "status": "proved",
   "theorems": [
    "C24_equals_after_reorder_refuted"
   ],
   "note": "REFUTED: the code violates this property; the theorem gives the witness. "
  },
  {
   "property": "C25",
   "status": "proved",
   "theorems": [
    "C25_apply_after_reorder_refuted",
    "C25_clear_cache_suffices"
   ],
   "note": "REFUTED: the code violates this property; the theorem gives the witness. With clear_cache after force_reorder apply is right. force_reorder does not clear the apply cache although cells are freed."
  },
  {
   "property": "C26",
   "status": "proved",
   "theorems": [
    "C26_auto_reorder_value_refuted",
    "C26_auto_reorder_dangling_refuted",
    "C26_handle_first_suffices"
   ],
   "note": "REFUTED: the code violates this property; the theorem gives the witness. C26_handle_first_suffices: apply with the last two steps exchanged (handle first, then the deferred reordering) is right in every state of a program that uses the mode."
  },
  {
   "property": "C27",
   "status": "proved",
   "theorems": [
    "C27_fresh_cell",
    "C27_pool_never_exhausted"
   ],
   "note": ""
  },
  {
   "property": "C28",
   "status": "proved",
   "theorems": [
    "C28_no_extra_pool_refuted",
    "C28_ratio_zero_refuted",
    "C28_small_pool_refuted"
   ],
   "note": "REFUTED: the code violates this property; the theorem gives the witness. See C27 for the positive statement under a positive threshold."
  },
  {
   "property": "C29",
   "status": "proved",
   "theorems": [
    "C29_queries",
    "C29_fields_independent",
    "C29_new_nodes"
   ],
   "note": ""
  },
  {
   "property": "C30",
   "status": "proved",
   "theorems": [
    "C30_leaf_flag_refuted",
    "C30_assertion_useless",
    "C30_reachable",
    "C30_node_primitives"
   ],
   "note": "REFUTED: the code violates this property; the theorem gives the witness. C30_node_primitives connects the nodes of the manager model with the packed word: they agree until the count overflows, which is the error ERefOver of the model."
  },
  {
   "property": "C31",
   "status": "proved",
   "theorems": [
    "C31_references_balance",
    "C31_self_assignment",
    "C04_force_gc_complete"
   ],
   "note": ""
  },
  {
   "property": "C32",
   "status": "proved",
   "theorems": [
    "C32_copy_null_refuted",
    "C32_moved_from_refuted"
   ],
   "note": "REFUTED: the code violates this property; the theorem gives the witness. "
  },
  {
   "property": "C33",
   "status": "proved",
   "theorems": [
    "C33_calls",
    "C33_find",
    "C33_iterate",
    "C33_create",
    "C33_clear_refuted",
    "C33_clear_cycle_refuted"
   ],
   "note": "Pointer-level model: head arrays and chains through the shared next_ fields, also used by the free list. For programs that insert only nodes whose next_ is null (new or erased ones), which is how the node manager uses the tables. REFUTED: the code violates this property; the theorem gives the witness. After clear() this fails for the dropped nodes: a node inserted again drags its old chain along, or closes a cycle."
  },
  {
   "property": "C34",
   "status": "proved",
   "theorems": [
    "C34_cache_returns_last_put",
    "C34_cache_hit",
    "C34_cache_size"
   ],
   "note": "for every hash, capacity and sequence of put, clear, grow and clean-up"
  },
  {
   "property": "C35",
   "status": "proved",
   "theorems": [
    "C35_capacity_listed",
    "C35_load",
    "C35_double_division"
   ],
   "note": "C35_double_division covers the floating-point computation for sizes below 2^50 and rests on the axioms of the real numbers"
  },
  {
   "property": "C36",
   "status": "proved",
   "theorems": [
    "C36_sort_sorts",
    "C36_sort_any_comparator",
    "C36_sort_uint32",
    "C36_sort_word"
   ],
   "note": "C36_sort_uint32 is about the indices of the code (uint32, wrapping) and covers vectors of at most 2^31 elements; C36_word_sharp shows with a small word size that the bound matters."
  },
  {
   "property": "C37",
   "status": "proved",
   "theorems": [
    "C37_place_variable_best",
    "C37_each_variable_once",
    "C37_more_nodes_refuted"
   ],
   "note": "place_variable ends at a level where the count was minimal, and every variable is sifted once. But force_reorder as a whole can return to the order it started from with more nodes (C37_more_nodes_refuted)."
  },
  {
   "property": "C38",
   "status": "proved",
   "theorems": [
    "C38_domain_product",
    "C38_domain_product_refuted",
    "C38_satisfy_count_refuted"
   ],
   "note": "Positive theorem: correct if the product fits the type used. REFUTED: the code violates this property; the theorem gives the witness. For a fixed domain other than 2 the power is computed in 32 bits."
  },
  {
   "property": "C39",
   "status": "proved",
   "theorems": [
    "C39_bool_cube"
   ],
   "note": ""
  },
  {
   "property": "C40",
   "status": "proved",
   "theorems": [
    "C40_from_pla",
    "C40_text_to_diagrams"
   ],
   "note": "cubes that are used must have a literal, see C41; the call sequence of from_pla is executed on any reachable manager"
  },
  {
   "property": "C41",
   "status": "proved",
   "theorems": [
    "C41_no_literal_refuted",
    "C41_no_literal",
    "C41_no_cubes_refuted"
   ],
   "note": "REFUTED: the code violates this property; the theorem gives the witness. The product of no literals is left_fold over an empty vector, which dereferences its end."
  },
  {
   "property": "C42",
   "status": "proved",
   "theorems": [
    "C42_accepts",
    "C42_rejects_others",
    "C42_no_crash",
    "C42_malformed_refuted",
    "C42_negative_count_refuted",
    "C42_end_marker_refuted"
   ],
   "note": "Exact characterisation of the accepted texts and of what is loaded. It shows that some malformed texts are accepted (wrong .p, further words after the outputs), see the _refuted theorems."
  },
  {
   "property": "C43",
   "status": "proved",
   "theorems": [
    "C43_dpld"
   ],
   "note": ""
  },
  {
   "property": "C44",
   "status": "proved",
   "theorems": [
    "C44_to_dpld_e",
    "C44_extended_derivative",
    "C44_after_reorder_refuted",
    "C44_fixed_domain_refuted"
   ],
   "note": "Holds as long as the variables have not been reordered, and always when to_dpld_e is applied directly to the result of dpld. REFUTED: the code violates this property; the theorem gives the witness. A derivative computed before force_reorder can contain a redundant node of its own variable afterwards, and to_dpld_e then leaves out the Undefined values. With a fixed domain and assertions on, to_dpld_e stops in an assertion."
  },
  {
   "property": "C45",
   "status": "proved",
   "theorems": [
    "C45_calculate_probability",
    "C45_calculate_probability_bss",
    "C45_row_sums_needed",
    "C45_negative_state_refuted"
   ],
   "note": "In every commutative ring, for matrices and for vectors of probabilities of state 1. The rows must sum to one (C45_row_sums_needed) and the state must not be negative: a negative state reads the table of terminals out of range."
  },
  {
   "property": "C46",
   "status": "proved",
   "theorems": [
    "C46_calculate_probabilities",
    "C46_calculate_probabilities_bss",
    "C46_new_terminal_refuted",
    "C46_count_between_refuted"
   ],
   "note": "Right when get_probability follows directly. The results live in the nodes: a terminal made in between is read uninitialised and a count in between overwrites them."
  },
  {
   "property": "C47",
   "status": "proved",
   "theorems": [
    "C47_calculate",
    "C47_get"
   ],
   "note": ""
  },
  {
   "property": "C48",
   "status": "proved",
   "theorems": [
    "C48_state_frequency",
    "C48_state_frequency_double",
    "C48_importance"
   ],
   "note": "For every arithmetic that counts exactly up to the number of assignments; with doubles, up to 2^53 assignments, the result is the correctly rounded quotient. C48_importance covers dpld followed by the importance measure."
  },
  {
   "property": "C49",
   "status": "proved",
   "theorems": [
    "C49_mcvs"
   ],
   "note": "for domains of which at least one is larger than 1; a vector in which no component can be improved is not listed"
  },
  {
   "property": "C50",
   "status": "proved",
   "theorems": [
    "C50_mpvs_refuted",
    "C50_mpvs_g"
   ],
   "note": "REFUTED: the code violates this property; the theorem gives the witness. mpvs calls mcvs_g, so it returns minimal cut vectors; mpvs_g itself is right (C50_mpvs_g)."
  },
  {
   "property": "C51",
   "status": "proved",
   "theorems": [
    "C51_uninitialised_refuted",
    "C51_stale_data_refuted"
   ],
   "note": "REFUTED: the code violates this property; the theorem gives the witness. Nothing sets the data of the node of the Undefined value: it is read uninitialised, and when an earlier query has left a number there, the result is wrong."
  },
  {
   "property": "C52",
   "status": "proved",
   "theorems": [
    "C52_constructor_accepts",
    "C52_constructor_rejects",
    "C52_default_order",
    "C52_order_refuted"
   ],
   "note": "every construction that completes used a permutation; a vector such as [0,5] is not rejected by an assertion but leads to a write out of bounds"
  },
  {
   "property": "C53",
   "status": "proved",
   "theorems": [
    "C53_placement_independent"
   ],
   "note": ""
  },
  {
   "property": "C54",
   "status": "proved",
   "theorems": [
    "C54_reorder_memory_safe"
   ],
   "note": "follows from the invariant that a reachable terminal always has a reference left when a son of a swapped node is released"
  },
  {
   "property": "C55",
   "status": "proved",
   "theorems": [
    "C55_queries_restore"
   ],
   "note": "counting, satisfying, dependency, evaluation and domain queries"
  },
  {
   "property": "C56",
   "status": "proved",
   "theorems": [
    "C56_truth_tables",
    "C56_boolean",
    "C56_commutative",
    "C56_not_commutative",
    "C56_short_circuit",
    "C56_short_circuit_left",
    "C56_unknown",
    "C56_overflow_refuted"
   ],
   "note": "PLUS and MULTIPLIES overflow a signed integer when both operands are undetermined"
  },
  {
   "property": "C57",
   "status": "proved",
   "theorems": [
    "C57_or_refuted",
    "C57_or_exact"
   ],
   "note": "REFUTED: the code violates this property; the theorem gives the witness. C57_or_exact: the early answers of OR are right exactly when one operand is 0 or both are equal. The other logical operators are right on all ordinary values (C01 with the wider op_dom)."
  },
  {
   "property": "C58",
   "status": "proved",
   "theorems": [
    "C58_constant",
    "C58_variable",
    "C58_variable_not",
    "C58_repeated_equal"
   ],
   "note": ""
  },
  {
   "property": "C59",
   "status": "proved",
   "theorems": [
    "C59_nary_folds",
    "C59_and",
    "C59_or",
    "C59_xor",
    "C59_min",
    "C59_max"
   ],
   "note": "PLUS and MULTIPLIES have no n-ary form: their own operator() hides the inherited one"
  },
  {
   "property": "C60",
   "status": "proved",
   "theorems": [
    "C60_minimal"
   ],
   "note": ""
  },
  {
   "property": "C61",
   "status": "proved",
   "theorems": [
    "C61_construct",
    "C61_construct_refuted",
    "C61_index",
    "C61_satisfy",
    "C61_dpld",
    "C61_dpld_e",
    "C61_mcvs",
    "C61_mpvs",
    "C61_mcvs_refuted",
    "C61_probability",
    "C61_probability_bss",
    "C61_availability",
    "C61_state_frequency",
    "C61_structural_importance",
    "C61_fussell_vesely",
    "C61_agrees"
   ],
   "note": "The truth tables of the test library meet the specifications used for the diagrams. Exceptions: a table without a defined value (C61_construct_refuted) and components with a single state (C61_mcvs_refuted) are undefined behaviour. apply does not compile and is not modelled."
  },
  {
   "property": "C62",
   "status": "proved",
   "theorems": [
    "C62_count_double",
    "C62_count_double_refuted"
   ],
   "note": "Exact up to 2^53 assignments. REFUTED: the code violates this property; the theorem gives the witness. Beyond that the count can be off by one."
  },
  {
   "property": "C63",
   "status": "proved",
   "theorems": [
    "C63_to_mnf",
    "C63_to_mnf_closed",
    "C63_to_mnf_exact",
    "C63_derivatives_convex",
    "C63_fussell_vesely",
    "C63_fussell_vesely_refuted",
    "C63_order_refuted",
    "C63_marked_refuted"
   ],
   "note": "REFUTED: the code violates this property; the theorem gives the witness. to_mnf only raises sons next to terminals, so its result lies between the derivative and its downward closure (C63_to_mnf) and can be strictly smaller: for a coherent system of four components the importance is 4/7 instead of 5/7, and 5/7 with another order of the variables. C63_to_mnf_exact says exactly which set is made (closes, MnfSpec.v). For derivatives of coherent systems (convex functions) the importance is the probability of that set times the given factor, and the manager can be used afterwards as if there had been no call (C63_fussell_vesely). For systems that are not coherent the result can contain a marked node, and the probability is then computed from an uninitialised number."
  },
  {
   "property": "C64",
   "status": "proved",
   "theorems": [
    "C64_calls",
    "C64_end",
    "C64_available",
    "C64_grow_allowed",
    "C64_early_grow"
   ],
   "note": "For the calls of the pool, with chunks, objects in cells and son arrays of mixed-degree nodes. C64_grow_allowed: the rule for grow holds where the node manager calls it; C64_early_grow: without it the destructor would be wrong. Bucket arrays are outside: rehash never frees the old one."
  },
  {
   "property": "C65",
   "status": "proved",
   "theorems": [
    "C65_table_sizes",
    "C65_thresholds",
    "C65_default_manager",
    "C65_default_history",
    "C65_one_variable_refuted",
    "C65_no_variable_refuted",
    "C65_largest_pool_refuted"
   ],
   "note": "Computed in IEEE binary64. Two to 2^31 - 1 variables and pools of at most 2^62 nodes. REFUTED: the code violates this property; the theorem gives the witness. With one variable the constructor converts 0.0 / 0.0 to an integer, for every pool size; without variables it reads past the domains or makes a table too many; the largest pool size does not survive the conversion to double and back."
  },
  {
   "property": "C66",
   "status": "proved",
   "theorems": [
    "C66_at_time",
    "C66_probability_at_time",
    "C66_availability_at_time",
    "C66_exponential_density",
    "C66_weibull_density",
    "C66_exponential_range",
    "C66_exponential_symbolic",
    "C66_weibull_symbolic",
    "C66_weibull_arguments_refuted",
    "C66_not_a_probability_refuted"
   ],
   "note": "In real numbers. REFUTED: the code violates this property; the theorem gives the witness. The classes return densities: C66_exponential_range says when the values lie in [0, 1], C66_not_a_probability_refuted has a system with probability 2. The two functions called weibull take their arguments in different orders."
  },
  {
   "property": "C67",
   "status": "proved",
   "theorems": [
    "C67_symbolic_availability",
    "C67_agrees",
    "C67_as_matrix"
   ],
   "note": "In real numbers; an expression is a term with a value at each time."
  },
  {
   "property": "C68",
   "status": "proved",
   "theorems": [
    "C68_calculate_probability",
    "C68_calculate_availability",
    "C68_calculate_probability_bss",
    "C68_calculate_probabilities",
    "C68_calculate_probabilities_bss",
    "C68_get_availability"
   ],
   "note": "IEEE binary64, round to nearest even, no excess precision."
  },
  {
   "property": "C69",
   "status": "proved",
   "theorems": [
    "C69_diagram",
    "C69_function",
    "C69_same_text",
    "C69_manager",
    "C69_manager_undefined_refuted"
   ],
   "note": "the whole-manager variant omits the Undefined terminal (refuted theorem)"
  },
  {
   "property": "C70",
   "status": "proved",
   "theorems": [
    "C70_evaluate",
    "C70_satisfy_one_boolean",
    "C70_satisfy_one_exponential",
    "C70_satisfy_all_exponential",
    "C70_satisfy_count",
    "C70_satisfy_count_quadratic"
   ],
   "note": "Counts loop tests, calls, operations and iterations, not time. The exponential and quadratic theorems contradict the documentation; they speak about every history that holds such a diagram, with a concrete one for six variables."
  },
  {
   "property": "C71",
   "status": "proved",
   "theorems": [
    "C71_values",
    "C71_equals_exact",
    "C71_calls_succeed",
    "C71_cofactor_pending",
    "C71_no_growth_same",
    "C71_pool_monotone",
    "C71_switch_off_refuted"
   ],
   "note": "The programs of the theorems make calls that take a handle first at any time, and the other calls only while nothing is pending and the pool does not grow (otherwise C26 is violated). REFUTED: the code violates this property; the theorem gives the witness. Switching the mode off does not cancel a pending reordering: the next apply reorders and returns a wrong diagram."
  },
  {
   "property": "C72",
   "status": "proved",
   "theorems": [
    "C72_reduce_canonical",
    "C72_reduce_minimal",
    "C72_reduce_refuted"
   ],
   "note": "REFUTED: the code violates this property; the theorem gives the witness. The positive theorems need that no unique table changes its capacity during the reduce calls; if a table grows in between, reduce of the same diagram gives two different objects."
  },
  {
   "property": "C73",
   "status": "proved",
   "theorems": [
    "C73_tables",
    "C73_next",
    "C73_places"
   ],
   "note": "Calls that end with a modelled error are not covered (the state is lost then)."
  },
  {
   "property": "C74",
   "status": "proved",
   "theorems": [
    "C74_pool",
    "C74_next",
    "C74_count"
   ],
   "note": "Calls that end with a modelled error are not covered (the state is lost then)."
  },
  {
   "property": "C75",
   "status": "proved",
   "theorems": [
    "C75_domain_iterator",
    "C75_make_tree",
    "C75_make_vector",
    "C75_tree_agrees",
    "C75_minmax",
    "C75_make_minmax",
    "C75_minmax_diagram",
    "C75_folds_agree",
    "C75_significance_refuted",
    "C75_fixed_refuted",
    "C75_endless",
    "C75_no_variables_refuted",
    "C75_make_tree_refuted",
    "C75_minmax_empty_refuted"
   ],
   "note": "Refuted parts: the comments in iterators.hpp give the opposite significance, the constructor with fixed variables uses a member before its lifetime, an iterator with nothing to increment never ends, one without variables yields nothing, and make_expression_tree with less than one variable does not end. The results of the random generators are quantified over."
  },
  {
   "property": "C76",
   "status": "proved",
   "theorems": [
    "C76_threshold",
    "C76_cache",
    "C76_cache_size",
    "C76_default_cache",
    "C76_never_shrinks",
    "C76_documented_size_refuted"
   ],
   "note": "Refuted part: the documented size of the cache; set_cache_ratio has no effect until the next adjustment. The ratio is a function of the node count (the double computation is in Sizes.v); C76_cache_size takes a quotient rounded down."
  },
  {
   "property": "C77",
   "status": "proved",
   "theorems": [
    "C77_arrays",
    "C77_lost",
    "C77_memory",
    "C77_lost_refuted"
   ],
   "note": "Refuted part: the destructor frees all arrays; rehash loses the old one. The bound on the loss is proved."
  },
  {
   "property": "C78",
   "status": "proved",
   "theorems": [
    "C78_queens",
    "C78_count_64",
    "C78_count_undefined",
    "C78_queens_count_undefined",
    "C78_constant_refuted"
   ],
   "note": "Runs may stop with an overflow of the reference counter or, without room in the pool, with the failed allocation. Undefined parts are proved undefined (finding F42)."
  },
  {
   "property": "C79",
   "status": "proved",
   "theorems": [
    "C79_no_garbage",
    "C79_growth",
    "C79_known",
    "C79_kept_free",
    "C79_collected_free",
    "C79_program",
    "C79_fold_refuted"
   ],
   "note": "The growth bound needs clean marks (ab_clean), the statement on known functions a reduced state (no reorder that left redundant nodes). The fold part is a counterexample."
  },
  {
   "property": "C80",
   "status": "proved",
   "theorems": [
    "C80_hash",
    "C80_stable",
    "C80_find",
    "C80_unique",
    "C80_kept",
    "C80_reorder_refuted"
   ],
   "note": "C80_find needs a state without a reordering that left redundant nodes (ab_canon); C80_kept holds in every state. C80_reorder_refuted shows that the condition is needed."
  },
  {
   "property": "C81",
   "status": "proved",
   "theorems": [
    "C81_call",
    "C81_program",
    "C81_default",
    "C81_documented_refuted"
   ],
   "note": "Constructions are the calls of C79 (built); folds, from_pla and from_expression_tree are not covered because their intermediate diagrams are not objects of the program."
  },
  {
   "property": "C82",
   "status": "proved",
   "theorems": [
    "C82_calls",
    "C82_constructor",
    "C82_queries",
    "C82_reliability",
    "C82_symbolic",
    "C82_contract",
    "C82_soft_x_refuted"
   ],
   "note": "REFUTED for the example soft_x.cpp: it is stopped by an assertion. Assertions whose failure the model treats as an error in both builds (use of a node of the wrong kind, an empty pool, reference counts) are not compared: there the two builds do differ, but only after the contract is broken. The assertions on the arguments of set_cache_ratio and set_gc_ratio are preconditions (C28)."
  },
  {
   "property": "C83",
   "status": "proved",
   "theorems": [
    "C83_same",
    "C83_transform",
    "C83_transform_linear",
    "C83_cofactor_linear",
    "C83_cofactors_linear"
   ],
   "note": "The calls counted are those of transform_impl and get_cofactor_impl; the time of a call (lookups in the memo table and the unique table, garbage collections) is not counted. apply is not covered: its cache loses entries."
  },
  {
   "property": "C84",
   "status": "proved",
   "theorems": [
    "C84_combined",
    "C84_pointwise",
    "C84_apply",
    "C84_transform",
    "C84_cofactor",
    "C84_derivative",
    "C84_tree"
   ],
   "note": "The bounds are about the function of the result and hold for every object that has it. After a reordering the manager may hold diagrams that are not reduced across the exchange (F40), so the statement is for managers before the first reordering."
  },
  {
   "property": "C85",
   "status": "proved",
   "theorems": [
    "C85_isomorphic",
    "C85_node_count",
    "C85_reduced"
   ],
   "note": "C85_node_count and C85_reduced additionally need that from_expression_tree has not left marks behind (F5). C85_reduced is for diagrams reduced after any number of reorderings, under the condition of C72 that reduce made no table grow."
  },
  {
   "property": "C86",
   "status": "proved",
   "theorems": [
    "C86_managers",
    "C86_after_gc"
   ],
   "note": "C86_managers is for managers without garbage, however they came to be so (C79); C86_after_gc needs that from_expression_tree has not left marks behind (F5)."
  }
 ]
}