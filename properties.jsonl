{"id": "C01", "title": "apply computes the operator pointwise", "statement": "For live diagrams f and g and a binary operator Op whose value domain covers them, apply<Op>(f,g) returns a diagram h such that evaluate(h,x) equals Op(evaluate(f,x), evaluate(g,x)) for every valid assignment x.", "quantifier": "every manager kind, variable order, pool size, operator, pair of diagrams, assignment, and every state the manager can be in (any earlier history, any cache contents, garbage collection or table resizing in the middle of the call)", "why_tests_cant": "the recursion interleaves with caching, garbage collection and rehashing; tests see one seed and one pool size, the claim is about all heaps", "anchors": ["libteddy/details/diagram_manager.hpp: apply, apply_impl", "libteddy/details/node_manager.hpp: make_internal_node, make_terminal_node, cache_find, cache_put", "libteddy/details/operators.hpp"]}
{"id": "C02", "title": "equals is exactly functional equality", "statement": "In a manager whose variables have never been reordered, two live diagrams compare equal if and only if they evaluate to the same value on every valid assignment.", "quantifier": "every history of API calls without reordering, every pair of live diagrams", "why_tests_cant": "canonicity is a global invariant of the node store over all histories; a test can only compare chosen pairs", "anchors": ["libteddy/details/diagram.hpp: equals", "libteddy/details/node_manager.hpp: make_internal_node, is_redundant", "libteddy/details/hash_tables.hpp: unique_table::find"]}
{"id": "C03", "title": "No operation changes a diagram the user still holds", "statement": "Any API call, including calls that trigger automatic garbage collection, leaves the value of every live diagram unchanged on every assignment.", "quantifier": "every history, every live handle, every assignment, every pool size and garbage collection ratio", "why_tests_cant": "a premature free shows only when the freed cell is reused; the number of interleavings of frees and reuse is unbounded", "anchors": ["libteddy/details/node_manager.hpp: force_gc, collect_garbage, make_new_node", "libteddy/details/node_pool.hpp"]}
{"id": "C04", "title": "force_gc reclaims everything unreachable", "statement": "After force_gc the number of nodes the manager reports equals the number of distinct nodes reachable from live diagrams, and no reachable node is reclaimed.", "quantifier": "every history made of the mark-balanced API calls (no expression tree, no MNF conversion), every set of live handles", "why_tests_cant": "completeness of collection is a statement about all heap shapes", "anchors": ["libteddy/details/node_manager.hpp: force_gc, collect_garbage, can_be_gced", "libteddy/details/diagram_manager.hpp: force_gc, get_node_count"]}
{"id": "C05", "title": "The reported node count is exact", "statement": "get_node_count() always equals the number of nodes currently stored, and get_node_count(d) equals the number of distinct nodes reachable from d.", "quantifier": "every history, every diagram", "why_tests_cant": "the counter is updated in several places, including frees inside variable swapping; drift shows only on rare paths", "anchors": ["libteddy/details/node_manager.hpp: get_node_count, make_new_node, delete_node, traverse_pre"]}
{"id": "C06", "title": "evaluate is total and depends only on the relevant variables", "statement": "evaluate terminates with a stored terminal value for every valid assignment, touches only live nodes, and assignments that agree on the variables occurring in the diagram give equal results.", "quantifier": "every reachable manager state, every live diagram, every valid assignment", "why_tests_cant": "assignments are exponentially many and dangling sons only matter on some paths", "anchors": ["libteddy/details/diagram_manager.hpp: evaluate"]}
{"id": "C07", "title": "from_vector represents its truth vector", "statement": "from_vector(v) returns a diagram whose value on x is the entry of v at the mixed-radix position of x, where the variable on the last level changes fastest.", "quantifier": "every manager with at least one variable, every order, every vector of the right length with allowed values", "why_tests_cant": "the stack algorithm is index arithmetic over all domain tuples", "anchors": ["libteddy/details/diagram_manager.hpp: from_vector"]}
{"id": "C08", "title": "to_vector lists the function in order and round-trips", "statement": "to_vector(d) lists evaluate(d,x) over all valid x in mixed-radix order; from_vector(to_vector(d)) equals d and to_vector(from_vector(v)) equals v (without reordering).", "quantifier": "every live diagram, every order and domain tuple", "why_tests_cant": "round-trip over all functions", "anchors": ["libteddy/details/diagram_manager.hpp: to_vector, to_vector_g, from_vector"]}
{"id": "C09", "title": "satisfy_count counts assignments", "statement": "satisfy_count(v,d) equals the number of valid assignments x with evaluate(d,x) = v, provided the number of assignments fits the arithmetic used.", "quantifier": "every diagram, value, order and domain tuple", "why_tests_cant": "counting argument over skipped levels; the number of assignments is exponential", "anchors": ["libteddy/details/diagram_manager.hpp: satisfy_count", "libteddy/details/node_manager.hpp: domain_product, traverse_post"]}
{"id": "C10", "title": "satisfy_one is sound and complete", "statement": "satisfy_one(v,d) returns an assignment on which d evaluates to v if one exists and nothing otherwise.", "quantifier": "every diagram and value", "why_tests_cant": "completeness quantifies over all assignments", "anchors": ["libteddy/details/diagram_manager.hpp: satisfy_one, satisfy_one_impl"]}
{"id": "C11", "title": "satisfy_all enumerates exactly the satisfying assignments", "statement": "satisfy_all(v,d) outputs every valid assignment x with evaluate(d,x)=v exactly once, in lexicographic order of levels, and nothing else.", "quantifier": "every diagram and value", "why_tests_cant": "exactness over exponentially many assignments", "anchors": ["libteddy/details/diagram_manager.hpp: satisfy_all, satisfy_all_impl"]}
{"id": "C12", "title": "get_cofactor fixes one variable", "statement": "get_cofactor(d,i,k) evaluates on x to evaluate(d, x with x_i replaced by k).", "quantifier": "every diagram, variable, value and reachable manager state", "why_tests_cant": "memoised recursion under garbage collection", "anchors": ["libteddy/details/diagram_manager.hpp: get_cofactor, get_cofactor_impl"]}
{"id": "C13", "title": "get_cofactor fixes several variables", "statement": "get_cofactor(d, {(i1,k1),...,(in,kn)}) with distinct indices evaluates on x to d at x with every listed variable replaced, and equals the iterated single cofactors.", "quantifier": "every diagram and list of distinct variables", "why_tests_cant": "the early exit counter and the memo table interact; only all heaps settle it", "anchors": ["libteddy/details/diagram_manager.hpp: get_cofactor (vector), get_cofactor_impl (vector)"]}
{"id": "C14", "title": "transform applies the function to every value", "statement": "transform(d,t) evaluates on x to t(evaluate(d,x)); negate on Boolean diagrams is complement and is an involution under equals.", "quantifier": "every diagram, every total function on its values with results in the allowed range", "why_tests_cant": "quantifies over functions", "anchors": ["libteddy/details/diagram_manager.hpp: transform, transform_impl, negate"]}
{"id": "C15", "title": "reduce is the identity on canonical diagrams", "statement": "Without reordering, reduce(d) equals d.", "quantifier": "every history without reordering", "why_tests_cant": "follows from canonicity of the whole store", "anchors": ["libteddy/details/diagram_manager.hpp: reduce"]}
{"id": "C16", "title": "Folds compute the fold of the operator", "statement": "left_fold<Op>(d1..dn) and tree_fold<Op>(d1..dn) evaluate on x to the left-to-right, respectively balanced, combination of the values; for an associative Op both compare equal.", "quantifier": "every non-empty sequence of diagrams of every length, every x", "why_tests_cant": "length and shape are unbounded", "anchors": ["libteddy/details/diagram_manager.hpp: left_fold, tree_fold"]}
{"id": "C17", "title": "from_expression_tree computes the expression", "statement": "from_expression_tree(t) evaluates on x to the value of the expression t at x.", "quantifier": "every expression tree, every x, every reachable state", "why_tests_cant": "trees are unbounded", "anchors": ["libteddy/details/diagram_manager.hpp: from_expression_tree, from_expression_tree_impl, apply_n_impl"]}
{"id": "C18", "title": "from_expression_tree leaves nothing behind", "statement": "After from_expression_tree and destruction of all results, force_gc reclaims every intermediate node, and other live diagrams can still be queried correctly.", "quantifier": "every expression tree", "why_tests_cant": "leaks are invisible to functional tests", "anchors": ["libteddy/details/diagram_manager.hpp: from_expression_tree_impl, apply_n_impl", "libteddy/details/node_manager.hpp: traverse_post"]}
{"id": "C19", "title": "get_dependency_set is exact", "statement": "Without reordering, an index is listed by get_dependency_set(d), exactly once, if and only if some two valid assignments differing only in that variable give d different values.", "quantifier": "every diagram", "why_tests_cant": "semantic dependence quantifies over all pairs of assignments", "anchors": ["libteddy/details/diagram_manager.hpp: get_dependency_set, get_dependency_set_g", "libteddy/details/node_manager.hpp: traverse_pre"]}
{"id": "C20", "title": "The apply cache is transparent", "statement": "The function computed by any operation does not depend on what is in the apply cache, on its capacity, or on clear_cache / set_cache_ratio calls.", "quantifier": "every pair of histories that differ only in cache management calls and ratios", "why_tests_cant": "cache hits depend on addresses and past operations", "anchors": ["libteddy/details/hash_tables.hpp: apply_cache", "libteddy/details/node_manager.hpp: cache_find, cache_put, adjust_caches"]}
{"id": "C21", "title": "Modulo operators with different moduli do not interfere", "statement": "apply<PLUS<4>>(f,g) followed by apply<PLUS<2>>(f,g) returns the sum modulo 2.", "quantifier": "every pair of moduli, every pair of diagrams", "why_tests_cant": "needs two instantiations on the same operands in one manager; each is correct alone", "anchors": ["libteddy/details/operators.hpp: PLUS, MULTIPLIES", "libteddy/details/hash_tables.hpp: apply_cache::find"]}
{"id": "C22", "title": "force_reorder preserves every function", "statement": "force_reorder leaves the value of every live diagram unchanged on every assignment.", "quantifier": "every reachable state, every live diagram, every assignment", "why_tests_cant": "sifting performs quadratically many in-place rewrites with frees in between", "anchors": ["libteddy/details/node_manager.hpp: sift_variables, swap_variable_with_next, swap_node_with_next, dec_ref_try_gc", "libteddy/details/diagram_manager.hpp: force_reorder"]}
{"id": "C23", "title": "The variable order is always a permutation", "statement": "get_order is at all times a permutation of the variable indices and the level of every variable is its position in it.", "quantifier": "every history including reordering", "why_tests_cant": "invariant over histories", "anchors": ["libteddy/details/node_manager.hpp: swap_variable_with_next, sift_variables, node_manager constructor"]}
{"id": "C24", "title": "equals stays exact after force_reorder", "statement": "After force_reorder, newly created diagrams still compare equal to live diagrams with the same function.", "quantifier": "every reachable state", "why_tests_cant": "needs a state in which a swapped node does not depend on the next variable", "anchors": ["libteddy/details/node_manager.hpp: swap_node_with_next", "libteddy/details/hash_tables.hpp: unique_table::merge"]}
{"id": "C25", "title": "apply is correct after force_reorder", "statement": "apply after force_reorder computes the operator pointwise.", "quantifier": "every reachable state", "why_tests_cant": "needs a freed cell to be reused between reorder and a cache hit", "anchors": ["libteddy/details/node_manager.hpp: dec_ref_try_gc, sift_variables", "libteddy/details/diagram_manager.hpp: force_reorder"]}
{"id": "C26", "title": "Automatic reordering never invalidates the returned diagram", "statement": "With set_auto_reorder(true), the diagram returned by apply is live and has the right function.", "quantifier": "every history with automatic reordering", "why_tests_cant": "requires reordering exactly while the result is protected by its mark only", "anchors": ["libteddy/details/diagram_manager.hpp: apply", "libteddy/details/node_manager.hpp: run_deferred, make_internal_node, dec_ref_try_gc"]}
{"id": "C27", "title": "The node pool never hands out a live node and does not run dry", "statement": "Every node creation returns a cell that is not in use; with an overflow pool of at least one node and a collection threshold of at least one, creation always succeeds.", "quantifier": "every history, every pool size", "why_tests_cant": "depends on arithmetic between ratio, node count and pool sizes at the moment the pool is empty", "anchors": ["libteddy/details/node_pool.hpp", "libteddy/details/node_manager.hpp: make_new_node"]}
{"id": "C28", "title": "Small pools or ratio zero do not break allocation", "statement": "Node creation succeeds for every pool size accepted by the constructor and every accepted gc ratio.", "quantifier": "every pool size and ratio in [0,1]", "why_tests_cant": "boundary combination of truncation and an unproductive collection", "anchors": ["libteddy/details/node_manager.hpp: make_new_node, set_gc_ratio", "libteddy/details/node_pool.hpp: create"]}
{"id": "C29", "title": "The packed node word behaves like independent fields", "statement": "Marking, marking as unused and counting references on the 32-bit word act on independent fields as long as the count stays below 2^29.", "quantifier": "every word and every sequence of operations", "why_tests_cant": "2^32 words and unbounded sequences", "anchors": ["libteddy/details/node.hpp: bits_, MarkM, UsedM, LeafM, RefsM"]}
{"id": "C30", "title": "Reference counts cannot corrupt a node", "statement": "Incrementing a reference count never changes whether a node is a leaf.", "quantifier": "every reference count up to the documented maximum", "why_tests_cant": "needs 2^29 references", "anchors": ["libteddy/details/node.hpp: inc_ref_count, RefsMax"]}
{"id": "C31", "title": "Handles balance references", "statement": "Copying, moving, assigning, swapping and destroying diagrams in any order keeps every referenced node alive exactly as long as some handle refers to it, and self-assignment is harmless.", "quantifier": "every sequence of handle operations", "why_tests_cant": "unbounded sequences", "anchors": ["libteddy/details/diagram.hpp"]}
{"id": "C32", "title": "Copying any diagram object is safe", "statement": "Every diagram object, including default-constructed and moved-from ones, can be copied.", "quantifier": "every diagram object state", "why_tests_cant": "tests copy only live diagrams", "anchors": ["libteddy/details/diagram.hpp: copy constructor, default constructor"]}
{"id": "C33", "title": "Unique tables behave as sets keyed by sons", "statement": "find returns a stored node if and only if one with the same sons is stored, through any sequence of insert, erase, merge, clear and resize.", "quantifier": "every sequence of table operations, every hash placement", "why_tests_cant": "collisions and resizes depend on addresses", "anchors": ["libteddy/details/hash_tables.hpp: unique_table"]}
{"id": "C34", "title": "The apply cache only returns what was put", "statement": "find(op,l,r) returns nothing or the result most recently put for exactly (op,l,r).", "quantifier": "every sequence of put, clear, grow and cleanup", "why_tests_cant": "collisions depend on addresses", "anchors": ["libteddy/details/hash_tables.hpp: apply_cache"]}
{"id": "C35", "title": "Table capacities are adequate", "statement": "The capacity chosen for a requested size is one of the listed primes and exceeds the request whenever a listed prime does; resizing keeps the load at most 3/4 while that is possible.", "quantifier": "every requested size", "why_tests_cant": "boundary at each of 24 thresholds and beyond the last", "anchors": ["libteddy/details/hash_tables.hpp: table_base::get_gte_capacity, unique_table::adjust_capacity"]}
{"id": "C36", "title": "sort sorts", "statement": "utils::sort returns a permutation of its input ordered by the comparator. Its 32-bit indices do not wrap around and all accesses are inside the vector.", "quantifier": "every vector of at most 2^31 elements and every strict weak order; permutation and termination for every comparator", "why_tests_cant": "all lengths and orders", "anchors": ["libteddy/details/tools.hpp:224-280 sort"]}
{"id": "C37", "title": "Sifting never ends with more nodes than the best position seen", "statement": "place_variable leaves a variable at a level whose node count was minimal among the visited ones, and sifting visits every variable once.", "quantifier": "every reachable state", "why_tests_cant": "depends on the counts of all intermediate states", "anchors": ["libteddy/details/node_manager.hpp: sift_variables"]}
{"id": "C38", "title": "domain_product is the product of domains", "statement": "domain_product(a,b) equals the number of value combinations of levels a..b-1 whenever that number fits in 64 bits.", "quantifier": "every manager kind, every pair of levels", "why_tests_cant": "overflow only for large variable counts", "anchors": ["libteddy/details/node_manager.hpp: domain_product", "libteddy/details/tools.hpp: int_pow"]}
{"id": "C39", "title": "bool_cube stores independent entries", "statement": "get after set returns the stored value and other entries are unchanged.", "quantifier": "every size, index and legal value", "why_tests_cant": "all index pairs", "anchors": ["libteddy/details/pla_file.hpp: bool_cube"]}
{"id": "C40", "title": "from_pla computes the sum of products", "statement": "from_pla(file) returns for each output the function that is 1 exactly on the assignments matched by some line with output 1.", "quantifier": "every well-formed file, both fold types", "why_tests_cant": "all files", "anchors": ["libteddy/details/diagram_manager.hpp: from_pla", "libteddy/details/pla_file.hpp"]}
{"id": "C41", "title": "from_pla accepts cubes without literals", "statement": "A line consisting of don't-cares only contributes the constant 1.", "quantifier": "every file containing such a line", "why_tests_cant": "boundary input", "anchors": ["libteddy/details/diagram_manager.hpp: from_pla, left_fold"]}
{"id": "C42", "title": "load_file accepts exactly the supported grammar", "statement": "A text with a header (.i .o .p) followed by well-formed cube lines is loaded with exactly those cubes and anything malformed is rejected.", "quantifier": "every text", "why_tests_cant": "all texts", "anchors": ["libteddy/details/pla_file.hpp: load_file"]}
{"id": "C43", "title": "dpld is the direct partial logic derivative", "statement": "dpld({i,a,b},c,f) evaluates on x to 1 iff c(f(x with x_i=a), f(x with x_i=b)), for every derivative type.", "quantifier": "every diagram, change, variable and derivative type", "why_tests_cant": "two-diagram recursion with variable skipping", "anchors": ["libteddy/details/reliability_manager.hpp: dpld, dpld_impl", "libteddy/details/dplds.hpp"]}
{"id": "C44", "title": "to_dpld_e extends a derivative by its variable", "statement": "to_dpld_e(a,i,d) evaluates to d(x) when x_i=a and to Undefined otherwise, for d independent of x_i.", "quantifier": "every derivative diagram and every position of the variable in the order", "why_tests_cant": "insertion of a level at every depth", "anchors": ["libteddy/details/reliability_manager.hpp: to_dpld_e, to_dpld_e_impl"]}
{"id": "C45", "title": "calculate_probability is the exact probability", "statement": "calculate_probability(j,ps,f) equals the sum over all x with f(x)=j of the product of component state probabilities (over exact arithmetic).", "quantifier": "every diagram without undefined values, every probability matrix", "why_tests_cant": "sum over exponentially many states", "anchors": ["libteddy/details/reliability_manager.hpp: calculate_probability, calculate_ntps_post_impl"]}
{"id": "C46", "title": "calculate_probabilities agrees with the bottom-up computation", "statement": "After calculate_probabilities(ps,f), get_probability(j) equals the probability that f is in state j for every j.", "quantifier": "every diagram, every probability matrix with rows summing to one", "why_tests_cant": "level-order traversal over all DAGs", "anchors": ["libteddy/details/reliability_manager.hpp: calculate_probabilities, calculate_ntps_level_impl, get_probability", "libteddy/details/node_manager.hpp: traverse_level"]}
{"id": "C47", "title": "Availability and unavailability are complementary", "statement": "calculate_availability(j) + calculate_unavailability(j) = 1, and each is the probability of f>=j, respectively f<j.", "quantifier": "every diagram without undefined values, state, probability matrix with rows summing to one", "why_tests_cant": "real arithmetic over all functions", "anchors": ["libteddy/details/reliability_manager.hpp: calculate_availability, calculate_unavailability, get_availability, get_unavailability"]}
{"id": "C48", "title": "Importance measures match their definitions", "statement": "structural_importance(d) is the fraction of assignments where d is 1; birnbaum_importance is the probability that d is 1; state_frequency(f,j) is the fraction with value j.", "quantifier": "every diagram", "why_tests_cant": "counting over all assignments", "anchors": ["libteddy/details/reliability_manager.hpp: structural_importance, birnbaum_importance, state_frequency"]}
{"id": "C49", "title": "mcvs lists minimal cut vectors", "statement": "mcvs(f,j) lists exactly the vectors x with f(x)<j such that increasing any single component that can be increased gives f>=j (at least one can be), once each.", "quantifier": "every structure function and state", "why_tests_cant": "exactness over all vectors", "anchors": ["libteddy/details/reliability_manager.hpp: mcvs, mcvs_g", "libteddy/details/operators.hpp: PI_CONJ"]}
{"id": "C50", "title": "mpvs lists minimal path vectors", "statement": "mpvs(f,j) lists exactly the vectors x with f(x)>=j such that decreasing any single component gives f<j.", "quantifier": "every structure function and state", "why_tests_cant": "exactness over all vectors", "anchors": ["libteddy/details/reliability_manager.hpp: mpvs, mpvs_g"]}
{"id": "C51", "title": "Probabilities of extended derivatives are well defined", "statement": "calculate_probability on the result of to_dpld_e gives the probability of the requested value.", "quantifier": "every derivative", "why_tests_cant": "reads data of a terminal that nothing initialises", "anchors": ["libteddy/details/reliability_manager.hpp: calculate_ntps_post_impl", "libteddy/details/node_manager.hpp: for_each_terminal_node"]}
{"id": "C52", "title": "The constructor builds a consistent order", "statement": "A constructor call with a permutation as order yields mutually inverse level and index maps, and a non-permutation of the right length is rejected.", "quantifier": "every order vector", "why_tests_cant": "all vectors", "anchors": ["libteddy/details/node_manager.hpp: node_manager constructor, check_distinct", "libteddy/details/diagram_manager.hpp: default_or_fwd"]}
{"id": "C53", "title": "Results do not depend on memory placement", "statement": "Every observable result (values, equality, counts) is the same for every placement of nodes in memory.", "quantifier": "every pair of address placements, every history without reordering", "why_tests_cant": "address layout is chosen by the allocator", "anchors": ["libteddy/details/tools.hpp: do_hash", "libteddy/details/node_manager.hpp: cache_find"]}
{"id": "C54", "title": "Reordering with undefined values is memory safe", "statement": "force_reorder on a manager that holds diagrams with Undefined values does not access memory out of bounds.", "quantifier": "every reachable state", "why_tests_cant": "needs the Undefined terminal to be freed by a swap", "anchors": ["libteddy/details/node_manager.hpp: dec_ref_try_gc, special_to_index"]}
{"id": "C55", "title": "Queries leave the manager unchanged", "statement": "Counting, satisfying, dependency and probability queries restore every internal flag, so the next operation behaves as if the query had not happened.", "quantifier": "every diagram in a state without leftover marks, every query", "why_tests_cant": "marks are toggled by two traversals over arbitrary DAGs", "anchors": ["libteddy/details/node_manager.hpp: traverse_pre, traverse_post, traverse_level"]}
{"id": "C56", "title": "Operators implement their truth tables and may be short-circuited", "statement": "Every operator equals its mathematical definition on its value domain, commutative operators are commutative, and if it is determined by one operand it gives that result for all values of the other.", "quantifier": "all operand values in the operator's domain", "why_tests_cant": "values range over integers", "anchors": ["libteddy/details/operators.hpp"]}
{"id": "C57", "title": "Logical operators are sound beyond Boolean values", "statement": "apply<OR> on diagrams with values above 1 computes the same value regardless of diagram structure.", "quantifier": "all multi-valued diagrams", "why_tests_cant": "the fault depends on which operand is terminal during recursion", "anchors": ["libteddy/details/operators.hpp: OR", "libteddy/details/diagram_manager.hpp: apply_impl"]}
{"id": "C58", "title": "variable and constant have the expected functions", "statement": "variable(i) evaluates to x_i, variable_not(i) to 1-x_i, constant(v) to v, and repeated calls return equal diagrams.", "quantifier": "every index, value and history", "why_tests_cant": "depends on histories through collection and re-creation of terminals", "anchors": ["libteddy/details/diagram_manager.hpp: variable, variable_impl, variable_not, constant"]}
{"id": "C59", "title": "The n-ary form of an operator folds it", "statement": "Applying an operator to n values gives the right fold of the binary operator.", "quantifier": "every operator with n-ary form, every n, all values", "why_tests_cant": "n is unbounded", "anchors": ["libteddy/details/operators.hpp: make_nary"]}
{"id": "C60", "title": "The diagram is the smallest possible", "statement": "Without reordering, get_node_count(d) equals the number of distinct subfunctions of d in the current order, hence it is determined by the function and no ordered diagram with the same order is smaller.", "quantifier": "every history, every diagram", "why_tests_cant": "minimality quantifies over all diagrams", "anchors": ["libteddy/details/diagram_manager.hpp: get_node_count", "libteddy/details/node_manager.hpp: make_internal_node"]}
{"id": "C61", "title": "Truth tables of the test library agree with diagrams", "statement": "The reference implementation's index mapping is a bijection between assignments and positions and its reliability functions satisfy the same specifications as the diagram functions.", "quantifier": "every domain tuple and table", "why_tests_cant": "the oracle itself is only tested against the library", "anchors": ["libtsl/truth_table.cpp", "libtsl/truth_table.hpp", "libtsl/truth_table_reliability.hpp"]}
{"id": "C62", "title": "satisfy_count of a reliability manager is exact", "statement": "In a reliability manager, where node data are doubles, satisfy_count(j,d) still returns the exact number of assignments with value j.", "quantifier": "every history, diagram and value, domain products up to the range of int64", "why_tests_cant": "the error appears only beyond 2^53 assignments, which no enumeration reaches", "anchors": ["libteddy/details/diagram_manager.hpp: satisfy_count", "libteddy/details/reliability_manager.hpp: structural_importance, state_frequency"]}
{"id": "C63", "title": "Fussell-Vesely importance", "statement": "For a coherent system, fussell_vesely_importance of the derivative of a component returns the probability that the system is at or below a minimal cut vector in which the component has just left the given state, divided by the unavailability; to_mnf returns the downward closure of the derivative.", "quantifier": "every coherent system, component, state and distribution", "why_tests_cant": "the tests use random series-parallel systems, for which the shortcut taken by to_mnf is right", "anchors": ["libteddy/details/reliability_manager.hpp: fussell_vesely_importance, to_mnf, to_mnf_impl", "tests/reliability.test.cpp: fussell-vesely"]}
{"id": "C64", "title": "Nodes, son arrays and chunks are destroyed exactly once", "statement": "Through any sequence of node creations, releases, son replacements and pool growth that follows the node manager's rules, no son array is freed twice or used after it was freed, every cell is handed out inside its chunk and never while in use, and the pool's destructor destroys each constructed node once, leaving no son array allocated that belongs to a node.", "quantifier": "every sequence of pool calls, every pool size", "why_tests_cant": "depends on the interleaving of reuse and growth; leaks and double frees do not show in results", "anchors": ["libteddy/details/node_pool.hpp", "libteddy/details/node.hpp: ~node, set_sons", "libteddy/details/node_manager.hpp: make_new_node, delete_node"]}
{"id": "C65", "title": "Sizes computed by the constructor", "statement": "The constructor creates exactly one unique table for each variable; every size it computes in double is converted to an integer without undefined behaviour, is not negative and at most a tenth of the pool; sizes rise to a peak and fall to 0. With the default ratios and the default size of the additional pools, a manager with at least two variables and five nodes never finds its pool exhausted.", "quantifier": "every number of variables and every pool size", "why_tests_cant": "rounding of floating-point quotients at every size; tests use a few sizes and would not notice an undefined conversion", "anchors": ["libteddy/details/node_manager.hpp: node_manager (common_init_tag), make_new_node", "libteddy/core.hpp: constructors without overflow pool size"]}
{"id": "C66", "title": "Distributions over time", "statement": "After at_time(ps, t) every entry of a vector or matrix of distributions reads as the distribution at t, whatever was set before, and probability and availability are those of the system at t. exponential(rate) and weibull(scale, shape) of the library are probabilities, and the symbolic constructors of the same name denote the same function for the same arguments.", "quantifier": "every history of the manager, every vector and matrix of distributions (also user-defined ones), every time", "why_tests_cant": "the time is a real number; the example prints numbers that nobody compares with a specification", "anchors": ["libteddy/details/probabilities.hpp: exponential, weibull, constant, custom_dist, prob_dist, at_time, symprobs::exponential, symprobs::weibull"]}
{"id": "C67", "title": "Symbolic availability", "statement": "symbolic_availability returns one expression in the time whose value at every time is the availability of the system at that time, equal to what calculate_availability computes from the values of the entries. No entry of its table is missing or made twice. as_matrix of any vector of expressions is a matrix of distributions at every time.", "quantifier": "every history, every diagram without Undefined values, every matrix of expressions whose rows add up to 1 at the time asked for", "why_tests_cant": "equality of functions of a real variable, over all diagrams; the tests never call it", "anchors": ["libteddy/details/reliability_manager.hpp: symbolic_availability", "libteddy/details/probabilities.hpp: as_matrix, complement, expression::evaluate"]}
{"id": "C68", "title": "Rounding errors of probabilities", "statement": "calculate_probability, calculate_availability and calculate_unavailability in double return a finite number that differs from the true value by at most 2 (2^-53 + e) N, where e bounds the deviation of the given doubles from the true probabilities and N is the total number of states of all components; availability and unavailability add up to 1 within twice that. The bound does not depend on the size of the diagram or on the order of the variables. calculate_probabilities followed by get_probability returns a finite number within 2 (2^-53 + e) M of the true value, where M is the number of nodes of the diagram times the largest domain; get_availability and get_unavailability differ by at most 2^-53 times the number of nodes more.", "quantifier": "every history, every diagram without Undefined values, every matrix (or vector) of doubles near true distributions, as long as the bound is at most 1", "why_tests_cant": "the tests compare with a tolerance on a few random systems; a bound for all diagrams and inputs needs an analysis of every rounding", "anchors": ["libteddy/details/reliability_manager.hpp: calculate_ntps_post_impl, calculate_probability, calculate_availability, calculate_unavailability", "libteddy/details/reliability_manager.hpp: calculate_ntps_level_impl, calculate_probabilities, get_probability, get_availability, get_unavailability"]}
{"id": "C69", "title": "Dot output describes the function", "statement": "to_dot_graph(out, diagram) draws every node of the diagram exactly once, the root first, with its variable or value (* for Undefined), its reference count, one arc per son in the order of the values, and one group per level in the order of the variables; it leaves the manager as it was. The text determines the graph, and following the arcs of a graph with this text from the first node gives the value of the function; so two diagrams with the same text have the same function, even in different managers. to_dot_graph(out) draws every node in use once, except the terminal of undefined values, so that arcs can lead to a node that is not drawn.", "quantifier": "every history, every diagram, every order of the variables, every injective placement of the nodes in memory", "why_tests_cant": "no test reads the output; that a text format loses no information is a statement about all pairs of diagrams", "anchors": ["libteddy/details/node_manager.hpp: to_dot_graph, to_dot_graph_common, for_each_node", "libteddy/details/diagram_manager.hpp: to_dot_graph"]}
{"id": "C70", "title": "Documented complexity of the queries", "statement": "evaluate takes at most one step per variable and one more. satisfy_count does its operation once for every node of the diagram and looks at every son of a node once; if the domains are fixed nothing else grows with the number of variables, otherwise domain_product adds at most n iterations per son. satisfy_one on a Boolean function asked for 0 or 1 makes at most 1 + the sum of the domain sizes calls. The documented bounds O(number of nodes) for satisfy_one and O(n * number of solutions) for satisfy_all do not hold: for the parity of n Boolean variables, which has at most 2n+1 nodes, and a value other than 0 and 1 both make exactly 2^(n+1)-1 calls and find nothing. The bound O(number of nodes) for satisfy_count does not hold without fixed domains: the conjunction has at most n+2 nodes and at least n(n-1)/2 iterations of domain_product.", "quantifier": "every history, every diagram, every number of variables and every order", "why_tests_cant": "tests measure running times for small diagrams; an upper bound speaks about all diagrams and the lower bounds about all numbers of variables", "anchors": ["libteddy/details/diagram_manager.hpp: evaluate, satisfy_count, satisfy_one, satisfy_all and their documentation (lines 408-500)", "libteddy/details/node_manager.hpp: domain_product"]}
{"id": "C71", "title": "Programs that use automatic reordering", "statement": "With set_auto_reorder, every diagram object keeps its function through constructors of diagrams, cofactors, copies, collections and reorderings, also while a reordering is pending and when it runs; a sequence of calls during which the pool does not grow gives the same diagrams and the same manager state as with the mode switched off; set_auto_reorder(false) makes the following calls independent of the mode.", "quantifier": "every program that switches the mode at any time; every manager state with nothing pending", "why_tests_cant": "the deferred reordering runs only after the pool was exhausted in the middle of an earlier operation, so its effect depends on the whole history", "anchors": ["libteddy/details/node_manager.hpp: set_auto_reorder, make_new_node, run_deferred", "libteddy/details/diagram_manager.hpp: apply, get_cofactor"]}
{"id": "C72", "title": "reduce gives canonical diagrams after a reordering", "statement": "Diagrams returned by reduce can be compared with equals after any reordering: they are the same object exactly if they represent the same function; the result has the smallest number of nodes in the current order and contains exactly the variables the function depends on. (The documentation of reduce and set_auto_reorder promises this without a condition.)", "quantifier": "every history of calls with reorderings at any place, every list of reduce calls", "why_tests_cant": "duplicate nodes appear only after particular sequences of swaps, and which of them is found depends on the order inside a chain and on when the table was last rehashed", "anchors": ["libteddy/details/diagram_manager.hpp: reduce, set_auto_reorder (documentation), transform_impl", "libteddy/details/node_manager.hpp: swap_variable_with_next, make_internal_node", "libteddy/details/hash_tables.hpp: find, rehash"]}
{"id": "C73", "title": "The manager never breaks the contract of its unique tables and its pool", "statement": "Every sequence of manager calls uses the unique tables and the node pool only in ways for which they are correct: no node is inserted into a second table or twice, none is released or given out while it is in a table, tables that were moved out during a variable swap are merged back and never used after it. So following the next_ pointers from each bucket visits exactly the nodes of the table and ends, find and the sizes agree with these chains, the free list is disjoint from them, and in specified programs the table of variable i holds exactly the internal nodes of i.", "quantifier": "any constructor arguments, any list of calls (also automatic reordering, also outside of documented preconditions as long as no error occurs), any continuation of it", "why_tests_cant": "the next_ pointer is shared by all tables and the free list; a single wrong release or double insert corrupts a chain that is followed only much later", "anchors": ["libteddy/details/node_manager.hpp: make_internal_node, delete_node, collect_garbage, swap_variable_with_next, dec_ref_try_gc", "libteddy/details/hash_tables.hpp: unique_table", "libteddy/details/node_pool.hpp: create, destroy, grow"]}
{"id": "C74", "title": "The manager never breaks the contract of the node pool, and its destructor is clean", "statement": "Every sequence of manager calls uses the node pool only in ways for which it is correct: cells are created only when one is available, released only while they hold a node, sons are replaced only in internal nodes, the pool grows only when all cells were handed out. So at any point the manager can be destroyed: every node is destroyed exactly once, no destructor runs on a cell without a node, and every array of sons is freed exactly once. Nodes in use plus available nodes are always the main pool plus a whole number of overflow pools.", "quantifier": "any nonnegative pool sizes and other constructor arguments, any list of calls (also automatic reordering, also outside of documented preconditions as long as no error occurs), any continuation of it", "why_tests_cant": "the destructor takes for granted that all chunks but the last are full; whether that holds depends on when garbage collection, growth and variable swaps happened in the whole history", "anchors": ["libteddy/details/node_pool.hpp: create, destroy, grow, ~node_pool", "libteddy/details/node_manager.hpp: make_new_node, delete_node, swap_node_with_next, collect_garbage", "libteddy/details/node.hpp: set_sons, make_son_container"]}
{"id": "C75", "title": "The oracle that the library's tests compare with is right", "statement": "Iterating a domain_iterator up to the sentinel yields every vector of values exactly once, in the order of from_vector and to_vector. A random expression tree has every variable at exactly one leaf and denotes a monotone function whose value is the value of a variable; evaluating it over the domain (make_vector) gives the vector of the diagram that from_expression_tree builds, and the truth table of the same function. make_diagram of a max-min expression has the value of the expression for both kinds of folds, which give the same diagram.", "quantifier": "all domains, orders, sizes, random choices (and evaluation orders of the arguments), expressions, managers and histories", "why_tests_cant": "this is the code that decides whether the tests pass; an error in it is compared with nothing", "anchors": ["libtsl/iterators.cpp: domain_iterator, evaluating_iterator", "libtsl/expressions.cpp: make_expression_tree, evaluate_expression, make_minmax_expression", "libtsl/generators.hpp: make_diagram", "tests/setup.hpp: make_vector"]}
{"id": "C76", "title": "The apply cache keeps pace with the number of nodes", "statement": "The node count never exceeds the threshold of the next adjustment, which is 230 times a power of two and, once doubled, at most twice the number of cells the pool has allocated. While the cache ratio is not changed the capacity of the apply cache exceeds half of ratio * node count (with ratio 1 always, otherwise from 231 nodes on), as long as a listed prime does, and it is either the initial one or the one asked for at an adjustment. The cache never shrinks. The documented size, ratio * node count, does not hold after set_cache_ratio: the call has no effect before the next adjustment.", "quantifier": "every constructor argument, every program whose calls succeed, every ratio", "why_tests_cant": "the sizes depend on when the thresholds are crossed, also in the middle of calls, collections and reorderings; no accessor shows them", "anchors": ["libteddy/details/node_manager.hpp: make_new_node, adjust_tables, adjust_caches, set_cache_ratio", "libteddy/details/hash_tables.hpp: apply_cache::grow_capacity, table_base::get_gte_capacity", "libteddy/details/diagram_manager.hpp: documentation of set_cache_ratio (lines 671-681)"]}
{"id": "C77", "title": "Arrays of the unique tables and of the apply cache", "statement": "From the constructor to the destructor of a manager no array of buckets or cache entries is used after it was freed, freed twice, or accessed outside its bounds, also when tables are copied, moved and merged while two variables are swapped. Each table owns its own array of its capacity. The destructor does not free everything: each growth of a table or of the cache loses the old array. What is lost has at most as many elements as the capacities have grown by, so that the arrays allocated are never more than twice the arrays in use; at most 23 arrays are lost for each table and the cache; nothing is lost if and only if no capacity has changed.", "quantifier": "every size of the cache and of the tables, every point at which the vector of tables reallocates, every list of calls (insertions, removals, accesses, adjustments, swaps with calls in between)", "why_tests_cant": "the ownership of arrays is not visible to a test; a test run under a leak checker shows one leak but bounds none", "anchors": ["libteddy/details/hash_tables.hpp: unique_table constructors, destructor, merge, adjust_capacity, rehash; apply_cache constructor, destructor, grow_capacity, rehash", "libteddy/details/node_manager.hpp: constructor, adjust_tables, adjust_caches, swap_variable_with_next"]}
{"id": "C78", "title": "The n queens example for every n; counting on 64 and more variables", "statement": "For every n the program examples/n_queens.cpp builds a diagram that has the value 1 exactly on the placements of n queens of which none attacks another, with a queen in each row, and 0 otherwise. For n up to 8 satisfy_count returns the number of placements; from n = 9 on, whenever there is a placement, satisfy_count is undefined (a shift by 64 or more). In general, satisfy_count in a BDD manager with at most 64 variables is right whenever the number of solutions fits in 64 bits (except for constants on 64 variables), and it is undefined whenever a variable decides the value and 64 or more variables follow it in the order.", "quantifier": "every n, every state of a BDD manager with n*n variables reached by any program with a valid cache, every ratio for cache and collection; for counting every program, function and order", "why_tests_cant": "the assignments are too many already for n = 6; a shift that is undefined often gives a plausible number", "anchors": ["examples/n_queens.cpp:12-145", "libteddy/details/node_manager.hpp:710-735 domain_product", "libteddy/details/diagram_manager.hpp:1416-1484 satisfy_count"]}
{"id": "C79", "title": "A construction leaves no garbage", "statement": "Every node in the manager after constant, variable, from_vector, apply, transform, get_cofactor, dpld, to_dpld_e or a copy was there before or belongs to the new diagram. Hence total_node_count grows by at most the node count of the result; building a function that another diagram has already adds no node; and a program that only builds diagrams in objects of their own holds exactly the nodes of its diagrams, at any time, without a collection. force_gc makes the manager free of garbage. left_fold does not have the property (its intermediate diagrams stay), from_expression_tree and the other folds are not claimed.", "quantifier": "every program, order, cache, pool and every call of these functions in every reachable state, also when the call runs a collection", "why_tests_cant": "the nodes that a call leaves depend on the whole history (cache, marks, collections); tests compare counts for a few diagrams only", "anchors": ["libteddy/details/diagram_manager.hpp:1190-1262 apply", "libteddy/details/diagram_manager.hpp:909-1000 from_vector", "libteddy/details/diagram_manager.hpp:1618-1850 get_cofactor, transform", "libteddy/details/node_manager.hpp make_internal_node, make_terminal_node", "libteddy/details/diagram_manager.hpp:1333-1400 left_fold, tree_fold"]}
{"id": "C80", "title": "Diagrams are usable as keys of unordered containers", "statement": "Equal diagrams have equal hashes, and no call (also no collection and no reordering) changes the hash of a diagram it does not assign or the equality of two such diagrams. Hence an unordered map with diagrams as keys, used together with any other calls, is a map from functions to values: a lookup finds the value inserted for the function of the diagram, whatever object holds it, and nothing else. Elements survive a reordering: their keys and all diagrams equal to the keys still find them. A diagram of the same function built after a reordering can miss the element.", "quantifier": "every program, every interleaving of library calls, insertions, deletions and rehashes, every number of buckets and every placement of nodes in memory", "why_tests_cant": "the hash is an address; a lookup goes wrong only for particular collisions, collections and reorderings between the operations", "anchors": ["libteddy/details/diagram.hpp:183-211 std::hash, std::equal_to", "libteddy/details/diagram.hpp equals, unsafe_get_root", "libteddy/details/node_manager.hpp sift_variables, collect_garbage"]}
{"id": "C81", "title": "The memory of the pool follows the nodes that the program needs", "statement": "A construction enlarges the node pool only if almost all cells (more than the number of cells minus the threshold) hold nodes that belong to objects of the program before or after the call; garbage, cached results and intermediate results never make the pool grow. Hence a program of constructions, assignments and destructions that never needs more than P nodes at a time keeps the pool within the initial size or one extra chunk above 5/4 P (default ratio), however long it runs. The rule given in the README (0.05 of the pool size) is not the one implemented.", "quantifier": "every program of these calls of any length, every order, pool size, chunk size, threshold and cache", "why_tests_cant": "growth depends on the history of collections and on the nodes that are protected in the middle of an operation; tests run with large pools that never grow", "anchors": ["libteddy/details/node_manager.hpp:1021-1071 make_new_node", "libteddy/details/node_pool.hpp grow", "libteddy/details/node_manager.hpp:621-700 force_gc, collect_garbage", "README.md Node pool"]}
{"id": "C82", "title": "Assertions only stop a program", "statement": "Compiling with NDEBUG changes nothing but the stops: in every state, every sequence of calls, the constructor and every query give with assertions exactly what they give without (including every other error), or they stop at an assertion. A program whose calls meet their preconditions never stops at an assertion, so both builds construct the same managers and the same objects. (The example soft_x.cpp does stop in a build with assertions.)", "quantifier": "every program, every state of the manager (reachable or not), every configuration and argument", "why_tests_cant": "the tests are built one way; that no assertion has an effect, and that no assertion of legal programs can fail, is a statement about all executions of two builds", "anchors": ["README.md Assertions", "libteddy/details/node_manager.hpp:350-360, 409, 417, 441, 553-576, 1076", "libteddy/details/diagram_manager.hpp:914, 926, 988, 1410, 1425", "libteddy/details/probabilities.hpp:37", "examples/soft_x.cpp:8-36"]}
{"id": "C83", "title": "Transform and cofactors are linear in the diagram", "statement": "In every state that a program can reach, transform (and negate) of a diagram makes exactly one call of its recursive function and one more for every edge of the diagram: every internal node is expanded once, however many paths lead to it. get_cofactor by one or by several variables makes no more. So for a diagram of N nodes with domains of at most d values the number of calls is at most 1 + d (N - 1).", "quantifier": "every program, diagram, terminal transformation, set of fixed variables, and state of the manager", "why_tests_cant": "tests compare results; a memo table that is missed (wrong key, entered too late, lost) leaves every result right and only makes the time exponential in the number of variables", "anchors": ["libteddy/details/diagram_manager.hpp:1617-1830"]}
{"id": "C84", "title": "Sizes of results", "statement": "While no reordering has taken place, the diagram of a function computed point by point from the functions of other diagrams has at most the product of their numbers of nodes: apply at most n m nodes, a fold at most the product, transform at most n, and negate (or any other injection of the values) exactly n; a partial derivative at most n squared. Fixing values of variables makes no diagram larger. No diagram has more nodes than the complete tree over the domains.", "quantifier": "every program without reordering, every function of any number of arguments, every way in which the result was constructed", "why_tests_cant": "a bound for all functions; a missed reduction or a duplicated node leaves all values right and shows only as growth for some functions", "anchors": ["libteddy/details/diagram_manager.hpp:1180-1396, 1617-1830"]}
{"id": "C85", "title": "The diagram of a function is the same in every manager", "statement": "Two diagrams in two managers with the same domains and the same order of variables, neither of which has been reordered, are isomorphic graphs (the same terminals, the same variables, the same sons in the same places, with only the addresses changed) exactly if they represent the same function. The reported numbers of nodes are then equal. After reorderings that end in the same order this holds for diagrams that were reduced.", "quantifier": "every pair of managers, with any pool sizes, table capacities, cache sizes, ratios, addresses and build flags; every pair of programs without reordering", "why_tests_cant": "pairs of arbitrary programs; a reduction missed in one way of constructing a function leaves all its values right", "anchors": ["libteddy/details/node_manager.hpp: make_internal_node, make_terminal_node", "libteddy/details/diagram_manager.hpp: get_node_count"]}
{"id": "C86", "title": "Managers that hold the same functions", "statement": "Two managers with the same domains and the same order, neither reordered, whose objects hold the same set of functions have after force_gc the same nodes up to addresses: one correspondence covers all nodes of both, and get_node_count reports the same number. It depends only on the functions held, not on the calls made, the number of objects per function or the configuration. In particular a manager that comes back to the same functions comes back to the same number of nodes.", "quantifier": "every pair of managers and every pair of programs without reordering", "why_tests_cant": "pairs of arbitrary programs; a node leaked by one rare sequence of calls, or a node duplicated between two diagrams, changes no value", "anchors": ["libteddy/details/node_manager.hpp: force_gc, get_node_count, make_internal_node"]}
