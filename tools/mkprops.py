#!/usr/bin/env python3
"""Writes /verif/properties.jsonl from the table below (one JSON object per line)."""
import json
D="libteddy/details/"
P=[]
def p(title, statement, quantifier, why, *anchors):
    P.append(dict(id="C%02d"%(len(P)+1), title=title, statement=statement, quantifier=quantifier, why_tests_cant=why, anchors=list(anchors)))
dm=D+"diagram_manager.hpp: "; nm=D+"node_manager.hpp: "; ht=D+"hash_tables.hpp: "; rm=D+"reliability_manager.hpp: "
p("apply computes the operator pointwise",
  "For live diagrams f and g and a binary operator Op whose value domain covers them, apply<Op>(f,g) returns a diagram h such that evaluate(h,x) equals Op(evaluate(f,x), evaluate(g,x)) for every valid assignment x.",
  "every manager kind, variable order, pool size, operator, pair of diagrams, assignment, and every state the manager can be in (any earlier history, any cache contents, garbage collection or table resizing in the middle of the call)",
  "the recursion interleaves with caching, garbage collection and rehashing; tests see one seed and one pool size, the claim is about all heaps",
  dm+"apply, apply_impl", nm+"make_internal_node, make_terminal_node, cache_find, cache_put", D+"operators.hpp")
p("equals is exactly functional equality",
  "In a manager whose variables have never been reordered, two live diagrams compare equal if and only if they evaluate to the same value on every valid assignment.",
  "every history of API calls without reordering, every pair of live diagrams",
  "canonicity is a global invariant of the node store over all histories; a test can only compare chosen pairs",
  D+"diagram.hpp: equals", nm+"make_internal_node, is_redundant", ht+"unique_table::find")
p("No operation changes a diagram the user still holds",
  "Any API call, including calls that trigger automatic garbage collection, leaves the value of every live diagram unchanged on every assignment.",
  "every history, every live handle, every assignment, every pool size and garbage collection ratio",
  "a premature free shows only when the freed cell is reused; the number of interleavings of frees and reuse is unbounded",
  nm+"force_gc, collect_garbage, make_new_node", D+"node_pool.hpp")
p("force_gc reclaims everything unreachable",
  "After force_gc the number of nodes the manager reports equals the number of distinct nodes reachable from live diagrams, and no reachable node is reclaimed.",
  "every history made of the mark-balanced API calls (no expression tree, no MNF conversion), every set of live handles",
  "completeness of collection is a statement about all heap shapes",
  nm+"force_gc, collect_garbage, can_be_gced", dm+"force_gc, get_node_count")
p("The reported node count is exact",
  "get_node_count() always equals the number of nodes currently stored, and get_node_count(d) equals the number of distinct nodes reachable from d.",
  "every history, every diagram",
  "the counter is updated in several places, including frees inside variable swapping; drift shows only on rare paths",
  nm+"get_node_count, make_new_node, delete_node, traverse_pre")
p("evaluate is total and depends only on the relevant variables",
  "evaluate terminates with a stored terminal value for every valid assignment, touches only live nodes, and assignments that agree on the variables occurring in the diagram give equal results.",
  "every reachable manager state, every live diagram, every valid assignment",
  "assignments are exponentially many and dangling sons only matter on some paths",
  dm+"evaluate")
p("from_vector represents its truth vector",
  "from_vector(v) returns a diagram whose value on x is the entry of v at the mixed-radix position of x, where the variable on the last level changes fastest.",
  "every manager with at least one variable, every order, every vector of the right length with allowed values",
  "the stack algorithm is index arithmetic over all domain tuples",
  dm+"from_vector")
p("to_vector lists the function in order and round-trips",
  "to_vector(d) lists evaluate(d,x) over all valid x in mixed-radix order; from_vector(to_vector(d)) equals d and to_vector(from_vector(v)) equals v (without reordering).",
  "every live diagram, every order and domain tuple",
  "round-trip over all functions",
  dm+"to_vector, to_vector_g, from_vector")
p("satisfy_count counts assignments",
  "satisfy_count(v,d) equals the number of valid assignments x with evaluate(d,x) = v, provided the number of assignments fits the arithmetic used.",
  "every diagram, value, order and domain tuple",
  "counting argument over skipped levels; the number of assignments is exponential",
  dm+"satisfy_count", nm+"domain_product, traverse_post")
p("satisfy_one is sound and complete",
  "satisfy_one(v,d) returns an assignment on which d evaluates to v if one exists and nothing otherwise.",
  "every diagram and value",
  "completeness quantifies over all assignments",
  dm+"satisfy_one, satisfy_one_impl")
p("satisfy_all enumerates exactly the satisfying assignments",
  "satisfy_all(v,d) outputs every valid assignment x with evaluate(d,x)=v exactly once, in lexicographic order of levels, and nothing else.",
  "every diagram and value",
  "exactness over exponentially many assignments",
  dm+"satisfy_all, satisfy_all_impl")
p("get_cofactor fixes one variable",
  "get_cofactor(d,i,k) evaluates on x to evaluate(d, x with x_i replaced by k).",
  "every diagram, variable, value and reachable manager state",
  "memoised recursion under garbage collection",
  dm+"get_cofactor, get_cofactor_impl")
p("get_cofactor fixes several variables",
  "get_cofactor(d, {(i1,k1),...,(in,kn)}) with distinct indices evaluates on x to d at x with every listed variable replaced, and equals the iterated single cofactors.",
  "every diagram and list of distinct variables",
  "the early exit counter and the memo table interact; only all heaps settle it",
  dm+"get_cofactor (vector), get_cofactor_impl (vector)")
p("transform applies the function to every value",
  "transform(d,t) evaluates on x to t(evaluate(d,x)); negate on Boolean diagrams is complement and is an involution under equals.",
  "every diagram, every total function on its values with results in the allowed range",
  "quantifies over functions",
  dm+"transform, transform_impl, negate")
p("reduce is the identity on canonical diagrams",
  "Without reordering, reduce(d) equals d.",
  "every history without reordering",
  "follows from canonicity of the whole store",
  dm+"reduce")
p("Folds compute the fold of the operator",
  "left_fold<Op>(d1..dn) and tree_fold<Op>(d1..dn) evaluate on x to the left-to-right, respectively balanced, combination of the values; for an associative Op both compare equal.",
  "every non-empty sequence of diagrams of every length, every x",
  "length and shape are unbounded",
  dm+"left_fold, tree_fold")
p("from_expression_tree computes the expression",
  "from_expression_tree(t) evaluates on x to the value of the expression t at x.",
  "every expression tree, every x, every reachable state",
  "trees are unbounded",
  dm+"from_expression_tree, from_expression_tree_impl, apply_n_impl")
p("from_expression_tree leaves nothing behind",
  "After from_expression_tree and destruction of all results, force_gc reclaims every intermediate node, and other live diagrams can still be queried correctly.",
  "every expression tree",
  "leaks are invisible to functional tests",
  dm+"from_expression_tree_impl, apply_n_impl", nm+"traverse_post")
p("get_dependency_set is exact",
  "Without reordering, an index is listed by get_dependency_set(d), exactly once, if and only if some two valid assignments differing only in that variable give d different values.",
  "every diagram",
  "semantic dependence quantifies over all pairs of assignments",
  dm+"get_dependency_set, get_dependency_set_g", nm+"traverse_pre")
p("The apply cache is transparent",
  "The function computed by any operation does not depend on what is in the apply cache, on its capacity, or on clear_cache / set_cache_ratio calls.",
  "every pair of histories that differ only in cache management calls and ratios",
  "cache hits depend on addresses and past operations",
  ht+"apply_cache", nm+"cache_find, cache_put, adjust_caches")
p("Modulo operators with different moduli do not interfere",
  "apply<PLUS<4>>(f,g) followed by apply<PLUS<2>>(f,g) returns the sum modulo 2.",
  "every pair of moduli, every pair of diagrams",
  "needs two instantiations on the same operands in one manager; each is correct alone",
  D+"operators.hpp: PLUS, MULTIPLIES", ht+"apply_cache::find")
p("force_reorder preserves every function",
  "force_reorder leaves the value of every live diagram unchanged on every assignment.",
  "every reachable state, every live diagram, every assignment",
  "sifting performs quadratically many in-place rewrites with frees in between",
  nm+"sift_variables, swap_variable_with_next, swap_node_with_next, dec_ref_try_gc", dm+"force_reorder")
p("The variable order is always a permutation",
  "get_order is at all times a permutation of the variable indices and the level of every variable is its position in it.",
  "every history including reordering",
  "invariant over histories",
  nm+"swap_variable_with_next, sift_variables, node_manager constructor")
p("equals stays exact after force_reorder",
  "After force_reorder, newly created diagrams still compare equal to live diagrams with the same function.",
  "every reachable state",
  "needs a state in which a swapped node does not depend on the next variable",
  nm+"swap_node_with_next", ht+"unique_table::merge")
p("apply is correct after force_reorder",
  "apply after force_reorder computes the operator pointwise.",
  "every reachable state",
  "needs a freed cell to be reused between reorder and a cache hit",
  nm+"dec_ref_try_gc, sift_variables", dm+"force_reorder")
p("Automatic reordering never invalidates the returned diagram",
  "With set_auto_reorder(true), the diagram returned by apply is live and has the right function.",
  "every history with automatic reordering",
  "requires reordering exactly while the result is protected by its mark only",
  dm+"apply", nm+"run_deferred, make_internal_node, dec_ref_try_gc")
p("The node pool never hands out a live node and does not run dry",
  "Every node creation returns a cell that is not in use; with an overflow pool of at least one node and a collection threshold of at least one, creation always succeeds.",
  "every history, every pool size",
  "depends on arithmetic between ratio, node count and pool sizes at the moment the pool is empty",
  D+"node_pool.hpp", nm+"make_new_node")
p("Small pools or ratio zero do not break allocation",
  "Node creation succeeds for every pool size accepted by the constructor and every accepted gc ratio.",
  "every pool size and ratio in [0,1]",
  "boundary combination of truncation and an unproductive collection",
  nm+"make_new_node, set_gc_ratio", D+"node_pool.hpp: create")
p("The packed node word behaves like independent fields",
  "Marking, marking as unused and counting references on the 32-bit word act on independent fields as long as the count stays below 2^29.",
  "every word and every sequence of operations",
  "2^32 words and unbounded sequences",
  D+"node.hpp: bits_, MarkM, UsedM, LeafM, RefsM")
p("Reference counts cannot corrupt a node",
  "Incrementing a reference count never changes whether a node is a leaf.",
  "every reference count up to the documented maximum",
  "needs 2^29 references",
  D+"node.hpp: inc_ref_count, RefsMax")
p("Handles balance references",
  "Copying, moving, assigning, swapping and destroying diagrams in any order keeps every referenced node alive exactly as long as some handle refers to it, and self-assignment is harmless.",
  "every sequence of handle operations",
  "unbounded sequences",
  D+"diagram.hpp")
p("Copying any diagram object is safe",
  "Every diagram object, including default-constructed and moved-from ones, can be copied.",
  "every diagram object state",
  "tests copy only live diagrams",
  D+"diagram.hpp: copy constructor, default constructor")
p("Unique tables behave as sets keyed by sons",
  "find returns a stored node if and only if one with the same sons is stored, through any sequence of insert, erase, merge, clear and resize.",
  "every sequence of table operations, every hash placement",
  "collisions and resizes depend on addresses",
  ht+"unique_table")
p("The apply cache only returns what was put",
  "find(op,l,r) returns nothing or the result most recently put for exactly (op,l,r).",
  "every sequence of put, clear, grow and cleanup",
  "collisions depend on addresses",
  ht+"apply_cache")
p("Table capacities are adequate",
  "The capacity chosen for a requested size is one of the listed primes and exceeds the request whenever a listed prime does; resizing keeps the load at most 3/4 while that is possible.",
  "every requested size",
  "boundary at each of 24 thresholds and beyond the last",
  ht+"table_base::get_gte_capacity, unique_table::adjust_capacity")
p("sort sorts",
  "utils::sort returns a permutation of its input ordered by the comparator.",
  "every vector and every strict weak order",
  "all lengths and orders",
  D+"tools.hpp: sort")
p("Sifting never ends with more nodes than the best position seen",
  "place_variable leaves a variable at a level whose node count was minimal among the visited ones, and sifting visits every variable once.",
  "every reachable state",
  "depends on the counts of all intermediate states",
  nm+"sift_variables")
p("domain_product is the product of domains",
  "domain_product(a,b) equals the number of value combinations of levels a..b-1 whenever that number fits in 64 bits.",
  "every manager kind, every pair of levels",
  "overflow only for large variable counts",
  nm+"domain_product", D+"tools.hpp: int_pow")
p("bool_cube stores independent entries",
  "get after set returns the stored value and other entries are unchanged.",
  "every size, index and legal value",
  "all index pairs",
  D+"pla_file.hpp: bool_cube")
p("from_pla computes the sum of products",
  "from_pla(file) returns for each output the function that is 1 exactly on the assignments matched by some line with output 1.",
  "every well-formed file, both fold types",
  "all files",
  dm+"from_pla", D+"pla_file.hpp")
p("from_pla accepts cubes without literals",
  "A line consisting of don't-cares only contributes the constant 1.",
  "every file containing such a line",
  "boundary input",
  dm+"from_pla, left_fold")
p("load_file accepts exactly the supported grammar",
  "A text with a header (.i .o .p) followed by well-formed cube lines is loaded with exactly those cubes and anything malformed is rejected.",
  "every text",
  "all texts",
  D+"pla_file.hpp: load_file")
p("dpld is the direct partial logic derivative",
  "dpld({i,a,b},c,f) evaluates on x to 1 iff c(f(x with x_i=a), f(x with x_i=b)), for every derivative type.",
  "every diagram, change, variable and derivative type",
  "two-diagram recursion with variable skipping",
  rm+"dpld, dpld_impl", D+"dplds.hpp")
p("to_dpld_e extends a derivative by its variable",
  "to_dpld_e(a,i,d) evaluates to d(x) when x_i=a and to Undefined otherwise, for d independent of x_i.",
  "every derivative diagram and every position of the variable in the order",
  "insertion of a level at every depth",
  rm+"to_dpld_e, to_dpld_e_impl")
p("calculate_probability is the exact probability",
  "calculate_probability(j,ps,f) equals the sum over all x with f(x)=j of the product of component state probabilities (over exact arithmetic).",
  "every diagram without undefined values, every probability matrix",
  "sum over exponentially many states",
  rm+"calculate_probability, calculate_ntps_post_impl")
p("calculate_probabilities agrees with the bottom-up computation",
  "After calculate_probabilities(ps,f), get_probability(j) equals the probability that f is in state j for every j.",
  "every diagram, every probability matrix with rows summing to one",
  "level-order traversal over all DAGs",
  rm+"calculate_probabilities, calculate_ntps_level_impl, get_probability", nm+"traverse_level")
p("Availability and unavailability are complementary",
  "calculate_availability(j) + calculate_unavailability(j) = 1, and each is the probability of f>=j, respectively f<j.",
  "every diagram without undefined values, state, probability matrix with rows summing to one",
  "real arithmetic over all functions",
  rm+"calculate_availability, calculate_unavailability, get_availability, get_unavailability")
p("Importance measures match their definitions",
  "structural_importance(d) is the fraction of assignments where d is 1; birnbaum_importance is the probability that d is 1; state_frequency(f,j) is the fraction with value j.",
  "every diagram",
  "counting over all assignments",
  rm+"structural_importance, birnbaum_importance, state_frequency")
p("mcvs lists minimal cut vectors",
  "mcvs(f,j) lists exactly the vectors x with f(x)<j such that increasing any single component that can be increased gives f>=j (at least one can be), once each.",
  "every structure function and state",
  "exactness over all vectors",
  rm+"mcvs, mcvs_g", D+"operators.hpp: PI_CONJ")
p("mpvs lists minimal path vectors",
  "mpvs(f,j) lists exactly the vectors x with f(x)>=j such that decreasing any single component gives f<j.",
  "every structure function and state",
  "exactness over all vectors",
  rm+"mpvs, mpvs_g")
p("Probabilities of extended derivatives are well defined",
  "calculate_probability on the result of to_dpld_e gives the probability of the requested value.",
  "every derivative",
  "reads data of a terminal that nothing initialises",
  rm+"calculate_ntps_post_impl", nm+"for_each_terminal_node")
p("The constructor builds a consistent order",
  "A constructor call with a permutation as order yields mutually inverse level and index maps, and a non-permutation of the right length is rejected.",
  "every order vector",
  "all vectors",
  nm+"node_manager constructor, check_distinct", dm+"default_or_fwd")
p("Results do not depend on memory placement",
  "Every observable result (values, equality, counts) is the same for every placement of nodes in memory.",
  "every pair of address placements, every history without reordering",
  "address layout is chosen by the allocator",
  D+"tools.hpp: do_hash", nm+"cache_find")
p("Reordering with undefined values is memory safe",
  "force_reorder on a manager that holds diagrams with Undefined values does not access memory out of bounds.",
  "every reachable state",
  "needs the Undefined terminal to be freed by a swap",
  nm+"dec_ref_try_gc, special_to_index")
p("Queries leave the manager unchanged",
  "Counting, satisfying, dependency and probability queries restore every internal flag, so the next operation behaves as if the query had not happened.",
  "every diagram in a state without leftover marks, every query",
  "marks are toggled by two traversals over arbitrary DAGs",
  nm+"traverse_pre, traverse_post, traverse_level")
p("Operators implement their truth tables and may be short-circuited",
  "Every operator equals its mathematical definition on its value domain, commutative operators are commutative, and if it is determined by one operand it gives that result for all values of the other.",
  "all operand values in the operator's domain",
  "values range over integers",
  D+"operators.hpp")
p("Logical operators are sound beyond Boolean values",
  "apply<OR> on diagrams with values above 1 computes the same value regardless of diagram structure.",
  "all multi-valued diagrams",
  "the fault depends on which operand is terminal during recursion",
  D+"operators.hpp: OR", dm+"apply_impl")
p("variable and constant have the expected functions",
  "variable(i) evaluates to x_i, variable_not(i) to 1-x_i, constant(v) to v, and repeated calls return equal diagrams.",
  "every index, value and history",
  "depends on histories through collection and re-creation of terminals",
  dm+"variable, variable_impl, variable_not, constant")
p("The n-ary form of an operator folds it",
  "Applying an operator to n values gives the right fold of the binary operator.",
  "every operator with n-ary form, every n, all values",
  "n is unbounded",
  D+"operators.hpp: make_nary")
p("The diagram is the smallest possible",
  "Without reordering, get_node_count(d) equals the number of distinct subfunctions of d in the current order, hence it is determined by the function and no ordered diagram with the same order is smaller.",
  "every history, every diagram",
  "minimality quantifies over all diagrams",
  dm+"get_node_count", nm+"make_internal_node")
p("Truth tables of the test library agree with diagrams",
  "The reference implementation's index mapping is a bijection between assignments and positions and its reliability functions satisfy the same specifications as the diagram functions.",
  "every domain tuple and table",
  "the oracle itself is only tested against the library",
  "libtsl/truth_table.cpp", "libtsl/truth_table.hpp", "libtsl/truth_table_reliability.hpp")
json_lines=[json.dumps(x,ensure_ascii=False) for x in P]
open("/verif/properties.jsonl","w").write("\n".join(json_lines)+"\n")
print(len(P))
