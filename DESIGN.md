# Machine-checked model of TeDDy (MichalMrena/DecisionDiagrams)

The C++ in `/repo` is read as text; nothing is built or run. The model is Rocq (Coq 8.16.1), in `rocq/theories`. Every definition of a model file cites the file and the lines it follows.

Contents: 1 model, 2 simplifications, 3 specification and proof method, 4 trusted base, 5 properties, 6 findings, 7 seeded errors.

## 1. What is modelled

One Gallina function per C++ function. A run has one of the outcomes `Ok`, `Err e` (a failed assertion or undefined behaviour, by name) and `Fuel` (the model did not follow a loop to its end; the theorems exclude it).

| Model file | C++ | Content |
|---|---|---|
| `Base` | `node_manager.hpp:240-255` and members of the other classes | manager state, configuration, state monad |
| `Ops` | `operators.hpp` | operators with their ids, commutativity flags and signed overflow |
| `Tables` | `hash_tables.hpp`, `node_pool.hpp`, `tools.hpp:61-97` | hashing on 64-bit words, unique tables and apply cache as lists of buckets, pool with free list and chunk |
| `NodeManager` | `node_manager.hpp`, `diagram.hpp` | node creation, reference counts and marks, garbage collection, cache access, constructor, handles |
| `Tools` | `tools.hpp` | heap sort, `int_pow` |
| `Sift` | `node_manager.hpp:1235-1471` | variable swap, sifting, deferred reordering |
| `DiagramManager` | `diagram_manager.hpp` | variables, constants, from_vector, to_vector, apply, folds, cofactors, transform, expression trees, evaluate |
| `Reliability` | `reliability_manager.hpp`, `dplds.hpp` | dpld, to_dpld_e, to_mnf |
| `Queries` | `node_manager.hpp:572-971`, `diagram_manager.hpp:1416-1868` | traversals with mark toggling, node counts, satisfy_count/one/all, dependency set, domain_product |
| `Cost` | `diagram_manager.hpp:1398-1612`, `node_manager.hpp:724-734` | evaluate, satisfy_count, satisfy_one and satisfy_all with counters of loop tests, calls, operations, sons and iterations of domain_product |
| `Calls` | `diagram_manager.hpp:1617-1830` | transform and get_cofactor with a counter of the calls of their recursive functions (C83) |
| `WordSort` | `tools.hpp:224-280` | sort with indices modulo a word size and accesses outside the vector as an outcome (C36) |
| `Arrays` | `diagram_manager.hpp:1486-1612` | satisfy_one and satisfy_all into std::array, satisfy_all_g with an iterator into a buffer |
| `Mcvs` | `reliability_manager.hpp:1002-1078` | minimal cut and path vectors as programs over the operations above |
| `Prob` | `reliability_manager.hpp:532-779, 959-1155` | probabilities, availability, importance, counting in node data; the arithmetic is a parameter |
| `Pla` | `pla_file.hpp`, `diagram_manager.hpp:1046-1121` | bool_cube, text and option parsing, load_file, from_pla |
| `World` | `diagram.hpp` and the public interface | client programs: named diagram objects and calls |
| `NodeBits` | `node.hpp:173-356`, `operators.hpp:11-21` | the packed 32-bit word; n-ary operators |
| `Links` | `hash_tables.hpp:354-679` | unique tables with `next_` pointers shared with the free list |
| `Pool` | `node_pool.hpp`, `node.hpp:99-281` | chunks, object lifetimes, son arrays, destructor |
| `Sizes` | `node_manager.hpp:324-402, 1014-1047`, `core.hpp:184-310` | table and cache sizes and thresholds computed in binary64, default pool sizes |
| `Symbolic` | `probabilities.hpp:106-380`, `reliability_manager.hpp:715-764` | distributions over time, expressions, symbolic_availability; in real numbers |
| `Dot` | `node_manager.hpp:687-709, 764-793, 1082-1198` | to_dot_graph of a diagram and of the manager, as the string written |
| `Tsl` | `libtsl/truth_table*.{hpp,cpp}` | truth tables of the test library |
| `TslIter` | `libtsl/iterators.*`, `libtsl/expressions.*`, `libtsl/generators.hpp` (make_diagram), `tests/setup.hpp` (make_vector) | enumeration of the domain, random expressions, their values and diagrams |
| `Queens` | `examples/n_queens.cpp:12-138` | the example as a list of calls for every n; the clock and the output are not modelled |
| `Keys` | `diagram.hpp:183-211` std::hash, std::equal_to of diagrams | an unordered map of the standard library with diagrams as keys: buckets, hashes stored with the elements, keys kept as diagram objects; of the standard only try_emplace, find, erase by key and rehash |

Pointers are `positive` cell numbers. `c_ptr : positive -> N` is an arbitrary address oracle, used for hashes and for the pointer comparison of the cache. Every theorem is for every oracle, so for every placement in memory. `c_dbg` says whether assertions are compiled in, `c_trap` whether signed overflow is an error or wraps; theorems hold for both values unless they name one.

## 2. Simplifications

- Allocation never fails, except for `vector::reserve` in load_file (a parameter).
- In histories the ratios of the manager (`double`) are arbitrary functions from the node count to a threshold and the table capacities of the constructor arbitrary numbers. `Sizes` computes both as the code does, and C65_default_manager shows that they meet the hypotheses on histories.
- In the capacity policy of the tables, `size / 0.75` is computed exactly (C35_double_division relates it to binary64).
- Cached hash values are recomputed. The reachable chain of a bucket is a list in `Tables`; `Links` has the pointers and is proved against its own specification. `Trace` and `TraceManager` connect the two: whatever the manager does with its tables and its pool is an allowed program of `Links` that ends with the same chains (C73). The program is the existence part of a simulation: the theorems do not say which table call belongs to which line of the manager.
- The free list of `Pool` is a list; `Links` has its pointers. `PoolTrace` connects `Pool` to the manager (C74). The manager has no arrays of sons; in the program of the pool each array is made right before the node that gets it. The code makes it earlier and gives it back with delete_son_container if the node exists already; that pair of calls is left out. Arrays of buckets have their lifetimes in `Buckets`, without contents: its programs are arbitrary lists of the calls that the manager makes, whichever the contents are (C77).
- Node data of reliability managers is kept in a map beside the state. A cell without an entry holds an indeterminate value. Reused cells keep old numbers, as in the code.
- Local diagram objects of from_pla, mcvs and mpvs get names that the caller does not use. Moves inside a growing vector are left out.
- `Tools.heapsort` computes indices in unbounded arithmetic; the code uses uint32. `WordSort.v` has the function with wrapping indices, and C36_sort_uint32 proves the two equal up to 2^31 elements. Beyond that the claim is not made: with 3-bit indices, 5 elements make sift_down loop for ever (C36_word_sharp_forever).
- Counts of the test library are unbounded.
- `Symbolic` has real numbers instead of doubles, and terms with an evaluation function instead of GiNaC expressions (GiNaC simplifies while building; only the value at a time is claimed). Printing to LaTeX and Matlab is left out. `pow(0, y)` with y < 0 is 0 instead of infinite; only C66_weibull_density speaks about densities of that distribution, for t > 0.
- C++ expressions that do not compile when instantiated are not modelled: `apply_n`, the move constructor of `node_pool`, `get_dependency_set_g`, `apply` of the test library.
- `Dot` returns the text as one string; std::to_string is decimal notation.
- Not modelled: iostreams (load_file receives the text), time measurement, the random generators (`std::mt19937`, `std::ranlux48`; what they return is quantified over), the generators of random probabilities in libtsl.

## 3. Specification and proof method

1. `Ev s a rho v` (`Heap`): cell `a` denotes value `v` at assignment `rho`, an inductive relation that does not use the model functions.
2. Invariant `WF` (`Inv`): tables hold exactly the live internal nodes in the right bucket, terminals, ordered sons, exact reference counts (handles + edges), partition of the pool, exact node counter, semantically valid cache, order permutation, canonicity. It is parametrised by ghost data so that it also holds in the middle of operations and swaps.
3. Each function has a weakest-precondition lemma (`wp`): it keeps `WF`, keeps every node that is held (reachable from a handle or a marked node), denotes the specified function and has no outcome `Fuel` or `Err` other than the stated ones.
4. Client programs: `history c ops strict p ks s vars A` says that program `ks` ran from the constructor to manager state `s` and objects `vars`, while the specification machine `spec` (`WorldSpec`, functions of assignments instead of nodes) went to `A`. Theorems about programs are by induction over histories.
5. Specifications live in files of their own: `WorldSpec OpSpec VecSpec QuerySpec PlaSpec VectorSpec ProbSpec TableSpec PoolSpec DotSpec CostSpec AutoSpec MnfSpec QueensSpec KeysSpec`.
6. Property theorems are in `Props*.v` and `Refuted.v`, each with `Print Assumptions`. Concrete cases are `Example`s in the same file. Some apply the theorem, some only compute the result at inputs that meet its hypotheses, and one case can serve several theorems. A refutation is its own case.
7. Where the code violates a property, a `..._refuted` theorem exhibits a concrete history by computation; usually a positive theorem states what does hold.

## 4. Trusted base

- The Coq kernel with its virtual machine (`vm_compute`); `coqchk` re-checks the compiled files.
- The reading of the C++ recorded in the comments of the model files.
- Assumptions (`Print Assumptions` over all 297 distinct theorems of the manifest): "Closed under the global context" for 266, and for the other 31

| Theorem | Axioms |
|---|---|
| C35_double_division, C48_state_frequency_double, C62_count_double, C62_count_double_refuted, all of C65 to C68, C82_symbolic | `ClassicalDedekindReals.sig_not_dec`, `ClassicalDedekindReals.sig_forall_dec`, `FunctionalExtensionality.functional_extensionality_dep`, `Classical_Prop.classic` (the real numbers of the standard library, directly or through Flocq) |

- Libraries: standard library, std++, Flocq (the versions installed with Coq 8.16.1). No axiom of our own, no admitted proof.
- For the theorems above other than C66 and C67: doubles are IEEE binary64 with round to nearest even, evaluated without excess precision.

## 5. Properties

Statements are in `properties.jsonl`, theorem names and status in `MANIFEST.json`. H = theorem over all histories; I = invariant of a machine over all operation lists; F = theorem about a function for all arguments; R = refuted by a concrete execution.

| Id | Modelled by | How |
|---|---|---|
| C01 apply | `DiagramManager.apply_impl` | H, induction on levels with cache and collection in between; spec `OpSpec.op_math` |
| C02 equals | root cells, canonicity in `WF` | H |
| C03 held diagrams | all calls of `World` | H, every call keeps held nodes; every call succeeds |
| C04 force_gc | `collect_garbage` | H, what remains is exactly what is reachable |
| C05 node counts | counters, `diagram_node_count` | H |
| C06 evaluate | `evaluate_loop` | H |
| C07, C08 vectors | `from_vector`, `to_vector` | H, spec `VecSpec` |
| C09-C11 satisfy_* | `Queries`, `Arrays` | H, spec `QuerySpec` (lists of assignments); R for std::array and for iterators into a buffer |
| C12, C13 cofactors | `cofactor_impl`, `cofactors_impl` | H |
| C14, C15 transform, reduce | `transform_impl` | H |
| C16 folds | `left_fold`, `tree_fold` | H, spec `balanced` |
| C17 expression trees | `from_expression_impl`, `apply_n_impl` | H |
| C18 leaves nothing behind | same | R |
| C19 dependency set | `get_dependency_set` | H |
| C20 cache transparent | cache on and off | H, both runs have the same functions |
| C21 moduli | operation ids | R |
| C22, C23 force_reorder | `Sift` | H, invariant for the middle of a swap |
| C24-C26 after reordering | same | R; C25_clear_cache_suffices and C26_handle_first_suffices (a repaired apply) are H |
| C27 pool | `pool_create`, `ensure_available` | H |
| C28 small pools | same | R |
| C29 packed word | `NodeBits` | I, refinement to independent fields |
| C30 reference counts | same | R |
| C31 balance | handles | H |
| C32 copying | `diagram_copy` of null | R |
| C33 unique tables | `Links` | I, refinement to sets; R for clear |
| C34 apply cache | `Tables` | I over put/clear/grow/clean |
| C35 capacities | capacity table, binary64 | F |
| C36 sort | `Tools.heapsort`, `WordSort.sort_word` | F, permutation and order; equality of the two up to half the word size by induction on fuel |
| C37 sifting | `place_variable` | F/H; R for the whole reorder |
| C38 domain_product | `Queries` | H; R for overflow |
| C39 bool_cube | `Pla` | I |
| C40, C41 from_pla | `Pla.from_pla_calls` | H; R for cubes without literals |
| C42 load_file | `Pla.load_file` | F, exact grammar `PlaSpec`; R |
| C43, C44 derivatives | `Reliability` | H; R after reordering |
| C45-C47 probabilities | `Prob` | H in every commutative ring; R for negative states and stale data |
| C48 importance | `Prob` | H, exact and in binary64 |
| C49, C50 mcvs, mpvs | `Mcvs` | H, spec `VectorSpec`; R for mpvs |
| C51 extended derivatives | `Prob` | R |
| C52 constructor | `construct` | F; R |
| C53 placement | address oracle | H, two oracles give the same functions |
| C54 reorder with undefined | `dec_ref_try_gc` | H |
| C55 queries | marks | H |
| C56, C57, C59 operators | `Ops`, `NodeBits` | F; R for OR beyond Boolean values |
| C58 variable, constant | `DiagramManager` | H |
| C60 smallest | canonicity | H, any ordered diagram of the function has at least as many nodes |
| C61 test tables | `Tsl` | F, same specifications as the diagrams |
| C62 counting in doubles | `Prob` | H up to 2^53; R beyond |
| C63 Fussell-Vesely | `to_mnf`, `Prob`; `MnfSpec` says which set `to_mnf` makes | H bounds, exact set, importance of convex functions, derivatives of coherent systems are convex; R (value, order of the variables, marks) |
| C64 lifetimes | `Pool` | I, refinement to ownership |
| C65 constructor sizes | `Sizes` | F, rounding error bounds; R for 0 and 1 variables |
| C66 distributions over time | `Symbolic` | F, derivatives; R for "is a probability" |
| C67 symbolic availability | `Symbolic` | H |
| C68 rounding errors | `Prob` with binary64 | H, error bound by induction over the levels; for the traversal from the root an invariant bounding the error of the sum over all nodes of (data times expected value) by the number of arcs passed |
| C69 dot output | `Dot` | H, the text determines the graph; R for the whole manager with undefined values |
| C70 documented complexity | `Cost` | H for evaluate, satisfy_count and Boolean satisfy_one; counterexamples for all numbers of variables (parity, conjunction), spec `CostSpec`; the counted functions are proved equal to the model without the counter |
| C71 automatic reordering | `Sift.run_deferred`, `NodeManager.make_new_node` | H over programs with mode switches (spec `AutoSpec`); simulation by the manager without the mode for calls without growth; R for switching off |
| C72 reduce after a reordering | `DiagramManager.reduce`, `Tables.tab_find`, `tab_adjust` | H with the invariant "every node of the result is the first of its chain", which holds as long as no table changes its capacity (`Reduce`, `ReduceWorld`); sizes as in C60 and C19; R when a table grows between two calls |
| C73 the manager uses its tables correctly | `Links`, every call of `World` | simulation from the list tables of the manager to the pointer machine of `Links` (`Trace`: one step of the tables each; `TraceManager`: every function of the manager), for every run that ends without error; with the invariant H also which node is in which table |
| C74 the manager uses its pool correctly | `Pool`, every call of `World` | `Keeps`: a property of states is preserved by every call if a few primitives preserve it; instance in `PoolTrace`: the state is reached by an allowed program of `Pool` and the cells correspond |
| C75 the oracle of the tests is right | `TslIter` over `Tsl` and the programs of `World` | one increment adds one to the mixed radix number of the values (`TslIterProof`); induction on the size for the trees, over all random choices and both evaluation orders; make_diagram as a program (`TslDiagram`) |
| C76 the apply cache keeps pace with the nodes | `s_count`, `s_adj`, `s_cratio` and `a_cap` of the manager (`Base`, `NodeManager`) | an invariant over the number of adjustments, preserved by every function (`Keeps`, `PaceProof`); holds for all programs whose calls succeed |
| C77 arrays of the tables and of the cache | `Buckets`: memory as a list of live arrays; constructors, moves, destructors, rehash, merge, the swap of two variables with its temporary copy | an invariant that says which arrays are owned and which are lost, with an account of capacities (`BucketsProof`); for all lists of calls with tables that exist |
| C78 n queens for every n, counting on 64 and more variables | `Queens` as a program of `World` | the function of each clause (`QueensProof`), a bijection between solutions and lists of columns (`QueensCount`), spec `QueensSpec`; counting without the hypothesis of C09: a traversal with an operation that remembers its overflow (`CountSkip`) |
| C79 constructions leave no garbage | the calls of `World` that build one diagram (`built` in `NoGarbage`) | each step of the builders reports that a node new in the manager is its result or below it (`ms_new`, `bs_new`, `br_new`); garbage by reachability from the objects (`in_use`) |
| C80 diagrams as keys of unordered containers | `Keys` | a map from functions to values (`KeysSpec`), invariant `kinv` over programs that mix calls and map operations; the hash depends on the root only and no call moves the root of an object it does not assign |
| C81 memory of the pool | `NodeManager.ensure_available`, the calls of `World` | every step of a construction reports how the pool has grown (`grown` in `Inv`, field of `sstep`): the nodes that a collection leaves are held, and what is held during a construction belongs to objects or to the result; programs by induction (`peak`) |
| C82 builds with and without assertions | the flag `c_dbg` in all model files | the two builds are related state by state (`Ndebug.stops`), function by function and without any invariant; `history_safe` excludes the assertion for legal programs |
| C83 calls of the memoised constructions | `Calls.v`: transform and get_cofactor with a counter; without it they are the functions of `DiagramManager` (C83_same) | the nodes entered into the memo table during a run form a list without repetitions of internal nodes of the diagram (`CallsProof.logged`); induction on the rank, the table being closed under sons |
| C84 sizes of results | as C60 | the nodes are the subfunctions (C60_minimal); a subfunction of the result is determined by the subfunctions of the arguments at the same place (`PropsBound.labelled`) |
| C85 the same diagram in every manager | `live` nodes of two histories | an internal node tests the first variable of the order on which its function depends, so equality of functions is a bijection of the nodes that keeps labels and sons (`PropsIso.same_fun_iso`) |
| C86 managers that hold the same functions | as C85, with the collection of C04 | the isomorphisms of C85 for pairs of objects agree by canonicity and together cover all nodes that are in use |

## 6. Findings

Defects and surprises seen while modelling. Those with a theorem are machine-checked on the model.

| Id | Finding | Theorem |
|---|---|---|
| F1 | mpvs calls mcvs_g (line 1022) | C50_mpvs_refuted |
| F2 | PLUS, MULTIPLIES and bounded MAX with different parameters share an operation id, so cached results mix | C21_moduli_refuted |
| F3 | force_reorder frees nodes but keeps the apply cache | C25_apply_after_reorder_refuted |
| F4 | swapping creates redundant and duplicate nodes | C24_equals_after_reorder_refuted |
| F5 | from_expression_tree (and to_mnf) leave nodes marked for ever | C18_leak_refuted, C18_query_refuted |
| F6 | `special_to_index` out of range in dec_ref_try_gc; shown unreachable | C54_reorder_memory_safe |
| F7 | make_terminal_node asserts value < domain before it looks for special values | C44_fixed_domain_refuted |
| F8 | threshold 0 of the collection | C28_ratio_zero_refuted |
| F9 | the reference count overflows into the leaf flag and the assertion does not see it | C30_leaf_flag_refuted, C30_assertion_useless |
| F10 | domain_product in 32 bits for fixed domains other than 2 | C38_domain_product_refuted |
| F11 | left_fold of nothing, tree_fold of nothing, getters of a PLA file without lines | C41_no_literal_refuted, C41_no_cubes_refuted |
| F12 | data of the Undefined terminal is never initialised | C51_uninitialised_refuted |
| F13 | copying a default-constructed or moved-from diagram | C32_copy_null_refuted |
| F14 | deferred reordering runs before the result has a handle | C26_auto_reorder_dangling_refuted |
| F15 | code that cannot be instantiated: apply_n, node_pool move, get_dependency_set_g | - |
| F16 | the constructor with 1 variable converts 0.0 / 0.0 to int64; with 0 variables it reads domains_[0] or makes a table too many | C65_one_variable_refuted, C65_no_variable_refuted |
| F17 | satisfy_one into std::array returns uninitialised elements | C10_array_refuted, C10_array |
| F18 | mcvs omits the vector in which nothing can be improved | note of C49 |
| F19 | test tables: no defined value, single-state components | C61_construct_refuted, C61_mcvs_refuted |
| F20 | OR of two different positive values; PLUS and MULTIPLIES overflow on placeholders | C57_or_exact, C56_overflow_refuted |
| F21 | rehash of a table and of the cache never frees the old array | C77_lost_refuted; C77_lost bounds the loss |
| F22 | force_reorder can end with more nodes | C37_more_nodes_refuted |
| F23 | check_distinct accepts [0,5] for two variables | C52_order_refuted |
| F24 | PLUS and MULTIPLIES hide the n-ary operator() | note of C59 |
| F25 | unique_table::clear leaves `next_` set | C33_clear_refuted, C33_clear_cycle_refuted |
| F26 | load_file accepts malformed texts and negative counts | C42_*_refuted |
| F27 | dpld, force_reorder, to_dpld_e loses Undefined values | C44_after_reorder_refuted |
| F28 | get_probability reads stale or uninitialised data | C46_*_refuted, C51_stale_data_refuted |
| F29 | satisfy_count in double above 2^53; negative states out of range | C62_count_double_refuted, C45_negative_state_refuted |
| F30 | libtsl domain_iterator constructor writes to a member before it is constructed (the test of cofactors runs into it); its comments state the opposite order of significance; no free variable: endless; make_expression_tree(0) recurses until overflow | C75_fixed_refuted, C75_significance_refuted, C75_endless, C75_no_variables_refuted, C75_make_tree_refuted |
| F31 | fussell_vesely_importance is wrong for a coherent system, and depends on the order of the variables | C63_fussell_vesely_refuted, C63_order_refuted |
| F32 | to_mnf can return a diagram with a marked node; not for derivatives of coherent systems | C63_marked_refuted, C63_fussell_vesely |
| F33 | exponential and weibull are densities, used as probabilities of state 1; with rate 2 the probability at time 0 is 2 | C66_exponential_density, C66_weibull_density, C66_not_a_probability_refuted |
| F34 | probs::weibull takes (scale, shape), symprobs::weibull takes (shape, scale) | C66_weibull_arguments_refuted |
| F35 | to_dot_graph of the manager does not draw the terminal of undefined values, arcs to it lead nowhere | C69_manager_undefined_refuted |
| F36 | satisfy_all_g (so mcvs_g and mpvs_g too) passes the output iterator by value to its recursive calls; into a buffer every solution is written to the same place | C11_iterator_refuted, C11_iterator |
| F37 | satisfy_one is documented as O(number of nodes) and satisfy_all as O(n times number of solutions); both visit paths, so for parity of n variables (2n+1 nodes) and a value without solutions they make 2^(n+1)-1 calls | C70_satisfy_one_exponential, C70_satisfy_all_exponential |
| F38 | satisfy_count is documented as O(number of nodes); without fixed domains domain_product loops over the skipped levels, n(n-1)/2 iterations for a conjunction with n+2 nodes | C70_satisfy_count_quadratic |
| F39 | set_auto_reorder(false) does not cancel a pending reordering; the next apply reorders the variables and returns a wrong diagram although the mode is off | C71_switch_off_refuted |
| F40 | after a reordering a unique table may hold two nodes with equal sons (a redundant node that a swap turns into a copy of its son); find returns the first of the chain and a rehash reverses chains, so reduce of one and the same diagram gives different objects before and after the growth of a table | C72_reduce_refuted, C72_reduce_canonical |
| F41 | set_cache_ratio is documented to give a cache of ratio * node count; the call changes nothing until the tables are adjusted the next time (when the node count reaches 230, 460, ...), and the cache never shrinks | C76_documented_size_refuted, C76_never_shrinks |
| F42 | satisfy_count of a BDD shifts 1 by the number of skipped levels, also towards the terminal 0; with more than 64 variables this is undefined although the count fits: the n queens example prints an undefined number from n = 9 on, and counting a constant 0 on 64 variables is undefined | C78_count_undefined, C78_queens_count_undefined, C78_constant_refuted |
| F43 | after force_reorder an unordered map can miss the element of a function when it is looked up with a diagram built later | C80_reorder_refuted |
| F44 | README: the pool grows when a collection returns less than 0.05 of the pool size; the code compares with 0.20 of the node count | C81_documented_refuted |
| F45 | examples/soft_x.cpp stops at an assertion unless NDEBUG is defined: mcvs of a manager with a fixed domain makes the terminal of undefined values (F7); without assertions its vectors are right | C82_soft_x_refuted |

## 7. Seeded errors

`seeded/LOG.jsonl` has one line per wrong program tried: the definition, the edit, the claim it breaks, the statements whose proof failed (`theorems_failed`) and what was tightened. `not_rebuilt` is the number of manifest theorems in files behind the failure; they were not tried separately, so the number is no evidence about them. `outcome` is `detected`, `survived` (the theorems were then tightened) or `equivalent` (the edit breaks no claim).
