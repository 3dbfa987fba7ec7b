{"id": "C01", "title": "Search returns exactly the matching subscriptions", "statement": "For a tree built with any sequence of accepted insertions with pairwise distinct ids, betree_search on an event that supplies every required variable reports exactly the ids of the subscriptions whose boolean expression is true of the event (naive evaluation of the source expression with strings compared as strings), whatever shape the index tree has taken.", "quantifier": "every list of declarations, every history of insertions, refused insertions, makings, boundary changes, further declarations and emptying with distinct ids, every tree parameter, every event. Supported inputs: declarations (any time, but not the 64th, 128th, ... while subscriptions exist) in which every float range narrow enough to be split has ends that are multiples of 2^-10 of at most 2^40; well-typed expressions (every predicate on a declared variable of its type, integer literals not within 2 of the ends of int64_t, non-empty list constants, different constants in `all of`, frequency and segment arguments that fit their 32-bit fields, `now` required where a frequency cap is used); no more distinct strings or enum integers per variable than its declared bound; events whose values have the declared types and whose segments are ordered by id. Without these conditions the claim fails or the calls abort or are undefined, see the *_refuted theorems (C01_float_range, C05_now, C14_all_of, C16_namespace, C17_bounded_enum, C26_*, C34_wide_constant). Subscriptions that, below an odd number of `not`s, use `and` only over variables the event gives (or that are required) or predicates other than `is null`, and `or` only over variables the event gives or `is null` (C02_not_or_refuted, C01_not_and_null_refuted), and `and` there only over predicates that give no value range (`=`, `in`, `one of`, `all of`, frequency, segment, geo and string predicates, null tests; C01_not_and_refuted); for a single subscription what the others use does not matter (C01_each). Where float ranges are split: events that give no such variable a value that differs by less than 2^-52 from a constant it is compared with without being equal to it (C53_near_miss_refuted).", "why_tests_cant": "The shape of the index (partitions, clusters, splits) depends on the whole insertion history; a pruned branch that should not have been pruned shows up only for particular histories and event values.", "anchors": ["src/betree.c: betree_insert_with_constants, betree_search_with_event", "src/tree.c: insert_be_tree, match_be_tree, search_cdir, is_event_enclosed, betree_search_with_preds", "src/ast.c: match_node, get_variable_bound"]}
{"id": "C02", "title": "No false positives", "statement": "Every id reported by betree_search belongs to an inserted subscription whose expression is true of the event.", "quantifier": "every history and every event, also events that miss required variables. Supported inputs: declarations (any time, but not the 64th, 128th, ... while subscriptions exist) in which every float range narrow enough to be split has ends that are multiples of 2^-10 of at most 2^40; well-typed expressions (every predicate on a declared variable of its type, integer literals not within 2 of the ends of int64_t, non-empty list constants, different constants in `all of`, frequency and segment arguments that fit their 32-bit fields, `now` required where a frequency cap is used); no more distinct strings or enum integers per variable than its declared bound; events whose values have the declared types and whose segments are ordered by id. Without these conditions the claim fails or the calls abort or are undefined, see the *_refuted theorems (C01_float_range, C05_now, C14_all_of, C16_namespace, C17_bounded_enum, C26_*, C34_wide_constant). Subscriptions that, below an odd number of `not`s, use `and` only over variables the event gives (or that are required) or predicates other than `is null`, and `or` only over variables the event gives or `is null` (C02_not_or_refuted, C01_not_and_null_refuted); other subscriptions in the same tree are not restricted in their use of `not`.", "why_tests_cant": "False positives can come from memoised results of other subscriptions or from the undefined-variable short circuit, i.e. from combinations of subscriptions and missing variables.", "anchors": ["src/tree.c: match_sub, try_short_circuit, short_circuit_for_node", "src/ast.c: match_node_inner"]}
{"id": "C03", "title": "Each matching subscription is reported once", "statement": "With pairwise distinct subscription ids, the ids in a search report are pairwise distinct and report.matched is their number.", "quantifier": "every history of finished calls with distinct ids and every event, no other condition (with repeated ids it is false: C09_same_ids_refuted)", "why_tests_cant": "Subscriptions are moved between leaves while the tree reorganises itself; a duplicated or lost move is history dependent.", "anchors": ["src/tree.c: move, remove_sub, space_partitioning, space_clustering, betree_search_with_preds"]}
{"id": "C04", "title": "Sharing of predicate results is transparent", "statement": "Evaluating the subscriptions of one search with a shared table of already computed sub-expression results gives, for every subscription, the result it would give when evaluated alone from scratch.", "quantifier": "every history, every selection and order of the stored subscriptions, every event. Supported inputs: declarations (any time, but not the 64th, 128th, ... while subscriptions exist) in which every float range narrow enough to be split has ends that are multiples of 2^-10 of at most 2^40; well-typed expressions (every predicate on a declared variable of its type, integer literals not within 2 of the ends of int64_t, non-empty list constants, different constants in `all of`, frequency and segment arguments that fit their 32-bit fields, `now` required where a frequency cap is used); no more distinct strings or enum integers per variable than its declared bound; events whose values have the declared types and whose segments are ordered by id. Without these conditions the claim fails or the calls abort or are undefined, see the *_refuted theorems (C01_float_range, C05_now, C14_all_of, C16_namespace, C17_bounded_enum, C26_*, C34_wide_constant).", "why_tests_cant": "The shared table couples all expressions; only a proof covers all combinations of expressions sharing (or seeming to share) a sub-expression.", "anchors": ["src/ast.c: match_node_inner", "src/hashmap.c: assign_pred", "src/ast_compare.c: expr_cmp", "src/memoize.c"]}
{"id": "C05", "title": "The undefined-variable shortcut is transparent", "statement": "When a search decides a subscription from the set of undefined variables only (without evaluating it), the decision equals the value of the expression on the event.", "quantifier": "every stored subscription of every history, every event. Supported inputs: declarations (any time, but not the 64th, 128th, ... while subscriptions exist) in which every float range narrow enough to be split has ends that are multiples of 2^-10 of at most 2^40; well-typed expressions (every predicate on a declared variable of its type, integer literals not within 2 of the ends of int64_t, non-empty list constants, different constants in `all of`, frequency and segment arguments that fit their 32-bit fields, `now` required where a frequency cap is used); no more distinct strings or enum integers per variable than its declared bound; events whose values have the declared types and whose segments are ordered by id. Without these conditions the claim fails or the calls abort or are undefined, see the *_refuted theorems (C01_float_range, C05_now, C14_all_of, C16_namespace, C17_bounded_enum, C26_*, C34_wide_constant). Subscriptions that, below an odd number of `not`s, use `and` only over variables the event gives (or that are required) or predicates other than `is null`, and `or` only over variables the event gives or `is null` (C02_not_or_refuted, C01_not_and_null_refuted); other subscriptions in the same tree are not restricted in their use of `not`.", "why_tests_cant": "Depends on nesting of negation, conjunction and disjunction and on every subset of variables that can be missing.", "anchors": ["src/tree.c: short_circuit_for_node, fill_short_circuit, try_short_circuit, match_sub"]}
{"id": "C06", "title": "exists agrees with search", "statement": "For an event that supplies every required variable, betree_exists returns true exactly when betree_search reports at least one subscription.", "quantifier": "every tree whatsoever and every event for which the search finishes with success (without the required variables it is false: C06_incomplete_refuted)", "why_tests_cant": "exists stops early and shares no report with search, so equality must hold for each prefix of the candidate list.", "anchors": ["src/tree.c: betree_exists_with_preds, betree_search_with_preds", "src/betree.c: exists_with_event_filled, search_with_event_filled"]}
{"id": "C07", "title": "Insertion order does not matter", "statement": "Inserting the same accepted subscriptions in a different order gives a tree that reports the same set of ids for every event.", "quantifier": "every permutation of every sequence of insertions, every event. Supported inputs: declarations (any time, but not the 64th, 128th, ... while subscriptions exist) in which every float range narrow enough to be split has ends that are multiples of 2^-10 of at most 2^40; well-typed expressions (every predicate on a declared variable of its type, integer literals not within 2 of the ends of int64_t, non-empty list constants, different constants in `all of`, frequency and segment arguments that fit their 32-bit fields, `now` required where a frequency cap is used); no more distinct strings or enum integers per variable than its declared bound; events whose values have the declared types and whose segments are ordered by id. Without these conditions the claim fails or the calls abort or are undefined, see the *_refuted theorems (C01_float_range, C05_now, C14_all_of, C16_namespace, C17_bounded_enum, C26_*, C34_wide_constant). Subscriptions that, below an odd number of `not`s, use `and` only over variables the event gives (or that are required) or predicates other than `is null`, and `or` only over variables the event gives or `is null` (C02_not_or_refuted, C01_not_and_null_refuted), and `and` there only over predicates that give no value range (`=`, `in`, `one of`, `all of`, frequency, segment, geo and string predicates, null tests; C01_not_and_refuted). Where float ranges are split: events that give no such variable a value that differs by less than 2^-52 from a constant it is compared with without being equal to it (C53_near_miss_refuted).", "why_tests_cant": "The number of orders is factorial and the tree shapes differ.", "anchors": ["src/tree.c: insert_be_tree, space_partitioning, space_clustering"]}
{"id": "C08", "title": "Tuning parameters do not change answers", "statement": "Leaf capacity, minimal partition size and the maximal domain size for splitting influence only speed: trees built from the same insertions under different parameters report the same ids for every event.", "quantifier": "every pair of parameter settings and histories that insert the same subscriptions, every event. Supported inputs: declarations (any time, but not the 64th, 128th, ... while subscriptions exist) in which every float range narrow enough to be split has ends that are multiples of 2^-10 of at most 2^40; well-typed expressions (every predicate on a declared variable of its type, integer literals not within 2 of the ends of int64_t, non-empty list constants, different constants in `all of`, frequency and segment arguments that fit their 32-bit fields, `now` required where a frequency cap is used); no more distinct strings or enum integers per variable than its declared bound; events whose values have the declared types and whose segments are ordered by id. Without these conditions the claim fails or the calls abort or are undefined, see the *_refuted theorems (C01_float_range, C05_now, C14_all_of, C16_namespace, C17_bounded_enum, C26_*, C34_wide_constant). Subscriptions that, below an odd number of `not`s, use `and` only over variables the event gives (or that are required) or predicates other than `is null`, and `or` only over variables the event gives or `is null` (C02_not_or_refuted, C01_not_and_null_refuted), and `and` there only over predicates that give no value range (`=`, `in`, `one of`, `all of`, frequency, segment, geo and string predicates, null tests; C01_not_and_refuted). Where float ranges are split: events that give no such variable a value that differs by less than 2^-52 from a constant it is compared with without being equal to it (C53_near_miss_refuted).", "why_tests_cant": "Parameters change all structural decisions of the index.", "anchors": ["src/config.c: make_config", "src/tree.c: is_overflowed, update_cluster_capacity, splitable_attr_domain, space_partitioning"]}
{"id": "C09", "title": "Insertion stores the new subscription and keeps all others", "statement": "After an insertion the tree holds exactly the subscriptions it held before plus the new one, each once, and looking a subscription up by id finds it.", "quantifier": "every history of finished calls with distinct ids, no other condition (with repeated ids it is false: C09_same_ids_refuted)", "why_tests_cant": "Insertion may cascade through arbitrarily deep reorganisations.", "anchors": ["src/tree.c: insert_be_tree, move, find_sub_id"]}
{"id": "C10", "title": "Insertion terminates without aborting", "statement": "Inserting a well-typed expression (in one step or through betree_make_sub and betree_insert_sub) into a reachable tree and adapting its boundaries finish and never reach an abort, an overflow, a division by zero or an uninitialised read.", "quantifier": "every reachable tree with leaf capacity not a multiple of 256 and finite integer ranges no wider than 2^63-1, every fresh id; for insertions float ranges that are split have widths that are whole numbers. Supported inputs: declarations (any time, but not the 64th, 128th, ... while subscriptions exist) in which every float range narrow enough to be split has ends that are multiples of 2^-10 of at most 2^40; well-typed expressions (every predicate on a declared variable of its type, integer literals not within 2 of the ends of int64_t, non-empty list constants, different constants in `all of`, frequency and segment arguments that fit their 32-bit fields, `now` required where a frequency cap is used); no more distinct strings or enum integers per variable than its declared bound; events whose values have the declared types and whose segments are ordered by id. Without these conditions the claim fails or the calls abort or are undefined, see the *_refuted theorems (C01_float_range, C05_now, C14_all_of, C16_namespace, C17_bounded_enum, C26_*, C34_wide_constant). Each condition is needed: C10_float_split, C10_overflow, C10_width, C10_untyped, C10_capacity (_refuted).", "why_tests_cant": "space_partitioning and space_clustering call each other; termination needs a measure over all tree shapes and domains.", "anchors": ["src/tree.c: space_partitioning, space_clustering, split_value_bound, get_next_highest_score_unused_attr, is_atomic"]}
{"id": "C11", "title": "Leaves never stay overfull", "statement": "After every insertion each leaf holds at most as many subscriptions as its current capacity, and every capacity is a positive multiple of the configured leaf capacity.", "quantifier": "every history of finished calls and every leaf capacity that is not a multiple of 256 (it is stored in 8 bits: C10_capacity_refuted)", "why_tests_cant": "An invariant over all histories.", "anchors": ["src/tree.c: update_cluster_capacity, is_overflowed, space_partitioning, space_clustering"]}
{"id": "C12", "title": "Events missing a required variable are refused", "statement": "If an event lacks a variable declared as required, betree_search returns false and leaves the report untouched; otherwise it returns true.", "quantifier": "every history of finished calls and every event", "why_tests_cant": "All subsets of missing variables.", "anchors": ["src/tree.c: validate_variables", "src/betree.c: search_with_event_filled"]}
{"id": "C13", "title": "Predicates on undefined variables are false", "statement": "A leaf predicate whose variable is absent from the event evaluates to false (also for <>, not in and none of), `is null` evaluates to true, and negation, and, or combine these two-valued results classically.", "quantifier": "every reachable tree, expression and partial event. Supported inputs: declarations (any time, but not the 64th, 128th, ... while subscriptions exist) in which every float range narrow enough to be split has ends that are multiples of 2^-10 of at most 2^40; well-typed expressions (every predicate on a declared variable of its type, integer literals not within 2 of the ends of int64_t, non-empty list constants, different constants in `all of`, frequency and segment arguments that fit their 32-bit fields, `now` required where a frequency cap is used); no more distinct strings or enum integers per variable than its declared bound; events whose values have the declared types and whose segments are ordered by id. Without these conditions the claim fails or the calls abort or are undefined, see the *_refuted theorems (C01_float_range, C05_now, C14_all_of, C16_namespace, C17_bounded_enum, C26_*, C34_wide_constant). Subscriptions that, below an odd number of `not`s, use `and` only over variables the event gives (or that are required) or predicates other than `is null`, and `or` only over variables the event gives or `is null` (C02_not_or_refuted, C01_not_and_null_refuted), and `and` there only over predicates that give no value range (`=`, `in`, `one of`, `all of`, frequency, segment, geo and string predicates, null tests; C01_not_and_refuted). Where float ranges are split: events that give no such variable a value that differs by less than 2^-52 from a constant it is compared with without being equal to it (C53_near_miss_refuted).", "why_tests_cant": "All combinations of predicates and missing variables.", "anchors": ["src/ast.c: match_compare_expr, match_equality_expr, match_set_expr, match_list_expr, match_special_expr, match_is_null_expr, match_bool_expr"]}
{"id": "C14", "title": "Set and list predicates have set semantics", "statement": "`in`, `not in`, `one of`, `none of` and `all of` give the answer of the corresponding set operation on the listed constants and the event list, for lists in any order and with repetitions.", "quantifier": "all integer and string lists on both sides, shorter than 2^31; different constants in `all of` (otherwise false: C14_all_of_refuted). Supported inputs: declarations (any time, but not the 64th, 128th, ... while subscriptions exist) in which every float range narrow enough to be split has ends that are multiples of 2^-10 of at most 2^40; well-typed expressions (every predicate on a declared variable of its type, integer literals not within 2 of the ends of int64_t, non-empty list constants, different constants in `all of`, frequency and segment arguments that fit their 32-bit fields, `now` required where a frequency cap is used); no more distinct strings or enum integers per variable than its declared bound; events whose values have the declared types and whose segments are ordered by id. Without these conditions the claim fails or the calls abort or are undefined, see the *_refuted theorems (C01_float_range, C05_now, C14_all_of, C16_namespace, C17_bounded_enum, C26_*, C34_wide_constant).", "why_tests_cant": "Implemented by binary searches and merge loops over sorted arrays, whose boundary cases are unbounded in number.", "anchors": ["src/ast.c: integer_in_integer_list, match_not_all_of_int, match_all_of_int, match_set_expr, match_list_expr, sort_lists", "src/value.c: sort_and_remove_duplicate_integer_list"]}
{"id": "C15", "title": "Order and repetition inside lists are irrelevant", "statement": "Permuting or repeating elements of a list constant or of a list-valued event variable never changes a search result.", "quantifier": "all lists, all permutations, all trees. Supported inputs: declarations (any time, but not the 64th, 128th, ... while subscriptions exist) in which every float range narrow enough to be split has ends that are multiples of 2^-10 of at most 2^40; well-typed expressions (every predicate on a declared variable of its type, integer literals not within 2 of the ends of int64_t, non-empty list constants, different constants in `all of`, frequency and segment arguments that fit their 32-bit fields, `now` required where a frequency cap is used); no more distinct strings or enum integers per variable than its declared bound; events whose values have the declared types and whose segments are ordered by id. Without these conditions the claim fails or the calls abort or are undefined, see the *_refuted theorems (C01_float_range, C05_now, C14_all_of, C16_namespace, C17_bounded_enum, C26_*, C34_wide_constant). Subscriptions that, below an odd number of `not`s, use `and` only over variables the event gives (or that are required) or predicates other than `is null`, and `or` only over variables the event gives or `is null` (C02_not_or_refuted, C01_not_and_null_refuted), and `and` there only over predicates that give no value range (`=`, `in`, `one of`, `all of`, frequency, segment, geo and string predicates, null tests; C01_not_and_refuted). Where float ranges are split: events that give no such variable a value that differs by less than 2^-52 from a constant it is compared with without being equal to it (C53_near_miss_refuted).", "why_tests_cant": "Unbounded lists.", "anchors": ["src/value.c: sort_integer_list, remove_duplicates_integer_list, sort_string_list, remove_duplicates_string_list", "src/tree.c: sort_event_lists", "src/ast.c: sort_lists"]}
{"id": "C16", "title": "String identifiers are faithful", "statement": "For each variable, two strings receive the same identifier exactly when they are equal, an identifier never changes once given, and an event string that no subscription mentions is equal to no string constant of that variable.", "quantifier": "every sequence of strings over every variable as long as the declared bound is not exceeded (C18), no second frequency namespace beyond the table (C16_namespace_refuted)", "why_tests_cant": "Identifiers are assigned by history; injectivity must hold for every history.", "anchors": ["src/config.c: get_id_for_string, try_get_id_for_string, add_to_string_map", "src/ast.c: assign_str_id", "src/tree.c: fill_event"]}
{"id": "C17", "title": "Integer-enum identifiers are faithful", "statement": "For each integer-enum variable, two integers receive the same identifier exactly when equal, identifiers are stable, and an event value never mentioned equals no constant.", "quantifier": "every sequence of integers over every variable as long as the declared bound is not exceeded (C17_bounded_enum_refuted)", "why_tests_cant": "History dependent.", "anchors": ["src/config.c: get_id_for_ienum, try_get_id_for_ienum", "src/ast.c: assign_ienum_id"]}
{"id": "C18", "title": "Bounded string domains are enforced", "statement": "An expression that would need more distinct strings for a variable than its declared bound is refused by betree_insert, which returns false and leaves every later search result unchanged.", "quantifier": "every history of insertions and every expression", "why_tests_cant": "Acceptance depends on all strings already registered.", "anchors": ["src/ast.c: str_valid, strs_valid, all_bounded_strings_valid", "src/betree.c: is_valid, betree_insert_with_constants"]}
{"id": "C19", "title": "Adapting boundaries never changes answers", "statement": "betree_change_boundaries (and the boundary adaptation done by betree_make_sub) never changes which subscriptions match: finite bounds only ever widen, and searches give the same ids before and after.", "quantifier": "every interleaving of boundary adaptations, insertions and searches; widening for integer, string, enum and boolean ranges that have a finite bound (C19_new_bound_refuted: a string variable without bound gets one). Supported inputs: declarations (any time, but not the 64th, 128th, ... while subscriptions exist) in which every float range narrow enough to be split has ends that are multiples of 2^-10 of at most 2^40; well-typed expressions (every predicate on a declared variable of its type, integer literals not within 2 of the ends of int64_t, non-empty list constants, different constants in `all of`, frequency and segment arguments that fit their 32-bit fields, `now` required where a frequency cap is used); no more distinct strings or enum integers per variable than its declared bound; events whose values have the declared types and whose segments are ordered by id. Without these conditions the claim fails or the calls abort or are undefined, see the *_refuted theorems (C01_float_range, C05_now, C14_all_of, C16_namespace, C17_bounded_enum, C26_*, C34_wide_constant). Subscriptions that, below an odd number of `not`s, use `and` only over variables the event gives (or that are required) or predicates other than `is null`, and `or` only over variables the event gives or `is null` (C02_not_or_refuted, C01_not_and_null_refuted), and `and` there only over predicates that give no value range (`=`, `in`, `one of`, `all of`, frequency, segment, geo and string predicates, null tests; C01_not_and_refuted). Where float ranges are split: events that give no such variable a value that differs by less than 2^-52 from a constant it is compared with without being equal to it (C53_near_miss_refuted).", "why_tests_cant": "The bounds steer both insertion and pruning; interleavings are unbounded.", "anchors": ["src/betree.c: change_boundaries, betree_change_boundaries, set_simple_bound, list_simple_bound, compare_simple_bound", "src/ast.c: get_variable_bound"]}
{"id": "C20", "title": "Value ranges derived from expressions are safe", "statement": "For every variable, the range the index derives from an expression contains every value of that variable (inside the declared domain) for which the expression can be true.", "quantifier": "every expression, every variable, every value that is, if a float, no near miss (closer than 2^-52, but different) of a constant of the expression (C01_float_range_refuted), histories with and without split float ranges. Supported inputs: declarations (any time, but not the 64th, 128th, ... while subscriptions exist) in which every float range narrow enough to be split has ends that are multiples of 2^-10 of at most 2^40; well-typed expressions (every predicate on a declared variable of its type, integer literals not within 2 of the ends of int64_t, non-empty list constants, different constants in `all of`, frequency and segment arguments that fit their 32-bit fields, `now` required where a frequency cap is used); no more distinct strings or enum integers per variable than its declared bound; events whose values have the declared types and whose segments are ordered by id. Without these conditions the claim fails or the calls abort or are undefined, see the *_refuted theorems (C01_float_range, C05_now, C14_all_of, C16_namespace, C17_bounded_enum, C26_*, C34_wide_constant). Below an odd number of `not`s an `and` only over predicates that give no value range there (C20_not_and_refuted).", "why_tests_cant": "Range arithmetic over nested and/or/not and boundary constants.", "anchors": ["src/ast.c: get_variable_bound, get_variable_bound_inner"]}
{"id": "C21", "title": "Splitting a range loses nothing", "statement": "When the index splits a value range in two, the two halves start and end where the range did, meet or are adjacent, and every value of the range lies in at least one half; each half is strictly narrower.", "quantifier": "every splittable integer range no wider than 2^63-1, string, enum and boolean range; every float range whose ends are multiples of 2^-10 (below 2^41) and whose width is a whole number, except that a float range of width 1 keeps only its ends (C21_float_gap_refuted)", "why_tests_cant": "All ranges of 64-bit numbers.", "anchors": ["src/tree.c: split_value_bound, is_atomic"]}
{"id": "C22", "title": "Predicate identity is sound", "statement": "Two sub-expressions are treated as the same shared predicate only if they denote the same boolean function of the event; the comparison used to look predicates up is a strict total order.", "quantifier": "all pairs and triples of expressions without NaN literals (and without negative zero in geo predicates)", "why_tests_cant": "Quadratic/cubic many expression combinations, all field combinations.", "anchors": ["src/ast_compare.c: expr_cmp", "src/hashmap.c: assign_pred"]}
{"id": "C23", "title": "Predicate lookup structure is correct", "statement": "The balanced search tree that stores predicates finds an inserted predicate if and only if an equal one was inserted before, and stays balanced (red-black) after every insertion.", "quantifier": "every insertion sequence", "why_tests_cant": "Rotations depend on the whole sequence.", "anchors": ["src/jsw_rbtree.c: jsw_rbinsert, jsw_rbfind, jsw_single, jsw_double"]}
{"id": "C24", "title": "Report counters are consistent", "statement": "After a search, matched <= evaluated, shorted <= evaluated, evaluated is the number of candidate subscriptions and never exceeds the number of inserted subscriptions; every reported subscription was evaluated.", "quantifier": "every history of finished calls and every event, no condition", "why_tests_cant": "Counters accumulate over arbitrary traversals.", "anchors": ["src/tree.c: betree_search_with_preds, match_sub, add_sub"]}
{"id": "C25", "title": "Frequency-cap predicate", "statement": "within_frequency_cap is true exactly when no cap in the event has the same type, id and namespace, or the first such cap is below the value limit, or (with a positive window) has no timestamp or is older than the window.", "quantifier": "all cap lists, limits, times and windows below 2^63", "why_tests_cant": "Unbounded lists and 64-bit times.", "anchors": ["src/special.c: within_frequency_caps", "src/ast.c: match_special_expr"]}
{"id": "C26", "title": "Segment predicates", "statement": "For an event whose segments are ordered by id, segment_within / segment_before are true exactly when the event holds the segment with that id with a timestamp (in seconds) at or after / strictly before now minus the given seconds.", "quantifier": "all segment lists, ids, times", "why_tests_cant": "Unbounded lists.", "anchors": ["src/special.c: segment_within, segment_before"]}
{"id": "C27", "title": "String predicates", "statement": "contains, starts_with, ends_with are true exactly when the pattern is a substring, prefix, suffix of the event string.", "quantifier": "all pairs of strings", "why_tests_cant": "Unbounded strings.", "anchors": ["src/special.c: contains, starts_with, ends_with"]}
{"id": "C28", "title": "Cost-based reordering preserves meaning", "statement": "The parser reorders the operands of and/or by estimated cost; the stored expression has the same truth value as the written one on every event.", "quantifier": "all expressions and events for which the predicates can be evaluated", "why_tests_cant": "Arbitrary nesting.", "anchors": ["src/ast.c: ast_bool_expr_binary_create, score_node"]}
{"id": "C29", "title": "Attribute names are case-insensitive", "statement": "Attribute names in expressions and events are matched against the (lower-case) declared names ignoring case; expressions with undeclared names are refused.", "quantifier": "all names and declaration lists in lower case, all predicates except geo (C29_geo_refuted, C12_capital_declaration_refuted). Supported inputs: declarations (any time, but not the 64th, 128th, ... while subscriptions exist) in which every float range narrow enough to be split has ends that are multiples of 2^-10 of at most 2^40; well-typed expressions (every predicate on a declared variable of its type, integer literals not within 2 of the ends of int64_t, non-empty list constants, different constants in `all of`, frequency and segment arguments that fit their 32-bit fields, `now` required where a frequency cap is used); no more distinct strings or enum integers per variable than its declared bound; events whose values have the declared types and whose segments are ordered by id. Without these conditions the claim fails or the calls abort or are undefined, see the *_refuted theorems (C01_float_range, C05_now, C14_all_of, C16_namespace, C17_bounded_enum, C26_*, C34_wide_constant). Subscriptions that, below an odd number of `not`s, use `and` only over variables the event gives (or that are required) or predicates other than `is null`, and `or` only over variables the event gives or `is null` (C02_not_or_refuted, C01_not_and_null_refuted), and `and` there only over predicates that give no value range (`=`, `in`, `one of`, `all of`, frequency, segment, geo and string predicates, null tests; C01_not_and_refuted). Where float ranges are split: events that give no such variable a value that differs by less than 2^-52 from a constant it is compared with without being equal to it (C53_near_miss_refuted).", "why_tests_cant": "All strings.", "anchors": ["src/tree.c: try_get_id_for_attr, fill_event", "src/ast.c: assign_variable_id, all_variables_in_config"]}
{"id": "C30", "title": "Integer literals for float variables", "statement": "An integer literal compared with a float variable means the float of the same value: the expression behaves exactly as if written with a decimal point.", "quantifier": "all expressions and events. Supported inputs: declarations (any time, but not the 64th, 128th, ... while subscriptions exist) in which every float range narrow enough to be split has ends that are multiples of 2^-10 of at most 2^40; well-typed expressions (every predicate on a declared variable of its type, integer literals not within 2 of the ends of int64_t, non-empty list constants, different constants in `all of`, frequency and segment arguments that fit their 32-bit fields, `now` required where a frequency cap is used); no more distinct strings or enum integers per variable than its declared bound; events whose values have the declared types and whose segments are ordered by id. Without these conditions the claim fails or the calls abort or are undefined, see the *_refuted theorems (C01_float_range, C05_now, C14_all_of, C16_namespace, C17_bounded_enum, C26_*, C34_wide_constant). Subscriptions that, below an odd number of `not`s, use `and` only over variables the event gives (or that are required) or predicates other than `is null`, and `or` only over variables the event gives or `is null` (C02_not_or_refuted, C01_not_and_null_refuted), and `and` there only over predicates that give no value range (`=`, `in`, `one of`, `all of`, frequency, segment, geo and string predicates, null tests; C01_not_and_refuted). Where float ranges are split: events that give no such variable a value that differs by less than 2^-52 from a constant it is compared with without being equal to it (C53_near_miss_refuted). Integers in events do not become floats: C30_event_integer_refuted.", "why_tests_cant": "Arbitrary nesting and literals.", "anchors": ["src/betree.c: fix_float_with_no_fractions"]}
{"id": "C31", "title": "String table lookups are correct", "statement": "The hash table behind string identifiers returns, for every key, the value last stored under exactly that key, through any number of insertions and resizes.", "quantifier": "every sequence of fewer than 2^30 stores and lookups, every key, whatever allocations fail", "why_tests_cant": "Collisions and resizes depend on the full history.", "anchors": ["src/map.c: map_set_, map_get_, map_resize, map_getref, map_hash"]}
{"id": "C32", "title": "Event attribute order is irrelevant", "statement": "Listing the variables of an event in another order gives the same search result; a null variable is the same as an absent one; when a variable is listed twice, the last one counts.", "quantifier": "all events and permutations", "why_tests_cant": "Factorially many orders.", "anchors": ["src/betree.c: make_environment", "src/tree.c: fill_event, add_variable", "src/event_parser.y: variable"]}
{"id": "C33", "title": "Refused insertions have no effect on answers", "statement": "If betree_insert returns false (unparsable, unknown variable, invalid types, missing constants, string bound exceeded), all later searches give the same ids as if the call had not been made.", "quantifier": "every reachable tree and every refused expression; for betree_make_sub the strings of the expression must fit. Subscriptions that, below an odd number of `not`s, use `and` only over variables the event gives (or that are required) or predicates other than `is null`, and `or` only over variables the event gives or `is null` (C02_not_or_refuted, C01_not_and_null_refuted), and `and` there only over predicates that give no value range (`=`, `in`, `one of`, `all of`, frequency, segment, geo and string predicates, null tests; C01_not_and_refuted). Where float ranges are split: events that give no such variable a value that differs by less than 2^-52 from a constant it is compared with without being equal to it (C53_near_miss_refuted).", "why_tests_cant": "Refusal can happen at many points after partial work.", "anchors": ["src/betree.c: betree_insert_with_constants, is_valid"]}
{"id": "C34", "title": "Frequency constants", "statement": "A within_frequency_cap expression uses the id constant that belongs to its cap type; if that constant is missing the insertion is refused.", "quantifier": "all expressions and constant lists; ids that fit 32 bits (C34_wide_constant_refuted). Supported inputs: declarations (any time, but not the 64th, 128th, ... while subscriptions exist) in which every float range narrow enough to be split has ends that are multiples of 2^-10 of at most 2^40; well-typed expressions (every predicate on a declared variable of its type, integer literals not within 2 of the ends of int64_t, non-empty list constants, different constants in `all of`, frequency and segment arguments that fit their 32-bit fields, `now` required where a frequency cap is used); no more distinct strings or enum integers per variable than its declared bound; events whose values have the declared types and whose segments are ordered by id. Without these conditions the claim fails or the calls abort or are undefined, see the *_refuted theorems (C01_float_range, C05_now, C14_all_of, C16_namespace, C17_bounded_enum, C26_*, C34_wide_constant).", "why_tests_cant": "Arbitrary nesting and lists.", "anchors": ["src/ast.c: assign_constants"]}
{"id": "C35", "title": "The two insertion paths agree", "statement": "Building a subscription with betree_make_sub and adding it with betree_insert_sub gives the same search answers as betree_insert_with_constants when both accept.", "quantifier": "all expressions accepted by both, all trees. Supported inputs: declarations (any time, but not the 64th, 128th, ... while subscriptions exist) in which every float range narrow enough to be split has ends that are multiples of 2^-10 of at most 2^40; well-typed expressions (every predicate on a declared variable of its type, integer literals not within 2 of the ends of int64_t, non-empty list constants, different constants in `all of`, frequency and segment arguments that fit their 32-bit fields, `now` required where a frequency cap is used); no more distinct strings or enum integers per variable than its declared bound; events whose values have the declared types and whose segments are ordered by id. Without these conditions the claim fails or the calls abort or are undefined, see the *_refuted theorems (C01_float_range, C05_now, C14_all_of, C16_namespace, C17_bounded_enum, C26_*, C34_wide_constant). Subscriptions that, below an odd number of `not`s, use `and` only over variables the event gives (or that are required) or predicates other than `is null`, and `or` only over variables the event gives or `is null` (C02_not_or_refuted, C01_not_and_null_refuted), and `and` there only over predicates that give no value range (`=`, `in`, `one of`, `all of`, frequency, segment, geo and string predicates, null tests; C01_not_and_refuted). Where float ranges are split: events that give no such variable a value that differs by less than 2^-52 from a constant it is compared with without being equal to it (C53_near_miss_refuted).", "why_tests_cant": "Different preprocessing orders and boundary changes.", "anchors": ["src/betree.c: betree_make_sub, betree_insert_sub, betree_insert_with_constants"]}
{"id": "C36", "title": "Bit sets behave as sets", "statement": "Setting a bit makes exactly that bit read back as set and leaves all others unchanged, for every index including word boundaries.", "quantifier": "all indices and contents", "why_tests_cant": "All 64-bit indices.", "anchors": ["src/memoize.c: set_bit, test_bit, clear_bit"]}
{"id": "C37", "title": "Searching leaves the tree unchanged and is repeatable", "statement": "Any number of searches, in any order and with any events, give for each event the answer a single fresh search would give.", "quantifier": "every tree and all sequences of searches that finish", "why_tests_cant": "Hidden state (memo tables, interning) could leak between searches.", "anchors": ["src/tree.c: betree_search_with_preds, fill_event", "src/config.c: try_get_id_for_string"]}
{"id": "C38", "title": "Adding a subscription does not disturb others", "statement": "Inserting one more subscription changes the answer of any search by at most that subscription's own id.", "quantifier": "every reachable tree, new subscription and event. Supported inputs: declarations (any time, but not the 64th, 128th, ... while subscriptions exist) in which every float range narrow enough to be split has ends that are multiples of 2^-10 of at most 2^40; well-typed expressions (every predicate on a declared variable of its type, integer literals not within 2 of the ends of int64_t, non-empty list constants, different constants in `all of`, frequency and segment arguments that fit their 32-bit fields, `now` required where a frequency cap is used); no more distinct strings or enum integers per variable than its declared bound; events whose values have the declared types and whose segments are ordered by id. Without these conditions the claim fails or the calls abort or are undefined, see the *_refuted theorems (C01_float_range, C05_now, C14_all_of, C16_namespace, C17_bounded_enum, C26_*, C34_wide_constant). Subscriptions that, below an odd number of `not`s, use `and` only over variables the event gives (or that are required) or predicates other than `is null`, and `or` only over variables the event gives or `is null` (C02_not_or_refuted, C01_not_and_null_refuted), and `and` there only over predicates that give no value range (`=`, `in`, `one of`, `all of`, frequency, segment, geo and string predicates, null tests; C01_not_and_refuted). Where float ranges are split: events that give no such variable a value that differs by less than 2^-52 from a constant it is compared with without being equal to it (C53_near_miss_refuted).", "why_tests_cant": "Insertion reorganises the tree and changes shared predicate numbering.", "anchors": ["src/tree.c: insert_be_tree", "src/hashmap.c: assign_pred"]}
{"id": "C39", "title": "Texts are cut into the tokens the scanner rules say", "statement": "For every text the scanner yields exactly the tokens that the longest-match, first-rule reading of the rules gives, and a sequence of tokens spelled with their usual texts, separated where needed, is read back as that sequence. A character no rule matches ends the text.", "quantifier": "every expression text and every event text", "why_tests_cant": "All texts; longest match interacts between rules (`not in` against `not`, keywords against identifiers).", "anchors": ["src/lexer.l: rules", "src/event_lexer.l: rules"]}
{"id": "C40", "title": "Parsing follows the grammar, unambiguously and with the usual precedence", "statement": "The parser accepts a token sequence exactly when the productions with the declared precedences derive it, with the tree of the productions; that tree is unique; every sentence of the grammar without precedences is accepted. `not` binds tighter than `and`, `and` tighter than `or`.", "quantifier": "every sequence of tokens (for the generated parser see C55)", "why_tests_cant": "Nesting and length of expressions are unbounded.", "anchors": ["src/parser.y: grammar, precedence declarations", "src/ast.c: ast_and_expr_create, ast_or_expr_create"]}
{"id": "C41", "title": "Event texts mean what the event grammar says", "statement": "An event text is accepted exactly when its tokens are derived by the event grammar, and gives the listed variables with the listed values; variables with the value null are left out.", "quantifier": "every event text", "why_tests_cant": "All texts, all lists.", "anchors": ["src/event_parser.y: grammar", "src/tree.c: make_event_from_string"]}
{"id": "C42", "title": "Calls with texts behave like calls with the expressions the texts spell", "statement": "Inserting, making and adapting boundaries with a text gives what the expression spelled by the text gives, and a search with an event text in a tree built from texts reports exactly the matching subscriptions, each once.", "quantifier": "every text, every history of calls with texts, every event text. Supported inputs: declarations (any time, but not the 64th, 128th, ... while subscriptions exist) in which every float range narrow enough to be split has ends that are multiples of 2^-10 of at most 2^40; well-typed expressions (every predicate on a declared variable of its type, integer literals not within 2 of the ends of int64_t, non-empty list constants, different constants in `all of`, frequency and segment arguments that fit their 32-bit fields, `now` required where a frequency cap is used); no more distinct strings or enum integers per variable than its declared bound; events whose values have the declared types and whose segments are ordered by id. Without these conditions the claim fails or the calls abort or are undefined, see the *_refuted theorems (C01_float_range, C05_now, C14_all_of, C16_namespace, C17_bounded_enum, C26_*, C34_wide_constant). Subscriptions that, below an odd number of `not`s, use `and` only over variables the event gives (or that are required) or predicates other than `is null`, and `or` only over variables the event gives or `is null` (C02_not_or_refuted, C01_not_and_null_refuted), and `and` there only over predicates that give no value range (`=`, `in`, `one of`, `all of`, frequency, segment, geo and string predicates, null tests; C01_not_and_refuted). Where float ranges are split: events that give no such variable a value that differs by less than 2^-52 from a constant it is compared with without being equal to it (C53_near_miss_refuted).", "why_tests_cant": "Unbounded texts and histories.", "anchors": ["src/betree.c: betree_insert_with_constants, betree_make_sub, betree_change_boundaries, betree_search, betree_exists"]}
{"id": "C43", "title": "Unreadable texts change nothing", "statement": "A text that is not an expression is refused by insertion, making and boundary adaptation and leaves the tree as it was; an inserted text is a source expression, or contains `x in y` with two variables; an event text that cannot be read ends the process.", "quantifier": "every tree, every text", "why_tests_cant": "All malformed texts.", "anchors": ["src/betree.c: betree_insert_with_constants, betree_make_sub, betree_change_boundaries", "src/tree.c: make_event_from_string"]}
{"id": "C44", "title": "Numbers in texts are read, converted and compared as numbers", "statement": "An integer text stands for its value; a decimal text for a double nearest to its value, the one with the even mantissa on a tie (infinity beyond the largest double); an integer in a float comparison becomes the nearest double, itself up to 2^53; float `<`, `<=`, `>`, `>=` compare the values; float `=` holds only for values less than 2^-52 apart, and for all values at most 2^-52 - 2^-105 apart.", "quantifier": "every sequence of decimal digits (integers up to INT64_MAX), every pair of finite doubles", "why_tests_cant": "Almost all of the 2^128 pairs of doubles; rounding errors show only for rare texts.", "anchors": ["src/lexer.l: integers and floats", "src/event_lexer.l: integers and floats", "src/utils.c: feq, fne", "src/ast.c: match_numeric_compare_expr, match_equality_expr"]}
{"id": "C45", "title": "Event objects can be built in any order and searched again", "statement": "An event object holds exactly the variables that were set, whatever their places; searching it gives what a search with these variables gives; searching it again, also after the tree has grown, gives what a fresh object gives; declared names and types can be read back.", "quantifier": "every tree, every object, every sequence of finished calls and searches in between; for searches after the tree has grown no string list of the object has two strings unknown to the tree of the first search (otherwise false: C45_reuse_refuted)", "why_tests_cant": "The searches write into the object: ids, types, order and number of list elements; the effect depends on all calls in between.", "anchors": ["src/betree.c: betree_make_event, betree_set_variable, betree_make_*, betree_add_*, betree_search_with_event, betree_exists_with_event, betree_get_variable_definition", "src/tree.c: fill_event, sort_event_lists"]}
{"id": "C46", "title": "Variables can be declared later and the tree can be emptied", "statement": "Declaring another variable changes no answer about the subscriptions inserted before; an emptied tree matches nothing; later subscriptions are answered exactly.", "quantifier": "all histories in which declarations and emptying may come at any point, all events. Supported inputs: declarations (any time, but not the 64th, 128th, ... while subscriptions exist) in which every float range narrow enough to be split has ends that are multiples of 2^-10 of at most 2^40; well-typed expressions (every predicate on a declared variable of its type, integer literals not within 2 of the ends of int64_t, non-empty list constants, different constants in `all of`, frequency and segment arguments that fit their 32-bit fields, `now` required where a frequency cap is used); no more distinct strings or enum integers per variable than its declared bound; events whose values have the declared types and whose segments are ordered by id. Without these conditions the claim fails or the calls abort or are undefined, see the *_refuted theorems (C01_float_range, C05_now, C14_all_of, C16_namespace, C17_bounded_enum, C26_*, C34_wide_constant). Subscriptions that, below an odd number of `not`s, use `and` only over variables the event gives (or that are required) or predicates other than `is null`, and `or` only over variables the event gives or `is null` (C02_not_or_refuted, C01_not_and_null_refuted), and `and` there only over predicates that give no value range (`=`, `in`, `one of`, `all of`, frequency, segment, geo and string predicates, null tests; C01_not_and_refuted). Where float ranges are split: events that give no such variable a value that differs by less than 2^-52 from a constant it is compared with without being equal to it (C53_near_miss_refuted). (The 64th variable: C46_word_refuted.) Subscriptions made before the tree was emptied are not inserted afterwards (C46_kept_sub_refuted).", "why_tests_cant": "Any order of declarations, insertions and emptying; the bit arrays of stored subscriptions were sized earlier.", "anchors": ["src/betree.c: betree_add_*_variable", "src/helper.c: empty_tree", "src/tree.c: make_sub, try_short_circuit"]}
{"id": "C47", "title": "Exactly the right subscriptions are accepted", "statement": "betree_make_sub returns a subscription exactly when every frequency cap has its constant and null tests are of optional variables (`is empty`: of integer or string lists); betree_insert accepts exactly when the constants are given, as long as the strings fit.", "quantifier": "all histories, all well-typed expressions, all constants. Supported inputs: declarations (any time, but not the 64th, 128th, ... while subscriptions exist) in which every float range narrow enough to be split has ends that are multiples of 2^-10 of at most 2^40; well-typed expressions (every predicate on a declared variable of its type, integer literals not within 2 of the ends of int64_t, non-empty list constants, different constants in `all of`, frequency and segment arguments that fit their 32-bit fields, `now` required where a frequency cap is used); no more distinct strings or enum integers per variable than its declared bound; events whose values have the declared types and whose segments are ordered by id. Without these conditions the claim fails or the calls abort or are undefined, see the *_refuted theorems (C01_float_range, C05_now, C14_all_of, C16_namespace, C17_bounded_enum, C26_*, C34_wide_constant). For betree_insert float ranges that are split have widths that are whole numbers and the strings of the expression, counted with repetitions, fit next to those known (C47_repeated_refuted).", "why_tests_cant": "Any expression over any history of interned strings, with any constants.", "anchors": ["src/betree.c: is_valid, betree_insert_with_constants, betree_make_sub", "src/ast.c: all_exprs_valid, all_bounded_strings_valid, str_valid, strs_valid"]}
{"id": "C48", "title": "A line of text defines the variable it says", "statement": "add_variable_from_string declares, from fields joined by bars, the variable with the name, type, optionality and bounds of the fields; a tree set up from lines is the tree with these declarations; an unknown type ends the process.", "quantifier": "every tree, all fields without bars and line ends, integers of the range of int64_t, positive sizes, decimal numbers below the overflow threshold of double. Empty fields, size 0, carriage returns, an integer list with one bound and text that is no number do not mean what they seem to (C48_empty_field_refuted, C48_no_string_refuted, C48_carriage_return_refuted, C48_list_from_refuted, C48_no_number_refuted).", "why_tests_cant": "All names and all bounds.", "anchors": ["src/helper.c: add_variable_from_string", "src/config.c: add_attr_domain_*", "tests/real_tests.c: read_betree_defs"]}
{"id": "C49", "title": "The text of an expression reads back as the expression", "statement": "ast_to_string gives, for an expression whose lists are not empty, a text; scanning and parsing that text gives the expression again, without the numbers assigned to variables, strings and predicates. Expressions with the same text are equal in this sense. The text of a subscription in the tree means what was inserted.", "quantifier": "all expressions without null tests whose numbers, names and strings can be written (integers above INT64_MIN, doubles nearest to numbers with two decimals below 2^45, names that are identifiers, strings whose double quotes are escaped, segment ids below 2^63); all histories for stored subscriptions. Otherwise false: C49_null_refuted, C49_decimals_refuted, C49_quote_refuted, C49_segment_number_refuted, C49_least_refuted. A segment predicate without variable reads back with the default variable named (C49_segment_variable_refuted).", "why_tests_cant": "Expressions nest without bound; longest match, keywords of two words and number formats interact.", "anchors": ["src/printer.c: ast_to_string, compare_value_to_string, equality_value_to_string, set_left_value_to_string, set_right_value_to_string, list_value_to_string", "src/value.c: integer_list_value_to_string, string_list_value_to_string", "src/lexer.l: rules", "src/parser.y: grammar"]}
{"id": "C50", "title": "A copy of an expression is the expression", "statement": "clone_node gives an expression equal to its argument, with the same text.", "quantifier": "all expressions; equality only without frequency, segment and geo predicates (C50_parsed: exactly then; otherwise the copy can give other answers, C50_geo_refuted, C50_now_refuted); the text for all expressions", "why_tests_cant": "All kinds of nodes at any depth.", "anchors": ["src/clone.c: clone_node, clone_bool, clone_special, clone_compare, clone_equality, clone_set, clone_list, clone_is_null", "src/ast.c: ast_node_create"]}
{"id": "C51", "title": "Equal expressions match the same events", "statement": "eq_expr is reflexive and symmetric; two subscriptions of a tree whose expressions are equal by eq_expr, or by fast_eq_expr, match the same events.", "quantifier": "all expressions (reflexive: without NaN and infinite constants); all histories, all pairs of stored subscriptions, all events. eq_expr: expressions without null tests, frequency caps, geo predicates and float constants; fast_eq_expr: the same operator on top. Otherwise false: C51_null_refuted, C51_frequency_refuted, C51_float_refuted, C51_transitive_refuted, C51_operator_refuted, C51_not_refuted, C51_parsed_refuted.", "why_tests_cant": "All pairs of expressions over all histories of numbered variables, strings and predicates.", "anchors": ["src/ast.c: eq_expr, eq_compare_value, eq_equality_value, eq_bool_expr, eq_set_expr, eq_list_expr, eq_special_expr, fast_eq_expr"]}
{"id": "C52", "title": "Exactly which bounded strings are refused", "statement": "betree_insert returns true exactly when the constants are given and each predicate, taken by itself, has at most as many new strings (counted as often as they occur) as the table of its variable has free places; a table that is over its bound already, or a name not written as declared, is not checked. Otherwise it returns false and leaves the tree unchanged.", "quantifier": "all histories, all well-typed expressions, all constants. Supported inputs: declarations (any time, but not the 64th, 128th, ... while subscriptions exist) in which every float range narrow enough to be split has ends that are multiples of 2^-10 of at most 2^40; well-typed expressions (every predicate on a declared variable of its type, integer literals not within 2 of the ends of int64_t, non-empty list constants, different constants in `all of`, frequency and segment arguments that fit their 32-bit fields, `now` required where a frequency cap is used); no more distinct strings or enum integers per variable than its declared bound; events whose values have the declared types and whose segments are ordered by id. Without these conditions the claim fails or the calls abort or are undefined, see the *_refuted theorems (C01_float_range, C05_now, C14_all_of, C16_namespace, C17_bounded_enum, C26_*, C34_wide_constant). Declared names in lower case.", "why_tests_cant": "Acceptance depends on all strings registered by any earlier call, including refused ones.", "anchors": ["src/ast.c: get_attr_string_bound, get_string_map_for_attr, str_valid, strs_valid, all_bounded_strings_valid", "src/betree.c: is_valid, betree_insert_with_constants"]}
{"id": "C53", "title": "Searches when float ranges are split", "statement": "In a tree whose float ranges are split, everything betree_search reports is true of the event and is reported once; a subscription is reported exactly when it is true of the event if no value the event gives a float variable with a finite range differs by less than 2^-52 from a constant the subscription compares it with without being equal to it. betree_exists agrees with betree_search; events without a required value are refused. Insertions that split float ranges finish if the widths are whole numbers.", "quantifier": "all histories as in C01 in which float variables may have finite ranges whose ends, as long as the range is narrow enough to be split, are multiples of 2^-10 of at most 2^40; all events; `not` as in C01. Near misses are lost: C53_near_miss_refuted, C01_float_range_refuted; for insertions to finish: widths that are whole numbers (otherwise false: C10_float_split_refuted) and the conditions of C10.", "why_tests_cant": "The ranges depend on the insertion history and on rounding; almost all doubles are never tried.", "anchors": ["src/tree.c: split_value_bound, is_event_enclosed, sub_is_enclosed, is_atomic, splitable_attr_domain, create_cdir_with_cdir_parent, match_be_tree, search_cdir", "src/ast.c: get_variable_bound_inner", "src/utils.c: feq"]}
{"id": "C54", "title": "The generated scanners do what the scanner rules say", "statement": "For every text the scanners flex generated (lexer.c and event_lexer.c, the loop of yylex on its compressed tables) return exactly the tokens the rules of lexer.l and event_lexer.l call for: at each point the longest match, among equal ones the first rule. The loop never reads outside of its tables and always comes to the end.", "quantifier": "all texts (sequences of characters other than NUL).", "why_tests_cant": "Texts of unbounded length; the tables have 197 and 54 base entries and thousands of transitions, tests take few of them.", "anchors": ["src/lexer.c: yylex, yy_get_previous_state, yy_accept, yy_ec, yy_meta, yy_base, yy_def, yy_nxt, yy_chk", "src/event_lexer.c: yylex (zzlex), yy_get_previous_state and tables", "src/lexer.l", "src/event_lexer.l"]}
{"id": "C55", "title": "The generated parsers accept what the grammars say", "statement": "For every sequence of tokens the parsers bison generated (parser.c and event_parser.c, the loop of yyparse on its compressed tables with the actions of the rules) come to an end, never read outside of their tables and stacks and never read another member of a semantic value than the one written. They accept exactly the sequences the grammar with its precedence declarations derives, and what they store is the expression or the event the productions say. Together with C54: a text goes through the generated scanner and parser to the result the rest of the model uses.", "quantifier": "all sequences of tokens and all texts without NUL; that every sentence is accepted: expressions for which five times the nesting of parentheses plus the number of `not` is at most 9970 (deeper ones can be refused: C55_deep_not_refuted, C55_deep_paren_refuted); events without restriction.", "why_tests_cant": "The tables have 168 and 83 states and hundreds of entries; nesting and length are unbounded.", "anchors": ["src/parser.c: yyparse, yytranslate, yypact, yydefact, yypgoto, yydefgoto, yytable, yycheck, yyr1, yyr2", "src/event_parser.c: yyparse (zzparse) and tables", "src/parser.y", "src/event_parser.y"]}
{"id": "C56", "title": "The linked index answers like a tree", "statement": "The index as tree.c builds it, structs in memory that point to each other, with parent pointers, counted arrays that are reallocated, and fields filled in after allocation, gives for every program of calls exactly the answers of the tree model on which the other properties are stated. No call reads a null pointer, a released block, a block of another type or an array entry out of range, and removing, moving and walking up through parent pointers find what they look for.", "quantifier": "all trees, all finite programs of calls (insert, make_sub, insert_sub, change_boundaries, declare, search, exists) whose calls finish in the tree model, also with repeated ids and subscriptions inserted several times; with empty_tree: programs that keep the ids in the tree different and insert a made subscription once (otherwise C56_released_refuted).", "why_tests_cant": "Pointer mistakes show only in some shapes of trees of unbounded size, and tests without a memory checker do not see them.", "anchors": ["src/tree.c: insert_be_tree, space_partitioning, space_clustering, insert_sub, remove_sub, move, create_cdir, create_pdir, is_attr_used_in_parent_cnode, get_next_highest_score_unused_attr, update_partition_score, match_be_tree", "src/tree.h: struct cnode, lnode, pdir, pnode, cdir"]}
{"id": "C57", "title": "Every block of the index is released once", "statement": "After any such program betree_free releases every struct, name, array and subscription of the index exactly once and nothing of the index is left: memory has exactly the subscriptions that the caller made and did not insert. After empty_tree it has those and the two structs of an empty tree.", "quantifier": "all trees and all finite programs of calls that keep the ids in the tree different and insert a made subscription once (otherwise C57_repeated_id_refuted, C57_inserted_twice_refuted). Blocks inside of a subscription (its expression) and temporary blocks of a call are not modelled.", "why_tests_cant": "Leaks and double releases depend on the shape of the tree.", "anchors": ["src/tree.c: free_cnode, free_lnode, free_pdir, free_pnode, free_cdir, remove_sub, move", "src/betree.c: betree_deinit, betree_free", "src/helper.c: empty_tree"]}
{"id": "C58", "title": "From texts to answers with all parts as in the C code", "statement": "Programs of calls whose texts go through the generated scanners and parsers (tables and stacks) and whose index consists of linked structs in memory are answered as the meaning of the texts says: a search reports, once each, exactly the subscriptions whose texts, as the scanner rules and grammars read them, are true of the event; no step reads outside of a table, stack, array or live block; betree_free leaves exactly the subscriptions the caller made and did not insert.", "quantifier": "all finite programs of supported calls (as in C42: well-typed expressions, different ids, any refused or unreadable texts, any searches that finish in between) with texts that fit the stack of the parser; for the answers of the search the conditions of C42.", "why_tests_cant": "The composition of all parts; each has unboundedly many states.", "anchors": ["src/betree.c: betree_insert_with_constants, betree_make_sub, betree_insert_sub, betree_change_boundaries, betree_search, betree_exists, betree_free", "src/lexer.c", "src/parser.c", "src/event_lexer.c", "src/event_parser.c", "src/tree.c"]}
{"id": "C59", "title": "The linked red-black tree of predicates is an ordered set", "statement": "jsw_rbtree.c with its nodes in memory and the pointers of jsw_rbinsert (which are out of date for a while after a rotation): for every order and every sequence of calls on a new tree every call returns within three rounds per insertion, a search finds the element inserted first among the equal ones, jsw_rbsize counts the insertions; memory has exactly the nodes of a red-black tree in order, besides blocks of others, which stay as they were; jsw_rbdelete releases every node once. Numbering predicates with this tree gives the numbers the other properties speak about.", "quantifier": "all total orders on all types of elements, all finite sequences of calls of jsw_rbinsert, jsw_rbfind and jsw_rbsize followed by jsw_rbdelete, all memories; all lists of expressions for the numbers.", "why_tests_cant": "A wrong pointer in a rotation shows only in trees of particular shapes, of which there are unboundedly many.", "anchors": ["src/jsw_rbtree.c: jsw_rbnew, jsw_rbinsert, jsw_rbfind, jsw_rbsize, jsw_rbdelete, jsw_single, jsw_double, is_red, new_node", "src/hashmap.c: assign_pred, make_pred_map, free_pred_map"]}
{"id": "C60", "title": "Expressions own their memory", "statement": "With every node, name, string, list and array of an expression as an allocated block: reading any text (tokens from the generated scanner through the tables and stack of the generated parser, with the strings the scanner allocates and the copies the actions make) never uses or releases a block that is not allocated. If the text is accepted, memory has exactly what it had and the blocks of the expression, each once, so that the temporary strings are released; free_ast_node gives exactly these back. clone_node makes a copy of new blocks, and either of the two can be released without the other. A refused text leaves blocks behind whenever an identifier or a string was read before the parser gave up.", "quantifier": "all texts without NUL, all states of the memory, all expressions. Memory that the parser and scanner use for themselves (buffers, a larger stack) is not counted; the reading functions are run without running out of memory.", "why_tests_cant": "Leaks and double releases depend on the shape of the text; the tests do not count blocks.", "anchors": ["src/parser.y", "src/parser.c: yyparse", "src/lexer.l: SAVE_STRING, SAVE_IDENTIFIER", "src/ast.c: ast_*_create, free_ast_node, free_special_expr, free_set_expr, free_list_expr", "src/value.c: make_integer_list, add_integer_list_value, add_string_list_value, free_string_list", "src/clone.c: clone_node", "src/alloc.c: bstrdup"]}
{"id": "C61", "title": "Events and searches own their memory", "statement": "With every event, variable, name, string, list, array, report and the arrays a search makes for itself as allocated blocks: reading any event text leaves exactly the blocks of the event beside what was there, and releasing the event gives exactly these back, also after it was filled and sorted (strings that become duplicates are released once). A search with a text or an event object, and betree_exists, end as they do without memory, never use or release a block that is not allocated, and leave exactly the report (and the object) allocated; an event that is refused because a variable is missing costs one block, the environment, and nothing else does, in any sequence of searches. betree_set_variable loses exactly the variable that was in the slot.", "quantifier": "all texts without NUL, all states of the memory, all trees, all events including those whose search aborts or is undefined in the model without memory. What the scanner and parser allocate for themselves is not counted; evaluation of a subscription allocates nothing and is modelled as reading the whole event.", "why_tests_cant": "Leaks and double releases depend on the event and on the report; the tests do not count blocks.", "anchors": ["src/event_parser.y", "src/event_parser.c: yyparse (zzparse)", "src/event_lexer.l", "src/tree.c: make_pred, free_pred, add_variable, free_event, make_event_from_string, fill_event, sort_event_lists, try_get_id_for_attr, add_sub, betree_search_with_preds, betree_exists_with_preds, init_subs_to_eval, add_sub_to_eval", "src/value.c: add_segment, add_frequency, remove_duplicates_string_list, free_value", "src/betree.c: make_environment, betree_search, betree_search_with_event, betree_exists, betree_exists_with_event, make_report, free_report, betree_make_event, betree_set_variable"]}
{"id": "C62", "title": "The configuration owns its memory", "statement": "With the configuration, its domains, names, string tables (hash tables of map.c with their bucket arrays and nodes), integer tables and arrays as allocated blocks: for every sequence of declarations, strings and integers that get numbers, and lookups, each call gives the number it gives without memory, the memory holds exactly the blocks of the configuration beside what was there, each once, lookups change nothing, and free_config gives exactly these blocks back.", "quantifier": "all parameters, all sequences of calls that end in the model without memory, all states of the memory; the string tables have at most 2^30 strings, and no table but the first is left without a string (which takes a variable declared with bound 0). The predicate map is one block here; its tree is C59.", "why_tests_cant": "Uninitialised memory from realloc is often zero by chance; the tests declare no variable with bound 0 and do not count blocks.", "anchors": ["src/config.c: make_config, free_config, make_attr_domain, add_attr_domain, add_string_map, add_integer_map, add_to_string_map, add_to_integer_map, get_id_for_string, get_id_for_ienum, try_get_id_for_string, try_get_id_for_ienum", "src/map.c: map_get_, map_set_, map_resize, map_addnode, map_newnode, map_deinit_"]}
{"id": "C63", "title": "A whole program owns its memory", "statement": "With the tree, the configuration, the red-black tree of predicates, the expressions, the masks and arrays of subscriptions, the structs of the index, events, environments and reports all as allocated blocks: every program of public calls with texts (betree_make_with_parameters, declarations, betree_insert_with_constants, betree_make_sub, betree_insert_sub, betree_change_boundaries, empty_tree, betree_search, betree_exists, betree_free) that ends on values ends in memory with the same answers. No block is used after it was released and none is released twice. After the calls exactly the blocks of the tree are in use, each once, and what was lost; after betree_free exactly those of subscriptions that were made and never inserted, and what was lost. Nothing is lost when every expression text is read, no insertion lacks a constant and no event lacks a needed variable.", "quantifier": "all parameters, all programs of calls (for C63_supported and C63_all_released: the supported ones of C58), all states of the memory at the start; the string tables have at most 2^30 strings and none but the first is left without a string (C62). Structs of the index and the other blocks are in separate address spaces. The stacks of the parsers and the buffers of the scanners are not counted.", "why_tests_cant": "A test sees one program and, without a leak checker, not the blocks that remain; a dangling key in the tree of predicates shows only when the freed expression is compared again.", "anchors": ["src/betree.c: betree_make_with_parameters, betree_insert_with_constants, betree_make_sub, betree_insert_sub, betree_change_boundaries, betree_search, betree_exists, betree_free", "src/helper.c: empty_tree", "src/tree.c: make_sub, insert_be_tree, free_sub, free_lnode, free_cnode, free_pnode, free_pdir, free_cdir", "src/ast.c: assign_variable_id, assign_str_id, assign_ienum_id, sort_lists, fix_float_with_no_fractions, assign_constants, assign_pred_id", "src/config.c: free_config"]}
{"id": "C64", "title": "A caller who follows simple rules is always served", "statement": "The rules mention only what the caller wrote, never the state of the tree: names in lower case, ranges in order, a vocabulary of strings and enum integers that fits the bounds of the variables, well-typed expressions that use that vocabulary, new ids, each made subscription inserted at most once, no declaration that makes the number of variables a multiple of 64 once there are subscriptions. Then every call of the program ends, none aborts or has undefined behaviour, and each is answered as it should be: insertions and makings succeed exactly when their text is read, their constants are given and (for making) their null tests are allowed; searches report no id twice, only subscriptions that are true of the event and every one that is true of it; betree_exists says whether there is one. betree_free then gives back all memory but the subscriptions never inserted and what refused calls lost.", "quantifier": "all programs that follow the rules (ProgramSpec.v), of any length, all parameters with a non-zero capacity byte and a maximal split below SIZE_MAX - 1, all states of the memory at the start; float ranges are open at an end or have whole widths; betree_make_sub and betree_change_boundaries get no comparison with a float; searches while there were at most INVALID_PRED predicates and connectives; exactness of a search for subscriptions that use `not` as in C01.", "why_tests_cant": "A test runs one program; that no program of a valid caller, however long, meets an abort, an endless loop or a wrong answer is a statement about all of them.", "anchors": ["src/betree.c: betree_make_with_parameters, betree_insert_with_constants, betree_make_sub, betree_insert_sub, betree_change_boundaries, betree_search, betree_exists, betree_free", "src/helper.c: empty_tree", "src/config.c: add_attr_domain_*"]}
{"id": "C65", "title": "Objects the caller builds are owned by exactly one side", "statement": "Programs that also build integer, string, segment and frequency-cap lists, variables, event objects, constants and reports call by call, use them in insertions and searches (betree_search_with_event, betree_exists_with_event, reports filled by several searches) and release them with the betree_free_* functions, in any order. Every such program that ends on values ends in memory with the same answers, the same index and the same objects. No block is used after it was released and none is released twice. After the calls exactly the blocks of the tree, of the pointers the caller still has and what was lost are in use, each once; after betree_free every such pointer can still be released, and then only subscriptions never inserted and what was lost remain. Nothing is lost when the calls on the tree are clean (C63), no place of a list or event is set twice and no searched object lacks a needed variable.", "quantifier": "all parameters, all programs of calls (ObjProgram.v), all states of the memory at the start; string tables as in C62. A pointer that was given to a list, variable or event, or was released, is not used again; a list has all its elements when its variable is made.", "why_tests_cant": "Ownership moves silently from the caller to a list, a variable or an event: a double free or a leak needs a certain order of calls and shows only under a leak checker.", "anchors": ["src/betree.c: betree_make_integer_constant, betree_free_constant, betree_make_integer_list, betree_add_integer, betree_make_string_list, betree_add_string, betree_make_segments, betree_make_segment, betree_add_segment, betree_make_frequency_caps, betree_make_frequency_cap, betree_add_frequency_cap, betree_make_*_variable, betree_free_*, betree_make_event, betree_set_variable, betree_search_with_event, betree_exists_with_event, make_report, free_report", "src/value.c: free_string_list, free_segments, free_frequency_caps", "src/tree.c: free_event, fill_event, sort_event_lists, make_environment"]}
{"id": "C66", "title": "Programs that build their events call by call are answered rightly and give their memory back", "statement": "A program as in C64 may also build lists, variables, event objects, constants and reports call by call, insert with the constants it made, search and test with the event objects it built, search again with an object that was searched before, and release what it made. Besides the rules of C64: it uses no pointer it gave away or released, writes no place outside a list or event, sets all elements of a string, segment or cap list before making a variable of it, and searches an object again only if at every earlier search each of its string lists had at most one string that no subscription used. Then every call ends, searches and tests of an object are answered by the truth of the subscriptions for the values that were put into the object (also when earlier searches renumbered and sorted its lists, and strings became known and variables were declared in between), a report used for several searches holds, after each, what it held before (what the last call that used it answered) followed by what a new report would hold, with all counters added, incomplete objects are refused with an untouched report, no block is used after its release or released twice, and after betree_free and the release of the caller's pointers only subscriptions that were never inserted are left, if no call loses memory.", "quantifier": "all valid programs of any length over all calls of the tree and of the objects, all parameters, all geometries, all memory states", "why_tests_cant": "The state of an object after a search depends on all strings interned so far; whether it can be searched again depends on the whole history. Tests build an event for each search.", "anchors": ["src/betree.c: betree_search_with_event, betree_exists_with_event, betree_make_event, betree_set_variable, betree_make_*_variable, betree_add_*, make_report, free_report, betree_make_integer_constant, betree_insert_with_constants", "src/tree.c: fill_event, sort_event_lists, betree_search_with_preds", "src/value.c: free_value"]}
{"id": "C67", "title": "Removal from the linked red-black tree", "statement": "jsw_rberase removes the element equal to the given one, keeps the others in order, restores the red-black rules, releases one node if it removes something and none otherwise, and never reads through NULL or a released node. Any sequence of insertions, removals, searches and questions for the size on a new tree is answered as by the list of the elements inserted and not removed; jsw_rbdelete then releases exactly the nodes of the tree. The size counts insertions minus removals from a non-empty tree, modulo 2^64.", "quantifier": "every total order, every red-black tree in order, every sequence of calls, every surrounding memory", "why_tests_cant": "the pointers g, p, q and f move through rotations of both kinds; which rotation happens depends on the shape of the whole tree, and the tests of the library never call jsw_rberase", "anchors": ["src/jsw_rbtree.c:200-271", "src/jsw_rbtree.c:42-60", "src/jsw_rbtree.c:115-198"]}
{"id": "C68", "title": "The scanners' buffers", "statement": "The text is copied into a buffer with two NULs at its end; the scanners move pointers through this buffer, write a NUL after each token and put the character back before the next one. They read and write only inside of the buffer, whatever its memory contained, and the calls of yylex return the tokens flex promises for the rules. The four blocks of a scanner (its state, the stack of buffers, the buffer, the characters) are released once, whatever the parser did, so that reading a text leaves the blocks of the result, or those the parser lost, and nothing of the scanner. This holds for texts of at most INT_MAX - 2 characters; longer ones make the size of the buffer overflow.", "quantifier": "every text without NUL, every content of uninitialised memory, every state of the heap", "why_tests_cant": "an access one past the buffer or a character that is not put back shows only for particular neighbouring tokens, mostly at the end of the text; texts of two gigabytes are not tested", "anchors": ["src/lexer.c:1015-1490", "src/lexer.c:1593-1620", "src/lexer.c:1792-1881", "src/lexer.c:1997-2125", "src/lexer.c:2320-2435", "src/event_lexer.c:933-1290", "src/parser.y:237-255", "src/event_parser.y:179-198"]}
{"id": "C69", "title": "The parsers' stacks", "statement": "The generated parsers keep states and semantic values in two arrays, first local ones with 200 entries, then in allocated blocks that are doubled up to 10000 entries. They read and write only inside of these arrays and only entries that were written, states fit the type of their array, both arrays lie in the block one after the other, every block is released once, also when the text is refused or the limit is reached, and the outcome is that of a parser whose stack is a list with 10000 entries at most. Together with the scanners' buffers (C68) this is all that parse and event_parse do.", "quantifier": "every sequence of tokens, every text without NUL of at most INT_MAX - 2 characters, all sizes of the semantic value, every state of the memory", "why_tests_cant": "the stacks grow at 200, 400, ... entries; tests with nesting that deep, and with an error at that point, do not exist, and an access one past the array shows only there", "anchors": ["src/parser.c:430-464", "src/parser.c:935-951", "src/parser.c:1225-1345", "src/parser.c:1400-1450", "src/parser.c:1915-2124", "src/event_parser.c:450-490", "src/event_parser.c:1262-1970"]}
{"id": "C70", "title": "Printing an expression in memory", "statement": "ast_to_string builds the text of an expression out of the texts of its parts, each in a block of its own that basprintf allocated. It reads only the blocks of the expression and strings it made, releases every block it made but the one with the result, each once, and that one has the text of the expression (which C49 speaks about). It succeeds for no other expression than those that have a text and, apart from a copied name or literal, only with texts shorter than INT_MAX; at INT_MAX an int overflows and beyond it the program ends. A text that is read, printed and released leaves memory as it was.", "quantifier": "all expressions whose blocks are allocated and that have a name where the text needs one, every state of the memory; for the round, all texts without NUL", "why_tests_cant": "which intermediate strings are released depends on the shape of the expression; a leak or a string released too early does not show in the text", "anchors": ["src/printer.c:11-355", "src/value.c:73-92", "src/value.c:116-135", "src/alloc.c:32-74"]}
{"id": "C71", "title": "Printing events and variables", "statement": "event_to_string writes the text of an event and its NUL to the start of the caller's buffer, leaves the rest of the buffer as it was and memory as it was: the names and values in order with commas between. It succeeds exactly for the events that have such a text (no empty list, no segments, no frequency caps, no slot without variable) in buffers that hold it with its NUL. print_variable writes the type, the name and the value and leaves memory as it was. An event that is read, printed and released leaves memory as it was.", "quantifier": "all events and variables, all buffers, every state of the memory; for the round, all event texts without NUL", "why_tests_cant": "the functions write without knowing the size of the buffer; that the length they keep is that of what was written has to hold for every sequence of values", "anchors": ["src/tree.c:1641-1694", "src/printer.c:357-422", "src/value.c:331-401", "src/alloc.c:32-74"]}
{"id": "C72", "title": "Scanner and parser together", "statement": "The parser calls yylex when it needs a token and has none, and keeps the token until it is shifted; the scanner's pointers stay where the last call left them. With this order of events reading a text ends with the same result, the same blocks at the same addresses and the same use of the stacks as with all tokens read before, for which C60, C61, C68 and C69 say what they are: only the blocks of the result are new, or what the refused text lost. The scanner's blocks are there at every call, yylex is not called again after the end was shifted, and when a text is refused the scanner stands behind the token the parser stopped at.", "quantifier": "every text without NUL of at most INT_MAX - 2 characters, all sizes of the semantic value, every content of uninitialised memory, every state of the memory", "why_tests_cant": "the order of reading and reducing depends on the tables and the text; a token that is read once too often or lost shows only for particular neighbours", "anchors": ["src/parser.c:1282-1420", "src/event_parser.c:1396-1470", "src/lexer.c:1015-1490", "src/parser.y:237-255", "src/event_parser.y:179-198"]}
{"id": "C73", "title": "The drawing of the index shows the tree", "statement": "write_dot_file, called after any program of public calls, ends without an error and leaves memory with the blocks it had: every name it makes is released. The text it writes is the header, the statements of the tree and the closing brace: the nodes with their leaves, groups of pnodes and tables of ranges, then the edges, then the levels, where the names are the paths that the parent pointers give. Each subscription of the tree is shown once for each time it stands there, and no other; edges and levels name only nodes, groups and cells that are declared.", "quantifier": "all configurations and parameters, all programs of public calls that do not empty their tree, or that do and follow the rules; all trees they build", "why_tests_cant": "the names come from walks up the parent pointers and the rows of a table from the shape of the tree of ranges; tests only draw a few trees and do not read the file", "anchors": ["src/debug.c:11-569", "src/debug.c:641-697", "src/debug.c:764-781"]}
{"id": "C74", "title": "Printed lines about variables, ranges, counters and types", "statement": "From the line that print_attr_domain prints the name, the type, whether the variable may be undefined and the values can be read back, so different definitions have different lines as far as the line tells the ends (doubles with two decimals, strings by their upper end). The same holds for print_cdir, which does not abort for any range in the tree of any program; the counters can be read off the line of print_report, and different types have different texts.", "quantifier": "all definitions whose name has no blank, all ranges, all programs of public calls, all reports and types", "why_tests_cant": "special texts for the extreme ends and the types share parts (string, string list); that no two lines collide is a statement about all pairs", "anchors": ["src/printer.c:424-630"]}
{"id": "C75", "title": "The index keeps its shape", "statement": "After every history of finished calls whose inserted ids differ: in each node the partitions have different variables, declared ones that label no partition above; the subscriptions that stay in a node ask about none of these variables; everything below a partition asks about its variable; a partition holds at least one subscription and at least partition_min_size of them; a range that is not divided has no partitions unless it is one value; the parts of a divided range start and end where it does and meet. So at most as many partitions lie inside each other as there are variables, and there are at most variables times subscriptions of them. The variables recorded with a subscription are those its expression asks about.", "quantifier": "all histories of finished calls (insertions, refused ones, made and inserted subscriptions, changed boundaries, late declarations, emptied trees), all expressions, declarations and parameters", "why_tests_cant": "which partition takes a subscription depends on scores that change with every insertion; that no order of insertions leaves a subscription beside a partition it belongs in is a statement about all orders", "anchors": ["src/tree.c:413-477", "src/tree.c:497-549", "src/tree.c:588-652", "src/tree.c:751-864", "src/tree.c:898-1040", "src/tree.c:1367-1442"]}
{"id": "C76", "title": "The index stays small", "statement": "After every history of finished calls: the range of a partition (truth values, strings, integers with ends in order, floats with ends in order that are multiples of 2^-10 and a whole number apart) is narrower than max_domain_for_split, at most 1 + log2 of its width divided ranges lie inside each other, and it is divided into less than four times its width ranges. If the inserted ids differ and all ranges are of these kinds, the whole index has at most 1 + variables * subscriptions * 4 * max_domain_for_split nodes.", "quantifier": "all histories of finished calls, all expressions, declarations and parameters; other float ranges are left out (their middle is rounded)", "why_tests_cant": "how deep a range is divided depends on all subscriptions; a middle that is off by one shows only for particular widths, as an endless recursion or a lost value", "anchors": ["src/tree.c:717-749", "src/tree.c:809-864", "src/tree.c:898-1040"]}
{"id": "C77", "title": "A search visits few nodes", "statement": "What a search evaluates are the subscriptions of the nodes it visits, in order. After every history of finished calls: in a partition whose range is ordered, an event with one value for the variable (not a list) visits at most 1 + 2 * (ranges inside each other) ranges, so at most 3 + 2 * log2 of the width. If that holds for all partitions and the inserted ids differ, at most 1 + variables * subscriptions * (3 + 2 * log2 max_domain_for_split) nodes are visited.", "quantifier": "all histories of finished calls, all expressions, declarations, parameters and events with one value for each partition", "why_tests_cant": "a search that also goes into ranges that cannot hold the value gives the same answers, only slower; no test of answers sees it", "anchors": ["src/tree.c:120-137", "src/tree.c:139-188", "src/tree.c:229-242"]}
