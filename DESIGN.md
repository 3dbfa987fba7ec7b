# Design of the be-tree verification

Target: FrankBro/be-tree (C), sources in /repo/src.  The model and the proofs are written in Coq 8.16.1 under
`rocq/theories` (logical name `Verif`).  Model files contain only total, computable definitions; every
definition cites the C lines it models.  Specification files say what the properties mean without using the
functions of the model that compute answers.  Property theorems are in the `Props*.v` files, each followed by
`Print Assumptions` and by an `Example` showing a concrete case that meets the hypotheses.

## Trusted base

- Coq's kernel (the `vm_compute` machine is used for examples and refutations).
- `Print Assumptions` says "Closed under the global context" for every property theorem: no axiom is used, not
  even one of the standard library.  The check of all axioms in the loaded libraries lists seven
  `Coq.ssr.ssrunder.Under_rel.*` names (module-type fields inside the standard library's ssreflect files, loaded by
  `lia`'s dependencies); no theorem here depends on them.
- The reading of the C code: the correspondence between the definitions and the cited lines is by inspection.
- The C compiler, libc (`malloc`, `qsort`, `strcmp`, `strstr`, `strtoll`, `atof`, `fmin`, `fabs`).
- Nothing of flex and bison: the scanners and parsers they generated are modelled with their tables (C54, C55), the scanners'
  buffers (C68), the parsers' stacks (C69) and the calls between them (C72).
- `atof` and `strtod` round to the nearest double, and `strtok_r`, `strtoll`, `strtol` behave as in the C standard (C locale), as the model is proved to do (C44); `%.2f` rounds the exact value to the nearest hundredth, ties to even; texts have no NUL before their end.
- IEEE-754 binary64 arithmetic with rounding to nearest even, as in `Coq.Floats.SpecFloat`.

## What is modelled

| file | content | C source |
|---|---|---|
| Base.v | outcomes (Ok, Abort, UB, Fuel), 64-bit limits, bit sets as lists of 64-bit words | memoize.c, value.h |
| Float.v | doubles as `SpecFloat` values | utils.c 38-46 and arithmetic |
| Value.v | event values, ranges, sorting and duplicate removal | value.h, value.c, utils.c |
| Special.v | frequency caps, segments, string predicates (`Geo`: distance test as a parameter) | special.c |
| Ast.v | expressions, operand reordering | ast.h, ast.c 21-251 |
| Source.v | abstract syntax of expressions and the parser's actions | parser.y 94-227 |
| Match.v | evaluation with memo tables and counters | ast.c 382-1069, var.c |
| Config.v | declarations, interning tables, attribute lookup | config.c, tree.c 1617-1640 |
| HashMap.v | the string hash table | map.c, map.h |
| Assign.v | ids, constants, list sorting, float fixing, validity checks | ast.c 1868-2806, betree.c 31-121 |
| Bound.v | ranges of variables in expressions, boundary adaptation | ast.c 1071-1866, betree.c 123-457 |
| RbTree.v | red-black tree | jsw_rbtree.c |
| PredMap.v | order of predicates, numbering | ast_compare.c, hashmap.c |
| Tree.v | index tree: insertion, reorganisation, search, shortcut, lookup by id | tree.c |
| Api.v | public operations | betree.c 459-619, 674-723, helper.c 97-105, tree.c 1749-1943 |
| Lexer.v | scanners of expression and event texts | lexer.l, event_lexer.l |
| Flex.v, FlexTables.v | the generated scanners with their tables | lexer.c 565-742, 1057-1490, 1593-1620, event_lexer.c 565-660 and the same code |
| FlexBuffer.v | the scanners with their buffer and its memory | lexer.c 421-476, 558-563, 793-827, 1015-1490, 1593-1620, 1792-1881, 1997-2125, 2320-2435, parser.y 237-255, event_parser.y 179-198 |
| Bison.v, BisonTables.v | the generated parsers with their tables and actions | parser.c 492-770, 1202-2130, event_parser.c 511-719, 1259-1970 |
| BisonStack.v | the generated parsers with their stacks as arrays | parser.c 430-464, 935-951, 1225-1345, 1405-1450, 1915-2127, event_parser.c 450-490, 1262-1973 |
| BisonLive.v | scanners and parsers together: tokens are read when the parser needs them | parser.c 1282-2062, event_parser.c 1396-1970, parser.y 237-255, event_parser.y 179-198 |
| Parser.v | parser of expressions | parser.y 87-255 |
| EventText.v | parser of events | event_parser.y 80-198 |
| EventObj.v | event objects and the functions that build them | betree.c 584-604, 754-899, 943-954 |
| Helper.v | definitions of variables in text form; strtok_r, strtoll, strtod | helper.c 9-95 |
| Printer.v | texts and copies of expressions | printer.c 11-355, value.c 73-135, clone.c |
| HeapPrint.v | the blocks and buffers of printing expressions, events and variables | printer.c 11-422, value.c 73-135, 331-401, tree.c 1641-1694, alloc.c 32-74 |
| EqExpr.v | equality of expressions | ast.c 2234-2460 |
| Linked.v | the index as structs in memory that point to each other: allocation, reallocation, parent pointers, releasing | tree.c 46-1205, 1251-1290, 1749-1793 |
| LinkedApi.v | public operations on it, programs of calls | betree.c 459-672, helper.c 97-105 |
| Machine.v | programs of calls with texts through the generated scanners and parsers and the linked index | betree.c 459-604, tree.c 1811-1821 |
| LinkedRb.v | the red-black tree as linked nodes in memory, with the pointers of the insertion and the release | jsw_rbtree.c 26-198, 273-276 |
| LinkedErase.v | removal from the linked red-black tree | jsw_rbtree.c 200-271 |
| Ledger.v | memory as a set of allocated blocks | alloc.h, alloc.c |
| HeapExpr.v | expressions with addresses; reading, copying and releasing them | parser.c 1202-2130, lexer.l 6-24, ast.c 21-385, value.c 12-115, 251-268, clone.c, tree.c 1823-1839 |
| HeapEvent.v | events, reports and searches with addresses | event_parser.c 1513-1740, event_lexer.l, value.c 32-50, 137-329, 403-454, tree.c 27-43, 1090-1128, 1354-1364, 1605-1639, 1698-1930, betree.c 548-625, 832-954 |
| HeapConf.v | the configuration with addresses: domains, hash tables, arrays | config.c 12-109, 201-371, map.c 23-166, map.h 33-34, hashmap.c 55-65 |
| HeapWorld.v | the tree with all its blocks: passes over expressions, predicates, subscriptions, public operations, releasing | betree.c 459-672, helper.c 97-105, tree.c 1077-1205, 1587-1603, ast.c (the passes), hashmap.c 13-71 |
| ObjProgram.v | programs that build lists, variables, event objects, constants and reports call by call | betree.h 57-69, 102-149, betree.c 559-604, 725-954 |
| HeapObj.v | the blocks of these objects | betree.c 584-625, 725-954, value.c 251-297 |
| LinkedPred.v | numbering predicates with that tree | hashmap.c 13-71 |
| DotFile.v | the drawing of the index as a graph, on the linked index | debug.c 11-569, 641-697, 764-781 |
| ShowDomain.v | printing variables, ranges, counters and types | printer.c 424-630 |
| TextApi.v | public operations on texts | betree.c 459-604, tree.c 1811-1821 |

Specification files: Spec.v (meaning of source expressions on events, well-typedness), TreeSpec.v (contents and
leaves of a tree), Hist.v (histories of supported calls: `reach_in m`, `builds_in m`; `m` is the condition on float ranges, `reach` is `reach_in NoSplit`), Calls.v (histories of arbitrary
finished calls), Bounded.v (bounded strings), Accept.v (what should be accepted), HelpSpec.v (lines that define variables), PrintSpec.v (what the text of an expression should be read as), HeapPrintSpec.v (the texts of events and variables), DotSpec.v (the statements of a drawing), ShapeSpec.v (the shape of the index), SizeSpec.v (the size of the index), WalkSpec.v (the nodes a search visits), ShowSpec.v (reading printed lines), LexSpec.v (what flex does), BisonSpec.v (the depth of expressions), FloatSpec.v (doubles as numbers), LinkedSpec.v and LinkedRbSpec.v (the blocks a tree has in memory), HeapSpec.v, HeapEventSpec.v, HeapWorldSpec.v, HeapObjSpec.v and HeapConfSpec.v (the blocks of an expression, an event, a report, a configuration, an object of the caller), MachineSpec.v (supported programs), ProgramSpec.v (programs that follow the rules, and what their calls should answer), ObjProgramSpec.v (the same with objects built call by call), ObjSpec.v (event objects searched repeatedly), CountSpec.v (what the counters of a report count), Grammar.v and EventGrammar.v (the
productions of the two grammars), TextHist.v (histories of calls with texts: `treach_in`).  Check.v has boolean checkers for the hypotheses and Cases.v the
concrete world used by the examples.  Refute.v, RefuteText.v, RefuteObjects.v, RefuteLate.v, RefuteAccept.v, RefuteShape.v, RefuteHelp.v, RefutePrint.v, RefuteEq.v, RefuteFloat.v, RefuteGen.v, RefuteLinked.v, RefuteHeap.v, RefuteHeapEvent.v, RefuteHeapConf.v, RefuteHeapWorld.v, RefuteHeapObj.v, RefuteErase.v, RefutePrintMem.v, RefuteDot.v and RefuteShow.v have the counterexamples.  All other files are proofs.

Outcomes: `Abort` is a call of abort(), `UB` is undefined behaviour (overflow, reading a union member that was not
written, an array index out of range, division by zero), `Fuel` is recursion deeper than the bound of the model
(shown impossible in PropsTotal.v for supported calls).

## What is not modelled

- Machine.v, HeapExpr.v, HeapEvent.v and the files that build on them read all tokens before the parser runs; C72 shows that reading them one by one makes no difference.
- Values or blocks: Ast.v to Api.v use values; Linked.v, LinkedRb.v and the Heap files have the pointers.  In HeapWorld.v the
  structs of the index (with those of subscriptions) and all other blocks are in two separate address spaces, and
  parts that are only read (the configuration by is_valid, a subscription by the insertion) are read as a whole, which asks for
  more living blocks than the C code does.  Linked.v's `drop` is stricter than free: a subscription cannot be released as another kind of block.
  For the index Tree.v uses values as well, with a list of the variables used above instead of parent
  pointers; Linked.v has the pointers and C56 shows that this makes no difference, likewise RbTree.v, LinkedRb.v and C59 for
  the tree of predicates.  Allocation never fails.
- debug.c 699-762 (not called).
- Removing single subscriptions (the API has no removal; betree_delete is commented out).
- geo_within_radius: the trigonometric computation is a parameter `Geo` over which theorems quantify.
- Concurrency: the code uses no threads; a search only reads the tree (C37).
- stderr messages.

## Per property

Names of the theorems are the ones of MANIFEST.json.  Full statements and conditions are in properties.jsonl.

- **C01 Search returns exactly the matching subscriptions** (proved). End-to-end refinement: the calls of Api.v against Spec.sem (naive evaluation of the source expression over a name->value map). An invariant over histories (HistProofs.inv) says that the stored expressions mean what their source says, that predicates are numbered faithfully and that every stored subscription is reachable for every event it matches. Theorems: `C01_search_exact`, `C01_each`. Limits: `C01_float_range_refuted`, `C01_not_and_null_refuted`, `C01_not_and_refuted`.
- **C02 No false positives** (proved). From the same refinement: candidates are stored subscriptions, and match_sub equals Spec.sem. Theorems: `C02_no_false_positive`. Limits: `C02_not_or_refuted`.
- **C03 Each matching subscription is reported once** (proved). NoDup invariant of stored ids through move/remove; search returns a filter of a sublist of the stored subs. Theorems: `C03_any_history`, `C03_reported_once`.
- **C04 Sharing of predicate results is transparent** (proved). Memo-table invariant: every recorded pass/fail bit equals the plain value of every node with that number; needs C22. Induction over expressions, then over the candidate list. Theorems: `C04_shared_results`, `C04_memo_eval`.
- **C05 The undefined-variable shortcut is transparent** (proved). Induction over expressions with polarity; the condition on `not` is stated per subscription and event. Theorems: `C05_shortcut`. Limits: `C05_not_or_refuted`, `C05_now_refuted`.
- **C06 exists agrees with search** (proved). Unfold both loops; induction over the candidate list with the memo invariant. Theorems: `C06_any_tree`, `C06_exists_agrees`. Limits: `C06_incomplete_refuted`.
- **C07 Insertion order does not matter** (proved). Corollary of C01. Theorems: `C07_insertion_order`.
- **C08 Tuning parameters do not change answers** (proved). Corollary of C01 (parameters do not occur in the spec). Theorems: `C08_parameters`, `C08_histories`.
- **C09 Insertion stores the new subscription and keeps all others** (proved). Permutation of stored subs by functional induction on insertion; lookup by structural induction. Theorems: `C09_any_history`, `C09_any_history_sub`, `C09_any_history_ids`, `C09_insert_keeps_all`. Limits: `C09_same_ids_refuted`.
- **C10 Insertion terminates without aborting** (proved). Fuel-indexed model with explicit Abort/UB/Fuel outcomes. Measure of the mutual recursion: unused variables and width of the range (TotalProofs.v); the passes over an expression are total on typed expressions (PassTotal.v). Theorems: `C10_insert_finishes`, `C10_insert_sub_finishes`, `C10_make_finishes`, `C10_change_finishes`. Limits: `C10_float_split_refuted`, `C10_overflow_refuted`, `C10_width_refuted`, `C10_untyped_refuted`, `C10_capacity_refuted`, `C10_float_forever_refuted`.
- **C11 Leaves never stay overfull** (proved). Inductive tree invariant. Theorems: `C11_leaves`, `C11_leaves_wrapped`.
- **C12 Events missing a required variable are refused** (proved). Direct from validate_variables. Theorems: `C12_any_history`, `C12_any_history_missing`, `C12_missing_required`. Limits: `C12_capital_declaration_refuted`.
- **C13 Predicates on undefined variables are false** (proved). Case analysis on leaf predicates of the model evaluator. Theorems: `C13_undefined`, `C13_two_valued`.
- **C14 Set and list predicates have set semantics** (proved). Loop invariants of the binary search and of the merge loops on sorted lists. Theorems: `C14_in_ints`, `C14_in_strings`, `C14_has_int`, `C14_has_string`, `C14_list_ints`, `C14_list_strings`. Limits: `C14_all_of_refuted`.
- **C15 Order and repetition inside lists are irrelevant** (proved). Corollary of C14: semantics only depends on membership; sort+dedup preserves membership. Theorems: `C15_list_order`.
- **C16 String identifiers are faithful** (proved). Invariant of the interning tables over histories. Theorems: `C16_string_ids`, `C16_string_equality`. Limits: `C16_namespace_refuted`.
- **C17 Integer-enum identifiers are faithful** (proved). Same. Theorems: `C17_enum_ids`, `C17_enum_equality`. Limits: `C17_bounded_enum_refuted`.
- **C18 Bounded string domains are enforced** (partial). Case analysis of str_valid/strs_valid over histories; the full claim is refuted. Theorems: `C18_bound_kept_partial`, `C18_predicate_partial`, `C18_expression_partial`. Limits: `C18_refuted`, `C18_capital_refuted`.
- **C19 Adapting boundaries never changes answers** (proved). Invariant for domain widening; corollary of the tree invariant with history of domains. Theorems: `C19_change_keeps_answers`, `C19_make_keeps_answers`, `C19_change_widens`, `C19_make_widens`. Limits: `C19_new_bound_refuted`.
- **C20 Value ranges derived from expressions are safe** (proved). Induction over expressions with polarity and touched ends; the condition on `not` is stated per subscription. Theorems: `C20_range_safe`. Limits: `C20_not_and_refuted`.
- **C21 Splitting a range loses nothing** (proved). Arithmetic (lia). Theorems: `C21_split`, `C21_float`. Limits: `C21_float_gap_refuted`.
- **C22 Predicate identity is sound** (proved). expr_cmp modelled field by field; equality implies equal leaf; total order laws. Theorems: `C22_total_order`, `C22_equal_means_same`.
- **C23 Predicate lookup structure is correct** (proved). Functional model of the top-down red-black insertion; BST and red-black invariants. Theorems: `C23_find`, `C23_insert`, `C23_history`.
- **C24 Report counters are consistent** (proved). Loop invariants of the search loop. Theorems: `C24_any_history`, `C24_counters`, `C24_exact`, `C24_shared_numbers`.
- **C25 Frequency-cap predicate** (proved). Induction over the cap list. Theorems: `C25_frequency_cap`.
- **C26 Segment predicates** (proved). Induction over the sorted segment list. Theorems: `C26_segment_within`, `C26_segment_before`. Limits: `C26_unordered_refuted`, `C26_wide_seconds_refuted`.
- **C27 String predicates** (proved). Induction over strings. Theorems: `C27_contains`, `C27_starts_with`, `C27_ends_with`.
- **C28 Cost-based reordering preserves meaning** (proved). Induction; commutativity of and/or. Theorems: `C28_reordering`.
- **C29 Attribute names are case-insensitive** (proved). Model of tolower/strcmp lookup. Theorems: `C29_names`, `C29_undeclared`, `C29_letter_case`. Limits: `C29_geo_refuted`.
- **C30 Integer literals for float variables** (proved). Induction over expressions; equality of two pipelines. Theorems: `C30_decimals`. Limits: `C30_event_integer_refuted`.
- **C31 String table lookups are correct** (proved). Model of buckets, hash, resize; lookup law by induction. Theorems: `C31_lookup`, `C31_iteration`, `C31_string_table`.
- **C32 Event attribute order is irrelevant** (proved). Model of make_environment; permutation argument. Theorems: `C32_event_order`, `C32_null`, `C32_last_counts`.
- **C33 Refused insertions have no effect on answers** (proved). State returned by refused insertion differs only in interning tables; corollary of C16/C01. Theorems: `C33_refused_insert`, `C33_refused_make`.
- **C34 Frequency constants** (proved). Induction over expressions. Theorems: `C34_missing_constant`, `C34_constant_used`, `C34_type_names`, `C34_type_numbers`. Limits: `C34_wide_constant_refuted`.
- **C35 The two insertion paths agree** (proved). Both pipelines refine the same spec. Theorems: `C35_two_paths`.
- **C36 Bit sets behave as sets** (proved). N.testbit / N.lor lemmas with word index arithmetic. Theorems: `C36_set_bit`, `C36_clear_bit`, `C36_make_bits`.
- **C37 Searching leaves the tree unchanged and is repeatable** (proved). Search is a function of the tree; memo state is created per search; stated over traces of searches. Theorems: `C37_any_tree`, `C37_repeated_searches`.
- **C38 Adding a subscription does not disturb others** (proved). Corollary of C01 + C09. Theorems: `C38_insert_is_local`.
- **C39 Texts are cut into the tokens the scanner rules say** (proved). The scanners are executed with regular-expression derivatives; `flex` in LexSpec.v states longest match and first rule with the languages of the expressions (LexProofs.v). `text_then` spells token sequences. Theorems: `C39_expression_tokens`, `C39_event_tokens`, `C39_expression_spelling`, `C39_event_spelling`, `C39_foreign_character_ends`. Limits: `C39_blanks_in_keywords_refuted`, `C39_text_read_to_its_end_refuted`.
- **C40 Parsing follows the grammar, unambiguously and with the usual precedence** (proved). Recursive descent (Parser.v) against an inductive grammar with one constructor per production (Grammar.v); both directions by induction (ParseProofs.v). Theorems: `C40_parser_grammar`, `C40_unambiguous`, `C40_sentences`, `C40_precedence`. Limits: `C40_escaped_quote_refuted`, `C40_integer_values_refuted`, `C40_not_before_name_refuted`.
- **C41 Event texts mean what the event grammar says** (proved). As C40 for event_parser.y (EventText.v, EventGrammar.v, EventProofs.v). Theorems: `C41_event_grammar`, `C41_event_text`.
- **C42 Calls with texts behave like calls with the expressions the texts spell** (proved). A text is related to a tree only through `flex` and `derives` (TextHist.v); text histories are mapped to histories of source expressions, so C01 and C06 apply. Theorems: `C42_spelled`, `C42_calls_with_texts`, `C42_histories`, `C42_search_text`, `C42_exists_text`.
- **C43 Unreadable texts change nothing** (proved). By cases on the parse; the odd leaves of parsed trees outside the source language are characterised in TextLink.v. Theorems: `C43_unreadable_text`, `C43_unreadable_event`, `C43_refused_unchanged`, `C43_made_text`, `C43_inserted_text`. Limits: `C43_two_variables_refuted`, `C43_unreadable_event_refused_refuted`.
- **C44 Numbers in texts are read, converted and compared as numbers** (proved). Texts are spelled by the standard library's DecimalString; `units` gives a double as an exact multiple of 2^-1074 (FloatSpec.v). The rounding loop of SpecFloat is proved to give a nearest double (RoundProofs.v). Theorems: `C44_integer_text`, `C44_decimal_text`, `C44_integer_as_double`, `C44_comparison`, `C44_equality`, `C44_integers_compared`, `C44_nearest_is_one`.
- **C45 Event objects can be built in any order and searched again** (proved). Objects are lists of optional slots; a search returns the object it leaves behind (EventObj.v). Filling twice equals filling once for the later tables, by uniqueness of sorted lists; `session` closes searches and arbitrary calls (ObjSpec.v). Theorems: `C45_same_as_event`, `C45_built`, `C45_search_exact`, `C45_second_search`, `C45_reuse`, `C45_definitions`. Limits: `C45_reuse_refuted`.
- **C46 Variables can be declared later and the tree can be emptied** (proved). Histories have steps for declarations and emptying, so the invariant of C01 covers them; an answer does not depend on variables a subscription does not mention (LateProofs.v). Theorems: `C46_late_declaration`, `C46_emptied`. Limits: `C46_kept_sub_refuted`, `C46_word_refuted`.
- **C47 Exactly the right subscriptions are accepted** (proved). Both checks are computed on the built expression and compared with conditions on the source expression (Accept.v). An invariant over histories says that every string table carries the name and number of one declared variable (AcceptProofs.reach_named), so the room that betree.c computes by name is the room the interning uses; totality (C10) turns 'not refused' into 'accepted'. Theorems: `C47_make`, `C47_insert`. Limits: `C47_repeated_refuted`.
- **C48 A line of text defines the variable it says** (proved). The tokens of strtok_r are computed for fields joined by bars (HelpProofs.line_ok); strtoll and strtod on decimal texts give the value or the nearest double, which is unique (rounded_unique). Theorems: `C48_line`, `C48_setup`, `C48_unknown_type`, `C48_missing_field`. Limits: `C48_carriage_return_refuted`, `C48_empty_field_refuted`, `C48_list_from_refuted`, `C48_no_number_refuted`, `C48_no_string_refuted`.
- **C49 The text of an expression reads back as the expression** (proved). Every text fragment is shown to be scanned as its tokens in front of what follows it (PrintProofs.v), the tokens are derived by the grammar; `%.2f` is modelled as rounding to the nearest hundredth (ties to even) and shown to invert the reading of decimals below 2^45 by the uniqueness of the nearest double. For stored subscriptions the relation between stored and source expressions (ResProofs.res_leaf) is inverted (PrintStored.v). Theorems: `C49_read_back`, `C49_parsed`, `C49_same_text`, `C49_stored`, `C49_total`. Limits: `C49_decimals_refuted`, `C49_least_refuted`, `C49_null_refuted`, `C49_quote_refuted`, `C49_segment_number_refuted`, `C49_segment_variable_refuted`.
- **C50 A copy of an expression is the expression** (proved). Structural induction; the fields that are not copied are those of C50_geo_refuted and C50_now_refuted. Theorems: `C50_copy`, `C50_text`, `C50_read_back`, `C50_parsed`. Limits: `C50_geo_refuted`, `C50_now_refuted`.
- **C51 Equal expressions match the same events** (proved). Equality by eq_expr implies equal keys for the predicate order of C22; for fast_eq_expr the invariant of C01 says that nodes with equal numbers have equal values. Theorems: `C51_reflexive`, `C51_symmetric`, `C51_same_meaning`, `C51_fast`. Limits: `C51_float_refuted`, `C51_frequency_refuted`, `C51_not_refuted`, `C51_null_refuted`, `C51_operator_refuted`, `C51_parsed_refuted`, `C51_transitive_refuted`.
- **C52 Exactly which bounded strings are refused** (proved). str_valid and strs_valid are computed exactly (RoomProofs.str_exact, strs_exact), including the wrap-around of size_t, from the invariant reach_named; then per predicate and over the expression. Theorems: `C52_exact`, `C52_refused`.
- **C53 Searches when float ranges are split** (proved). The invariant of C01 is parametrised by the condition on float ranges (TreeSpec.floats_ok). On multiples of 2^-10 the arithmetic of split_value_bound is exact (FloatOrd.split_float), so the pieces leave gaps of 2^-52 only next to their ends; derived ranges are shifted by the same amount, and values that are no near misses are on the same side of both (RangeProofs, SearchProofs.candidates_any). The measure of C10 is extended to float ranges by the whole part of their width, which every split decreases if the widths are whole numbers. Theorems: `C53_search`, `C53_search_exact`, `C53_exists`, `C53_incomplete`, `C53_whole`, `C53_insert_finishes`, `C53_insert_sub_finishes`, `C53_make_finishes`, `C53_change_finishes`. Limits: `C53_near_miss_refuted`.
- **C54 The generated scanners do what the scanner rules say** (proved). The states of the tables are related to the derivatives of the rules: FlexProofs computes for every state the vector of what is left to match of each rule and checks by computation that every transition, every accepting number and the end of the buffer agree (`checked`). The loops are then proved equal to the longest match by induction over the text. Theorems: `C54_expr`, `C54_event`, `C54_total`.
- **C55 The generated parsers accept what the grammars say** (proved). One development for both tables (BisonProofs.v). Soundness: data about the states (their symbols and predecessors) is checked by computation to be closed under all moves, so every entry of the stack stands for tokens the grammar derives; weights of the symbols give termination. Completeness: the grammar by levels, first tokens and expected symbols per state are checked by computation to be closed under the productions; a derivation is then followed by induction, with a bound on the stack it needs. The data (BisonData.v) is not trusted. Theorems: `C55_expr_tokens`, `C55_event_tokens`, `C55_parse`, `C55_parse_sound`, `C55_event_parse`, `C55_no_recovery`. Limits: `C55_deep_not_refuted`, `C55_deep_paren_refuted`.
- **C56 The linked index answers like a tree** (proved). Separating ownership by lists: a decorated tree carries the address of every struct, `blocks_cnode` lists what each of them must contain (parent pointers included) and `holds` says that memory is a permutation of that list and a frame. Each function of Linked.v is shown to take such a memory to the memory of the decorated result, by induction along the function of Tree.v (LinkedHeap, LinkedNode, LinkedGrow, LinkedInsert, LinkedUse); LinkedRun.v follows programs. Theorems: `C56_answers`, `C56_careful`. Limits: `C56_released_refuted`.
- **C57 Every block of the index is released once** (proved). As C56 with a frame that is empty but for the subscriptions of the caller: ids that differ make the subscriptions in the leaves a permutation of the inserted ones, and the releasing functions remove the blocks of a subtree from the list. Theorems: `C57_free`, `C57_no_leak`, `C57_empty`. Limits: `C57_inserted_twice_refuted`, `C57_repeated_id_refuted`.
- **C58 From texts to answers with all parts as in the C code** (proved). Composition of C42 (histories with texts), C54 and C55 (generated scanners and parsers) and the simulation of C56 and C57: `supported` is a history of TextHist.v together with its calls and answers; every call of it is a careful call on linked objects. Theorems: `C58_answers`, `C58_search`, `C58_exists`, `C58_unreadable_event`, `C58_free`.
- **C59 The linked red-black tree of predicates is an ordered set** (proved). Trees whose nodes carry addresses, and the blocks such a tree has in memory (LinkedRbSpec.v). LinkedRbProofs.v follows jsw_rbinsert along rb_loop of RbTree.v: `pointers` says which of t, g, p, dir and last are right while `stale` counts down after a rotation; single and double rotation are shown once on the four or five blocks they write. The order part is C23; that the element found is the first inserted one is an invariant of the elements of the tree (`kept`). jsw_rbdelete: twice the size minus the length of the right spine decreases in each round. Theorems: `C59_calls`, `C59_insert`, `C59_find`, `C59_predicates`.
- **C60 Expressions own their memory** (proved). Ledger.v is a memory that only knows which addresses are allocated; HeapExpr.v runs the parser, the actions, the copies and the releases on it. HeapParse.v shows once for any grammar that the loop with memory goes the same way as the loop of Bison.v and that what is allocated is on the stack, in yylval or in *root (the start symbol on the stack only repeats *root). HeapRules.v goes through the 75 actions: the value is like the one of BisonTables.v and owns what was made. Everything is stated for memories that hold exactly a list of blocks (`holds`), up to permutation. Theorems: `C60_read`, `C60_release`, `C60_read_release`, `C60_copy`, `C60_lost`, `C60_lost_first`. Limits: `C60_unreadable_refuted`.
- **C61 Events and searches own their memory** (proved). HeapEvent.v adds events, reports and the arrays of a search to the memory of Ledger.v. HeapEventRules.v goes through the 38 actions of the event grammar with the general loop of HeapParse.v; a variable that was given as null is followed as a value that owes its name, and no such value is on the stack when a token is refused (checked on the tables), so every refused text with a string loses memory. HeapFill.v and HeapSearch.v relate each step to the function without memory by a simulation that covers all four outcomes; fill_event and sort_event_lists run one after the other as in C and are shown to do what fill_object does in one pass. Theorems: `C61_read`, `C61_release`, `C61_search`, `C61_exists`, `C61_search_event`, `C61_exists_event`, `C61_report`, `C61_session`, `C61_make`. Limits: `C61_refused_refuted`, `C61_replace_refuted`.
- **C62 The configuration owns its memory** (proved). HeapConf.v has the configuration as blocks; a string table is the hash table of HashMap.v with an address for the bucket array and each node, and Config.v's list of strings is read off the table (the string with number i). HeapTable.v shows that map_get, map_set and the resizing do what HashMap.v does and keep each block once; HeapConfProofs.v shows by the properties of C31 that the list grows by the new string at its end, and follows each call and each sequence of calls. Theorems: `C62_conf`, `C62_lookup`. Limits: `C62_zero_refuted`.
- **C63 A whole program owns its memory** (proved). HeapWorld.v has each public operation with its blocks: the passes over expressions (which swap strings, read names, fill tables), the numbering of predicates with keys that point into expressions, make_sub, the index of Linked.v, the release. HeapPasses.v follows each pass, HeapSubs.v the predicates, subscriptions and the recursive release, LinkedFrame.v shows that inserting leaves all subscriptions where they are. The invariant: the subscriptions in the index memory are those whose other blocks are in the ledger, with the same expressions, and all keys of the predicate map lie in expressions of living subscriptions. HeapWorldProofs.v shows it for each call and for programs; the last two theorems add what C58 says about the index. Theorems: `C63_program`, `C63_supported`, `C63_all_released`. Limits: `C63_constants_refuted`, `C63_zero_refuted`.
- **C64 A caller who follows simple rules is always served** (proved). ProgramSpec.v says which call is valid next and what its answer satisfies, from what the caller knows (declared variables, subscriptions made and inserted, number of predicates so far). ProgramProofs.v keeps an invariant of the tree for that: every variable still has its declared bound or a tame one, string tables hold words of the vocabulary only, at most as many predicates as the caller counted, the capacity is the given one; from it follow the hypotheses of the earlier theorems (fits, roomy, few_preds, floats_ok, narrow) for each call. PropsProgram.v goes through the calls with C58 (pointers), C01/C53 (searches), C10/C53 (insertions end), C52 (accepted or refused) and C63 (memory). Theorems: `C64_answers`, `C64_memory`.
- **C65 Objects the caller builds are owned by exactly one side** (proved). ObjProgram.v has the pointers of the caller as a list of items (what each points to) and the calls on them; HeapObj.v the same with the addresses of all blocks. HeapObjProofs.v goes through the 23 calls: an item that is given away leaves its blocks to the item that takes it, and what was at an overwritten place is lost. HeapObjRun.v does the searches with an object (as C61, here with the event kept) and the calls on the tree with the blocks of the items as frame (C63), and then whole programs. Theorems: `C65_program`, `C65_release`, `C65_all_released`. Limits: `C65_added_twice_refuted`.
- **C66 Programs that build their events call by call are answered rightly and give their memory back** (proved). ObjProgramSpec.v extends the caller's view of C64 by its pointers, with what it put there, which call used each report last and the objects not to be searched again. ObjProgramProofs.v relates them to the pointers of the machine: an event object there may have been filled by searches, but filling it again under any later configuration gives the same as filling the original (slot_like); this holds after a search if at most one string of each list was unknown (filled_like, with C45), and strings used by a subscription are known (log_known, from the invariant of C01). PropsObjProgram.v goes through the calls: those on the tree by C64, searches of objects by C45 and the exactness of searches behind C64, memory by C65. A search with a used report is the search with a new one, appended (query_added). Theorems: `C66_answers`, `C66_memory`, `C66_objects`.
- **C67 Removal from the linked red-black tree** (proved). LinkedErase.v has the loop with the pointers g, p, q and f. EraseProofs.v describes one round on the path to the current node, with addresses (redden): what is left and right of the search position is kept (redden_sides), the node found stays the first one to the right of it (redden_marked), heights and colours stay right (redden_rb) with the current node or its child red, unless it is the root (ready), and the writes in memory do this (redden_ok; after a rotation the four colours are written by paint_ok). At the end the last node has no children, because its heights are 0 and it is red or the root; its element goes to the node found. PropsErase.v: with C59 for insertions and searches, an invariant of the elements (kept) over all sequences of calls. Theorems: `C67_calls`, `C67_erase`. Limits: `C67_size_refuted`.
- **C68 The scanners' buffers** (proved). FlexBuffer.v has the buffer as an array and the pointers as positions in it; a get or put outside of it is UB. FlexBufferProofs.v relates a scanner whose buffer is pre ++ rest ++ two NULs, with the kept character put back (between), to the scanner of Flex.v on the rest: matching and the recomputed state are those on the rest, shifted by the length of pre (match_shift, previous_shift, find_shift); what was remembered from earlier tokens cannot be used, because every state the scanner finds accepted sets it (shifted). token_ok is one token, next_ok one call, all_ok all of them; Flex.v's scanner was shown right in C54. HeapBuffer.v: the blocks of the scanner are a frame around the parser (h_scanned_ok), for which C60 and C61 say what it does in every memory. Theorems: `C68_expression`, `C68_event`, `C68_read`, `C68_read_event`, `C68_length`.
- **C69 The parsers' stacks** (proved). BisonStack.v has the arrays with entries that may not be written yet; reading those, leaving the array, a state that does not fit or a released block is UB. BisonStackProofs.v: the list of HeapExpr.v is stored in the arrays (stored), but for the value at the bottom, which is never read, and the current state, which is written first (set_state_ok); growing keeps it and leaves room for one entry (grow_ok), which the next push needs (push_value_ok) and yyvsp[1 - yylen] of an empty rule too; a rule pops less than the stack (pop_stack_ok, values_ok). Popping after an error looks every state up in yypact: those below the current one were looked up before (known). run_sim follows the rounds. HeapStack.v checks the tables and puts the scanner around it with the frame of C68. Theorems: `C69_expression`, `C69_event`, `C69_read`, `C69_read_event`, `C69_layout`.
- **C70 Printing an expression in memory** (proved). HeapPrint.v follows printer.c with addresses: basprintf makes a block, arg is a %s argument and must be allocated, free as in Ledger.v. HeapPrintProofs.v: `reading` says that a command only reads blocks that stay, and gives one new block with the text; leaf_ok goes through the kinds of predicates, join_ok through the lists, ast_ok through the connectives, where intermediate lengths are bounded by that of the whole text. HeapPrintOnly.v has the converse by partial correctness (only). C70_session puts the reader of C69 before it. Theorems: `C70_text`, `C70_only`, `C70_limit`, `C70_session`.
- **C71 Printing events and variables** (proved). HeapPrint.v has the buffer as a list of bytes; sprintf writes the text and a NUL at the kept length or is UB where they do not fit. HeapPrintSpec.v says what the text is without the loops. HeapPrintEvent.v: after each round the buffer is the text so far, a NUL and the rest of the old buffer (wrote); event_ok and event_only are the two directions, line_ok and line_only those of print_variable. Theorems: `C71_event`, `C71_event_only`, `C71_line`, `C71_line_only`, `C71_session`. Limits: `C71_kinds_refuted`, `C71_sign_refuted`, `C71_slot_refuted`.
- **C72 Scanner and parser together** (proved). BisonLive.v has yychar (look) and the scanner's state in the loop of the parser. BisonLiveProofs.v: run_live follows the rounds of BisonStack.v's parser; ahead relates yychar and the scanner to the tokens that are left (yields: what further calls of yylex would return). After the end was shifted the state is the final one, by a check of all entries of the tables (ends_finally), so that nothing is read again. The blocks of the scanner are there at the end of the parse and no command makes a released address live again (wise), so they are there at every call (kept_back). The bound on the number of rounds is that of the number of characters. Theorems: `C72_same`, `C72_event_same`, `C72_read`, `C72_read_event`, `C72_stops`, `C72_event_stops`.
- **C73 The drawing of the index shows the tree** (proved). DotFile.v walks the linked heap of Linked.v with the names as allocated blocks. DotSpec.v gives the statements by recursion over the tree without pointers. DotNames.v: the path of a node read through its parent pointers is the path the recursion carries down, and every name is released (draws: for every heap with these blocks the walk ends, prints the text and the heap has the blocks again). DotProofs.v and DotWalk.v: leaves, tables (the height found by depth_of_cdir, which walks up from each cdir, is the height of the tree of ranges) and the nodes; DotLinks.v: edges, ports and levels. DotFine.v: in every tree that a program builds the variables are declared and the ranges are of a kind that can be split, so the abort calls are not reached; declared and ids by mutual induction. Theorems: `C73_draw`, `C73_draw_careful`, `C73_subs`, `C73_declared`. Limits: `C73_commas_refuted`, `C73_names_refuted`, `C73_quotes_refuted`.
- **C74 Printed lines about variables, ranges, counters and types** (proved). ShowDomain.v has the printing functions; ShowSpec.v an independent reader of the lines (cut at the blank, the parentheses, the bracket and the comma; decimal numbers by the standard library). PropsShow.v: no number contains a separator, show_Z is read back, so the reader returns what was printed; for the ranges of trees fine_tree (DotFine.v) says that their variables are declared and their types printable. Theorems: `C74_domain`, `C74_domain_same`, `C74_range`, `C74_tree`, `C74_report`, `C74_type`. Limits: `C74_decimals_refuted`, `C74_limit_refuted`.
- **C75 The index keeps its shape** (proved). An invariant of trees (ShapeSpec.v) kept by partitioning and clustering (induction over the fuel, with the permutations of C09) and by insertion (mutual induction over the tree); the choice of a variable gives one that is new on the path and that some subscription of the node has, and no partition is found only if the subscription has none of the labels. Depth and size by induction over the tree. Theorems: `C75_shape`, `C75_depth`, `C75_size`, `C75_recorded`. Limits: `C75_twins_refuted`.
- **C76 The index stays small** (proved). An invariant of trees (SizeProofs.v: a divided range has the two parts split_value_bound gives, a partition starts with a range that could be split) kept by all calls; the parts have half the width rounded down and up (for floats by float_cut: the middle is computed without rounding), so depth and number of ranges follow by induction over the tree of ranges; the number of nodes with C75. Theorems: `C76_ranges`, `C76_nodes`.
- **C77 A search visits few nodes** (proved). WalkSpec.v lists the nodes a search visits; that the candidates are theirs is by induction over the tree. By the invariant of C76 the two parts of a range share at most the middle; a value at an end of a range follows one path (seen_end), any value at most one path that forks once (seen_path). With C75 and C76 for the whole index. Theorems: `C77_candidates`, `C77_path`, `C77_nodes`.

## Defects found

The theorem in brackets is the machine-checked witness; items without one are readings of the code.

- F1 the shortcut for undefined variables is wrong under `not` over `or` (false positives) and under `not` over `and` with `is null` (missed matches) [C02_not_or_refuted, C05_not_or_refuted, C01_not_and_null_refuted].
- F2 the value range of `not` over `and` is too small: matching subscriptions are missed [C01_not_and_refuted, C20_not_and_refuted].
- F3 `now` undefined makes the shortcut fail a frequency cap that the evaluator passes [C05_now_refuted].
- F4 repeated subscription ids make reorganisation lose one subscription and duplicate another [C09_same_ids_refuted, C75_twins_refuted].
- F5 splitting a float range whose width is neither > 2, 2 nor 1 aborts [C10_float_split_refuted].
- F6 float ranges use DBL_EPSILON adjustments that exclude matching values [C01_float_range_refuted, C53_near_miss_refuted].
- F7 event values are not checked against the declared type; an integer for a float variable is reinterpreted bit by bit [C30_event_integer_refuted].
- F8 the leaf capacity is stored in 8 bits: 256 becomes 0 and the capacity computation divides by it [C10_capacity_refuted].
- F9 the variables of geo predicates are not checked: an undeclared latitude is an out-of-range access [C29_geo_refuted].
- F10 empty lists in events are integer lists whatever the declared type.
- F11 integer literals at the ends of int64_t overflow in +1/-1, wide integer ranges overflow in llabs [C10_overflow_refuted, C10_width_refuted].
- F12 the check of bounded strings looks at one predicate at a time and compares names as written [C18_refuted, C18_capital_refuted].
- F13 betree_exists does not check required variables [C06_incomplete_refuted].
- F14 eq_expr (unused by the operations) compares neither the kind of null tests nor the id of frequency caps, and doubles with a tolerance, so it is not transitive [C51_null_refuted, C51_frequency_refuted, C51_float_refuted, C51_transitive_refuted]; before numbers are assigned all names and strings are equal [C51_parsed_refuted].
- F15 float ranges of large magnitude can be split forever ([2^53, 2^53+2]) [C10_float_forever_refuted].
- F16 declaring the 64th, 128th, ... variable after subscriptions were inserted makes every search read behind their bit arrays [C46_word_refuted].
- F17 ids and seconds are truncated to 32 bits [C34_wide_constant_refuted, C26_wide_seconds_refuted].
- F18 a string bound of 0 wraps to SIZE_MAX.
- F19 frequency namespaces are interned in the table of frequency_caps whose bound is 0: only one fits [C16_namespace_refuted].
- F20 change_boundaries computes value - 1 near INT64_MIN.
- F21 `all of` with repeated constants is false for events that contain them [C14_all_of_refuted].
- F22 enum integers beyond the bound share the invalid id and match any unknown value [C17_bounded_enum_refuted].
- F23 a refused betree_make_sub can leave more strings registered than the bound; a subtraction then wraps around and betree_insert accepts any number of further strings for the variable (C52_case).
- F24 declared names that are not in lower case can never be found [C12_capital_declaration_refuted].
- F25 an ill-typed expression is accepted by betree_insert and a later insertion aborts [C10_untyped_refuted].
- F26 change_boundaries gives a string variable without bound a bound [C19_new_bound_refuted].
- F27 segment predicates stop at the first larger id, so unordered segments give wrong answers [C26_unordered_refuted].
- F28 `x in y` with two variables is accepted by betree_insert and the first search that evaluates it aborts [C43_two_variables_refuted]; `1 in (1)` aborts at insertion.
- F29 a character no rule matches silently ends the text: `a & b` is read as `a` [C39_text_read_to_its_end_refuted].
- F30 keywords of several words have exactly one blank: `not  in` is not `not in` [C39_blanks_in_keywords_refuted].
- F31 `not in_stock` is refused because `not in` is the longer match [C40_not_before_name_refuted].
- F32 integers beyond int64_t saturate silently, and INT64_MIN cannot be written [C40_integer_values_refuted].
- F33 escaped quotes are kept with their backslash [C40_escaped_quote_refuted].
- F34 an unreadable event ends the process instead of giving false [C43_unreadable_event_refused_refuted].
- F35 a search with an event object removes all unknown strings but one from its string lists; after later insertions the object gives wrong answers [C45_reuse_refuted].
- F36 a subscription made before empty_tree and inserted afterwards keeps stale predicate numbers and spoils the answers about others [C46_kept_sub_refuted].
- F37 the predicate map keeps pointers into expressions (hashmap.c assign_pred); a subscription made but never inserted leaves dangling pointers when the caller frees it.
- F38 strings repeated in one list count several times against the bound: `s in ("a","a","a")` is refused for a variable that may have two strings [C47_repeated_refuted]. betree_insert does not check null tests, which betree_make_sub refuses for required variables (C47_case).
- F39 definition lines: an omitted lower end makes the upper end the lower one, `string` with size 0 is unbounded, a carriage return makes an optional variable required, an integer list with only a lower end is unbounded, text that is no number is 0 [C48_empty_field_refuted, C48_no_string_refuted, C48_carriage_return_refuted, C48_list_from_refuted, C48_no_number_refuted]; a line with fewer than three fields is read through a null pointer [C48_missing_field].
- F40 ast_to_string: the three null tests have the same text, which is no expression [C49_null_refuted]; doubles are cut to two decimals [C49_decimals_refuted]; strings are not escaped, so a string with double quotes is read back as other predicates [C49_quote_refuted]; segment ids from 2^63 on and INT64_MIN are not read back [C49_segment_number_refuted, C49_least_refuted].
- F41 clone_node does not copy `now` and the id of frequency predicates, `now` of segment predicates and the two variables of geo predicates; the copy then uses the first declared variable [C50_geo_refuted, C50_now_refuted].
- F42 fast_eq_expr does not compare the operators: `a and b` equals `a or b`, and comparing with `not` reads a member of the union that was not written [C51_operator_refuted, C51_not_refuted].
- F43 split_value_bound: a float range of width 1 becomes its two ends, the values between them lie in neither half [C21_float_gap_refuted]. Searches are not affected: a subscription that needs such a value stays with the whole range [C53_search].
- F44 the stack of the generated parser has 10000 entries: 9998 `not` or open parentheses in a row are refused with "memory exhausted" [C55_deep_not_refuted, C55_deep_paren_refuted].
- F45 remove_sub looks for the id: with a repeated id the address of one subscription comes into two leaves and betree_free releases it twice [C57_repeated_id_refuted]; the same happens when a made subscription is inserted twice [C57_inserted_twice_refuted]. A made subscription that was inserted is released with the tree: inserting it again after empty_tree reads released memory [C56_released_refuted].
- F46 betree_insert_with_constants does not release the parsed expression when a constant is missing (betree.c 492-495; betree_make_sub does) [C63_constants_refuted].
- F47 jsw_rbinsert counts an element that is not stored because an equal one is (the size is then larger than the number of nodes) [C59_case]; jsw_rberase decrements the size also when it finds nothing: a tree with one node can have size 2^64 - 1 [C67_size_refuted]. Nothing in the library calls jsw_rberase or jsw_rbsize for a decision.
- F48 betree_search_with_event_filled does not release the environment array when the event has no value for a needed variable (betree.c 553-563) [C61_refused_refuted, C61_session].
- F49 a text that is refused loses the strings of its tokens and the nodes made so far: the grammars have no %destructor. The expression may even be complete and stored in *root when the parser refuses the rest [C60_unreadable_refuted, C60_lost].
- F50 betree_set_variable does not release the variable it replaces (betree.c 951-954) [C61_replace_refuted, C61_make].
- F51 add_string_map grows the array with realloc and does not clear the new table: after a string was refused for a second variable declared with bound 0, lookups for it and free_config read an uninitialised hash table (config.c 240-253, 60-66) [C62_zero_refuted, C63_zero_refuted].
- F52 yy_scan_string passes strlen as an int: from INT_MAX - 1 characters on the size of the buffer overflows (lexer.c 2087, 2105) [C68_length].
- F53 basprintf adds 1 to the length vsnprintf returned, an int: a text of INT_MAX characters overflows it, a longer one ends the program (alloc.c 32-61) [C70_limit].
- F54 event_to_string prints integers with PRIu64: `i = -1` becomes `i = 18446744073709551615` (tree.c 1652) [C71_sign_refuted].
- F55 event_to_string passes NULL to %s for empty lists, ends the program for segments and frequency caps and reads through NULL where a slot of the event was not set; print_variable does the first too [C71_kinds_refuted, C71_slot_refuted].
- F56 the drawing: `-` and `_` in names of variables give the same node names [C73_names_refuted]; write_dot_file_cdir_ranks passes `first` by value, so names in sibling ranges have no comma between them (debug.c 549-569) [C73_commas_refuted]; tables are named without quotes, though names of float ranges may contain `-` (debug.c 377, 484) [C73_quotes_refuted]; int64_t ends are printed with %lu in names [C73_case]; `compound=true` is not ended by a line break or semicolon; the file is never closed (debug.c 764-781).
