{
 "claims": [
  {
   "property": "C01",
   "status": "proved",
   "theorems": [
    "C01_search_exact",
    "C01_each",
    "C01_float_range_refuted",
    "C01_not_and_null_refuted",
    "C01_not_and_refuted"
   ],
   "note": "For expressions, constants and events meeting accepts/src_ok/fits and event_ok (well-typed literals and values, room in the interning tables) and float ranges that are not split or have ends that are multiples of 2^-10 (floats_ok; where answers are compared also `fair`: per subscription and event, `not` only where the shortcut and the derived ranges are right, and no near miss of a constant where float ranges are split); the unrestricted claim is false, see the refuted theorems and DESIGN.md. Limits of the claim are witnessed by the listed *_refuted theorems."
  },
  {
   "property": "C02",
   "status": "proved",
   "theorems": [
    "C02_no_false_positive",
    "C02_not_or_refuted"
   ],
   "note": "For expressions, constants and events meeting accepts/src_ok/fits and event_ok (well-typed literals and values, room in the interning tables) and float ranges that are not split or have ends that are multiples of 2^-10 (floats_ok; where answers are compared also `fair`: per subscription and event, `not` only where the shortcut and the derived ranges are right, and no near miss of a constant where float ranges are split); the unrestricted claim is false, see the refuted theorems and DESIGN.md. Limits of the claim are witnessed by the listed *_refuted theorems."
  },
  {
   "property": "C03",
   "status": "proved",
   "theorems": [
    "C03_any_history",
    "C03_reported_once"
   ],
   "note": "C03_any_history: every history of finished calls with different ids, no other restriction (repeated ids: C09_same_ids_refuted)."
  },
  {
   "property": "C04",
   "status": "proved",
   "theorems": [
    "C04_shared_results",
    "C04_memo_eval"
   ],
   "note": "For expressions, constants and events meeting accepts/src_ok/fits and event_ok (well-typed literals and values, room in the interning tables) and float ranges that are not split or have ends that are multiples of 2^-10 (floats_ok; where answers are compared also `fair`: per subscription and event, `not` only where the shortcut and the derived ranges are right, and no near miss of a constant where float ranges are split); the unrestricted claim is false, see the refuted theorems and DESIGN.md."
  },
  {
   "property": "C05",
   "status": "proved",
   "theorems": [
    "C05_shortcut",
    "C05_not_or_refuted",
    "C05_now_refuted"
   ],
   "note": "For expressions, constants and events meeting accepts/src_ok/fits and event_ok (well-typed literals and values, room in the interning tables) and float ranges that are not split or have ends that are multiples of 2^-10 (floats_ok; where answers are compared also `fair`: per subscription and event, `not` only where the shortcut and the derived ranges are right, and no near miss of a constant where float ranges are split); the unrestricted claim is false, see the refuted theorems and DESIGN.md. Limits of the claim are witnessed by the listed *_refuted theorems."
  },
  {
   "property": "C06",
   "status": "proved",
   "theorems": [
    "C06_any_tree",
    "C06_exists_agrees",
    "C06_incomplete_refuted"
   ],
   "note": "C06_any_tree: every tree and event for which the search finishes with success; the existence test on its own does not validate the event (C06_incomplete_refuted). Limits of the claim are witnessed by the listed *_refuted theorems."
  },
  {
   "property": "C07",
   "status": "proved",
   "theorems": [
    "C07_insertion_order"
   ],
   "note": "For expressions, constants and events meeting accepts/src_ok/fits and event_ok (well-typed literals and values, room in the interning tables) and float ranges that are not split or have ends that are multiples of 2^-10 (floats_ok; where answers are compared also `fair`: per subscription and event, `not` only where the shortcut and the derived ranges are right, and no near miss of a constant where float ranges are split); the unrestricted claim is false, see the refuted theorems and DESIGN.md."
  },
  {
   "property": "C08",
   "status": "proved",
   "theorems": [
    "C08_parameters",
    "C08_histories"
   ],
   "note": "For expressions, constants and events meeting accepts/src_ok/fits and event_ok (well-typed literals and values, room in the interning tables) and float ranges that are not split or have ends that are multiples of 2^-10 (floats_ok; where answers are compared also `fair`: per subscription and event, `not` only where the shortcut and the derived ranges are right, and no near miss of a constant where float ranges are split); the unrestricted claim is false, see the refuted theorems and DESIGN.md."
  },
  {
   "property": "C09",
   "status": "proved",
   "theorems": [
    "C09_any_history",
    "C09_any_history_sub",
    "C09_any_history_ids",
    "C09_insert_keeps_all",
    "C09_same_ids_refuted"
   ],
   "note": "Every history of finished calls with different ids, no other restriction (repeated ids: C09_same_ids_refuted). Limits of the claim are witnessed by the listed *_refuted theorems."
  },
  {
   "property": "C10",
   "status": "proved",
   "theorems": [
    "C10_insert_finishes",
    "C10_insert_sub_finishes",
    "C10_make_finishes",
    "C10_change_finishes",
    "C10_float_split_refuted",
    "C10_overflow_refuted",
    "C10_width_refuted",
    "C10_untyped_refuted",
    "C10_capacity_refuted",
    "C10_float_forever_refuted"
   ],
   "note": "For reachable trees in which no float range is split or only ranges of whole width, leaf capacity not a multiple of 256, integer ranges no wider than int64_t, well typed expressions with literals away from the ends of int64_t, declared names in lower case. The *_refuted theorems show that each of the first conditions is needed. Limits of the claim are witnessed by the listed *_refuted theorems."
  },
  {
   "property": "C11",
   "status": "proved",
   "theorems": [
    "C11_leaves",
    "C11_leaves_wrapped"
   ],
   "note": "Every history of finished calls, no restriction on expressions; the capacity is stored in 8 bits, so it is taken modulo 256 and must not be a multiple of 256 (C10_capacity_refuted)."
  },
  {
   "property": "C12",
   "status": "proved",
   "theorems": [
    "C12_any_history",
    "C12_any_history_missing",
    "C12_missing_required",
    "C12_capital_declaration_refuted"
   ],
   "note": "Every history of finished calls, no restriction. Limits of the claim are witnessed by the listed *_refuted theorems."
  },
  {
   "property": "C13",
   "status": "proved",
   "theorems": [
    "C13_undefined",
    "C13_two_valued"
   ],
   "note": "For expressions, constants and events meeting accepts/src_ok/fits and event_ok (well-typed literals and values, room in the interning tables) and float ranges that are not split or have ends that are multiples of 2^-10 (floats_ok; where answers are compared also `fair`: per subscription and event, `not` only where the shortcut and the derived ranges are right, and no near miss of a constant where float ranges are split); the unrestricted claim is false, see the refuted theorems and DESIGN.md."
  },
  {
   "property": "C14",
   "status": "proved",
   "theorems": [
    "C14_in_ints",
    "C14_in_strings",
    "C14_has_int",
    "C14_has_string",
    "C14_list_ints",
    "C14_list_strings",
    "C14_all_of_refuted"
   ],
   "note": "For expressions, constants and events meeting accepts/src_ok/fits and event_ok (well-typed literals and values, room in the interning tables) and float ranges that are not split or have ends that are multiples of 2^-10 (floats_ok; where answers are compared also `fair`: per subscription and event, `not` only where the shortcut and the derived ranges are right, and no near miss of a constant where float ranges are split); the unrestricted claim is false, see the refuted theorems and DESIGN.md. The constants of `all of` must be different (F21 in DESIGN.md). Limits of the claim are witnessed by the listed *_refuted theorems."
  },
  {
   "property": "C15",
   "status": "proved",
   "theorems": [
    "C15_list_order"
   ],
   "note": "For expressions, constants and events meeting accepts/src_ok/fits and event_ok (well-typed literals and values, room in the interning tables) and float ranges that are not split or have ends that are multiples of 2^-10 (floats_ok; where answers are compared also `fair`: per subscription and event, `not` only where the shortcut and the derived ranges are right, and no near miss of a constant where float ranges are split); the unrestricted claim is false, see the refuted theorems and DESIGN.md. The constants of `all of` must be different (F21 in DESIGN.md)."
  },
  {
   "property": "C16",
   "status": "proved",
   "theorems": [
    "C16_string_ids",
    "C16_string_equality",
    "C16_namespace_refuted"
   ],
   "note": "Ids different from the invalid id; C16_string_equality: For expressions, constants and events meeting accepts/src_ok/fits and event_ok (well-typed literals and values, room in the interning tables) and float ranges that are not split or have ends that are multiples of 2^-10 (floats_ok; where answers are compared also `fair`: per subscription and event, `not` only where the shortcut and the derived ranges are right, and no near miss of a constant where float ranges are split); the unrestricted claim is false, see the refuted theorems and DESIGN.md. Limits of the claim are witnessed by the listed *_refuted theorems."
  },
  {
   "property": "C17",
   "status": "proved",
   "theorems": [
    "C17_enum_ids",
    "C17_enum_equality",
    "C17_bounded_enum_refuted"
   ],
   "note": "Ids different from the invalid id; C17_enum_equality: For expressions, constants and events meeting accepts/src_ok/fits and event_ok (well-typed literals and values, room in the interning tables) and float ranges that are not split or have ends that are multiples of 2^-10 (floats_ok; where answers are compared also `fair`: per subscription and event, `not` only where the shortcut and the derived ranges are right, and no near miss of a constant where float ranges are split); the unrestricted claim is false, see the refuted theorems and DESIGN.md. Limits of the claim are witnessed by the listed *_refuted theorems."
  },
  {
   "property": "C18",
   "status": "partial",
   "theorems": [
    "C18_bound_kept_partial",
    "C18_predicate_partial",
    "C18_expression_partial",
    "C18_refuted",
    "C18_capital_refuted"
   ],
   "note": "The full claim is false: C18_refuted (strings spread over two predicates), C18_capital_refuted (name written with a capital). Proved for insertion histories in which each expression has its strings for the variable in one predicate and writes the name in lower case; the number of registered strings never exceeds the bound in any insertion history. The exact condition of a refusal, for all histories, is C52. Limits of the claim are witnessed by the listed *_refuted theorems."
  },
  {
   "property": "C19",
   "status": "proved",
   "theorems": [
    "C19_change_keeps_answers",
    "C19_make_keeps_answers",
    "C19_change_widens",
    "C19_make_widens",
    "C19_new_bound_refuted"
   ],
   "note": "For expressions, constants and events meeting accepts/src_ok/fits and event_ok (well-typed literals and values, room in the interning tables) and float ranges that are not split or have ends that are multiples of 2^-10 (floats_ok; where answers are compared also `fair`: per subscription and event, `not` only where the shortcut and the derived ranges are right, and no near miss of a constant where float ranges are split); the unrestricted claim is false, see the refuted theorems and DESIGN.md. Widening is stated for integer, string, enum and boolean ranges. Limits of the claim are witnessed by the listed *_refuted theorems."
  },
  {
   "property": "C20",
   "status": "proved",
   "theorems": [
    "C20_range_safe",
    "C20_not_and_refuted"
   ],
   "note": "For expressions, constants and events meeting accepts/src_ok/fits and event_ok (well-typed literals and values, room in the interning tables) and float ranges that are not split or have ends that are multiples of 2^-10 (floats_ok; where answers are compared also `fair`: per subscription and event, `not` only where the shortcut and the derived ranges are right, and no near miss of a constant where float ranges are split); the unrestricted claim is false, see the refuted theorems and DESIGN.md. For float variables: values that are no near miss of a constant (F6 in DESIGN.md). Limits of the claim are witnessed by the listed *_refuted theorems."
  },
  {
   "property": "C21",
   "status": "proved",
   "theorems": [
    "C21_split",
    "C21_float",
    "C21_float_gap_refuted"
   ],
   "note": "Integer ranges no wider than 2^63-1; float ranges with coarse ends and whole width. Limits of the claim are witnessed by the listed *_refuted theorems."
  },
  {
   "property": "C22",
   "status": "proved",
   "theorems": [
    "C22_total_order",
    "C22_equal_means_same"
   ],
   "note": "Expressions without NaN literals; geo predicates without negative zero literals."
  },
  {
   "property": "C23",
   "status": "proved",
   "theorems": [
    "C23_find",
    "C23_insert",
    "C23_history"
   ],
   "note": ""
  },
  {
   "property": "C24",
   "status": "proved",
   "theorems": [
    "C24_any_history",
    "C24_counters",
    "C24_exact",
    "C24_shared_numbers"
   ],
   "note": "C24_any_history: every history of finished calls, no restriction; C24_exact gives the exact value of all counters for supported histories."
  },
  {
   "property": "C25",
   "status": "proved",
   "theorems": [
    "C25_frequency_cap"
   ],
   "note": "Window below 2^63."
  },
  {
   "property": "C26",
   "status": "proved",
   "theorems": [
    "C26_segment_within",
    "C26_segment_before",
    "C26_unordered_refuted",
    "C26_wide_seconds_refuted"
   ],
   "note": " Limits of the claim are witnessed by the listed *_refuted theorems."
  },
  {
   "property": "C27",
   "status": "proved",
   "theorems": [
    "C27_contains",
    "C27_starts_with",
    "C27_ends_with"
   ],
   "note": ""
  },
  {
   "property": "C28",
   "status": "proved",
   "theorems": [
    "C28_reordering"
   ],
   "note": "Whenever the predicates can be evaluated."
  },
  {
   "property": "C29",
   "status": "proved",
   "theorems": [
    "C29_names",
    "C29_undeclared",
    "C29_letter_case",
    "C29_geo_refuted"
   ],
   "note": "For expressions, constants and events meeting accepts/src_ok/fits and event_ok (well-typed literals and values, room in the interning tables) and float ranges that are not split or have ends that are multiples of 2^-10 (floats_ok; where answers are compared also `fair`: per subscription and event, `not` only where the shortcut and the derived ranges are right, and no near miss of a constant where float ranges are split); the unrestricted claim is false, see the refuted theorems and DESIGN.md. Undeclared names of geo predicates are not refused (F9 in DESIGN.md). Limits of the claim are witnessed by the listed *_refuted theorems."
  },
  {
   "property": "C30",
   "status": "proved",
   "theorems": [
    "C30_decimals",
    "C30_event_integer_refuted"
   ],
   "note": "For expressions, constants and events meeting accepts/src_ok/fits and event_ok (well-typed literals and values, room in the interning tables) and float ranges that are not split or have ends that are multiples of 2^-10 (floats_ok; where answers are compared also `fair`: per subscription and event, `not` only where the shortcut and the derived ranges are right, and no near miss of a constant where float ranges are split); the unrestricted claim is false, see the refuted theorems and DESIGN.md. Limits of the claim are witnessed by the listed *_refuted theorems."
  },
  {
   "property": "C31",
   "status": "proved",
   "theorems": [
    "C31_lookup",
    "C31_iteration",
    "C31_string_table"
   ],
   "note": "Fewer than 2^30 operations (the bucket count is doubled in an unsigned int). Whether an allocation succeeds is an input. Memory layout is not modelled."
  },
  {
   "property": "C32",
   "status": "proved",
   "theorems": [
    "C32_event_order",
    "C32_null",
    "C32_last_counts"
   ],
   "note": "Events whose values have the declared types; any reachable tree."
  },
  {
   "property": "C33",
   "status": "proved",
   "theorems": [
    "C33_refused_insert",
    "C33_refused_make"
   ],
   "note": "A refused insertion leaves the whole state unchanged. betree_make_sub: For expressions, constants and events meeting accepts/src_ok/fits and event_ok (well-typed literals and values, room in the interning tables) and float ranges that are not split or have ends that are multiples of 2^-10 (floats_ok; where answers are compared also `fair`: per subscription and event, `not` only where the shortcut and the derived ranges are right, and no near miss of a constant where float ranges are split); the unrestricted claim is false, see the refuted theorems and DESIGN.md."
  },
  {
   "property": "C34",
   "status": "proved",
   "theorems": [
    "C34_missing_constant",
    "C34_constant_used",
    "C34_type_names",
    "C34_type_numbers",
    "C34_wide_constant_refuted"
   ],
   "note": "C34_missing_constant: all expressions; C34_constant_used: For expressions, constants and events meeting accepts/src_ok/fits and event_ok (well-typed literals and values, room in the interning tables) and float ranges that are not split or have ends that are multiples of 2^-10 (floats_ok; where answers are compared also `fair`: per subscription and event, `not` only where the shortcut and the derived ranges are right, and no near miss of a constant where float ranges are split); the unrestricted claim is false, see the refuted theorems and DESIGN.md. Limits of the claim are witnessed by the listed *_refuted theorems."
  },
  {
   "property": "C35",
   "status": "proved",
   "theorems": [
    "C35_two_paths"
   ],
   "note": "For expressions, constants and events meeting accepts/src_ok/fits and event_ok (well-typed literals and values, room in the interning tables) and float ranges that are not split or have ends that are multiples of 2^-10 (floats_ok; where answers are compared also `fair`: per subscription and event, `not` only where the shortcut and the derived ranges are right, and no near miss of a constant where float ranges are split); the unrestricted claim is false, see the refuted theorems and DESIGN.md."
  },
  {
   "property": "C36",
   "status": "proved",
   "theorems": [
    "C36_set_bit",
    "C36_clear_bit",
    "C36_make_bits"
   ],
   "note": ""
  },
  {
   "property": "C37",
   "status": "proved",
   "theorems": [
    "C37_any_tree",
    "C37_repeated_searches"
   ],
   "note": "C37_any_tree: every tree, no restriction."
  },
  {
   "property": "C38",
   "status": "proved",
   "theorems": [
    "C38_insert_is_local"
   ],
   "note": "For expressions, constants and events meeting accepts/src_ok/fits and event_ok (well-typed literals and values, room in the interning tables) and float ranges that are not split or have ends that are multiples of 2^-10 (floats_ok; where answers are compared also `fair`: per subscription and event, `not` only where the shortcut and the derived ranges are right, and no near miss of a constant where float ranges are split); the unrestricted claim is false, see the refuted theorems and DESIGN.md."
  },
  {
   "property": "C39",
   "status": "proved",
   "theorems": [
    "C39_expression_tokens",
    "C39_event_tokens",
    "C39_expression_spelling",
    "C39_event_spelling",
    "C39_foreign_character_ends",
    "C39_blanks_in_keywords_refuted",
    "C39_text_read_to_its_end_refuted"
   ],
   "note": "The scanner is modelled as the documented contract of flex on the rules of the .l files; the tables flex generates: C54. Limits of the claim are witnessed by the listed *_refuted theorems."
  },
  {
   "property": "C40",
   "status": "proved",
   "theorems": [
    "C40_parser_grammar",
    "C40_unambiguous",
    "C40_sentences",
    "C40_precedence",
    "C40_escaped_quote_refuted",
    "C40_integer_values_refuted",
    "C40_not_before_name_refuted"
   ],
   "note": "The tables bison generates from the grammar: C55. Limits of the claim are witnessed by the listed *_refuted theorems."
  },
  {
   "property": "C41",
   "status": "proved",
   "theorems": [
    "C41_event_grammar",
    "C41_event_text"
   ],
   "note": ""
  },
  {
   "property": "C42",
   "status": "proved",
   "theorems": [
    "C42_spelled",
    "C42_calls_with_texts",
    "C42_histories",
    "C42_search_text",
    "C42_exists_text"
   ],
   "note": "C42_spelled and C42_calls_with_texts: all texts and trees. Searches: For expressions, constants and events meeting accepts/src_ok/fits and event_ok (well-typed literals and values, room in the interning tables) and float ranges that are not split or have ends that are multiples of 2^-10 (floats_ok; where answers are compared also `fair`: per subscription and event, `not` only where the shortcut and the derived ranges are right, and no near miss of a constant where float ranges are split); the unrestricted claim is false, see the refuted theorems and DESIGN.md."
  },
  {
   "property": "C43",
   "status": "proved",
   "theorems": [
    "C43_unreadable_text",
    "C43_unreadable_event",
    "C43_refused_unchanged",
    "C43_made_text",
    "C43_inserted_text",
    "C43_two_variables_refuted",
    "C43_unreadable_event_refused_refuted"
   ],
   "note": "Every tree and text. Limits of the claim are witnessed by the listed *_refuted theorems."
  },
  {
   "property": "C44",
   "status": "proved",
   "theorems": [
    "C44_integer_text",
    "C44_decimal_text",
    "C44_integer_as_double",
    "C44_comparison",
    "C44_equality",
    "C44_integers_compared",
    "C44_nearest_is_one"
   ],
   "note": "All digit sequences and finite doubles; integers beyond int64 are outside (atoi-like overflow, see Lexer.v)."
  },
  {
   "property": "C45",
   "status": "proved",
   "theorems": [
    "C45_same_as_event",
    "C45_built",
    "C45_search_exact",
    "C45_second_search",
    "C45_reuse",
    "C45_definitions",
    "C45_reuse_refuted"
   ],
   "note": "Every tree and object; C45_reuse needs that no string list has two unknown strings (refuted otherwise). Limits of the claim are witnessed by the listed *_refuted theorems."
  },
  {
   "property": "C46",
   "status": "proved",
   "theorems": [
    "C46_late_declaration",
    "C46_emptied",
    "C46_kept_sub_refuted",
    "C46_word_refuted"
   ],
   "note": "For expressions, constants and events meeting accepts/src_ok/fits and event_ok (well-typed literals and values, room in the interning tables) and float ranges that are not split or have ends that are multiples of 2^-10 (floats_ok; where answers are compared also `fair`: per subscription and event, `not` only where the shortcut and the derived ranges are right, and no near miss of a constant where float ranges are split); the unrestricted claim is false, see the refuted theorems and DESIGN.md. Limits of the claim are witnessed by the listed *_refuted theorems."
  },
  {
   "property": "C47",
   "status": "proved",
   "theorems": [
    "C47_make",
    "C47_insert",
    "C47_repeated_refuted"
   ],
   "note": "For expressions, constants and events meeting accepts/src_ok/fits and event_ok (well-typed literals and values, room in the interning tables) and float ranges that are not split or have ends that are multiples of 2^-10 (floats_ok; where answers are compared also `fair`: per subscription and event, `not` only where the shortcut and the derived ranges are right, and no near miss of a constant where float ranges are split); the unrestricted claim is false, see the refuted theorems and DESIGN.md. Limits of the claim are witnessed by the listed *_refuted theorems."
  },
  {
   "property": "C48",
   "status": "proved",
   "theorems": [
    "C48_line",
    "C48_setup",
    "C48_unknown_type",
    "C48_missing_field",
    "C48_carriage_return_refuted",
    "C48_empty_field_refuted",
    "C48_list_from_refuted",
    "C48_no_number_refuted",
    "C48_no_string_refuted"
   ],
   "note": "For expressions, constants and events meeting accepts/src_ok/fits and event_ok (well-typed literals and values, room in the interning tables) and float ranges that are not split or have ends that are multiples of 2^-10 (floats_ok; where answers are compared also `fair`: per subscription and event, `not` only where the shortcut and the derived ranges are right, and no near miss of a constant where float ranges are split); the unrestricted claim is false, see the refuted theorems and DESIGN.md. Limits of the claim are witnessed by the listed *_refuted theorems."
  },
  {
   "property": "C49",
   "status": "proved",
   "theorems": [
    "C49_read_back",
    "C49_parsed",
    "C49_same_text",
    "C49_stored",
    "C49_total",
    "C49_decimals_refuted",
    "C49_least_refuted",
    "C49_null_refuted",
    "C49_quote_refuted",
    "C49_segment_number_refuted",
    "C49_segment_variable_refuted"
   ],
   "note": "All expressions with a readable text (see the quantifier); stored subscriptions: For expressions, constants and events meeting accepts/src_ok/fits and event_ok (well-typed literals and values, room in the interning tables) and float ranges that are not split or have ends that are multiples of 2^-10 (floats_ok; where answers are compared also `fair`: per subscription and event, `not` only where the shortcut and the derived ranges are right, and no near miss of a constant where float ranges are split); the unrestricted claim is false, see the refuted theorems and DESIGN.md. Limits of the claim are witnessed by the listed *_refuted theorems."
  },
  {
   "property": "C50",
   "status": "proved",
   "theorems": [
    "C50_copy",
    "C50_text",
    "C50_read_back",
    "C50_parsed",
    "C50_geo_refuted",
    "C50_now_refuted"
   ],
   "note": "C50_text: all expressions; C50_parsed says exactly which parsed expressions are copied whole. Limits of the claim are witnessed by the listed *_refuted theorems."
  },
  {
   "property": "C51",
   "status": "proved",
   "theorems": [
    "C51_reflexive",
    "C51_symmetric",
    "C51_same_meaning",
    "C51_fast",
    "C51_float_refuted",
    "C51_frequency_refuted",
    "C51_not_refuted",
    "C51_null_refuted",
    "C51_operator_refuted",
    "C51_parsed_refuted",
    "C51_transitive_refuted"
   ],
   "note": "For expressions, constants and events meeting accepts/src_ok/fits and event_ok (well-typed literals and values, room in the interning tables) and float ranges that are not split or have ends that are multiples of 2^-10 (floats_ok; where answers are compared also `fair`: per subscription and event, `not` only where the shortcut and the derived ranges are right, and no near miss of a constant where float ranges are split); the unrestricted claim is false, see the refuted theorems and DESIGN.md. Limits of the claim are witnessed by the listed *_refuted theorems."
  },
  {
   "property": "C52",
   "status": "proved",
   "theorems": [
    "C52_exact",
    "C52_refused"
   ],
   "note": "For expressions, constants and events meeting accepts/src_ok/fits and event_ok (well-typed literals and values, room in the interning tables) and float ranges that are not split or have ends that are multiples of 2^-10 (floats_ok; where answers are compared also `fair`: per subscription and event, `not` only where the shortcut and the derived ranges are right, and no near miss of a constant where float ranges are split); the unrestricted claim is false, see the refuted theorems and DESIGN.md."
  },
  {
   "property": "C53",
   "status": "proved",
   "theorems": [
    "C53_search",
    "C53_search_exact",
    "C53_exists",
    "C53_incomplete",
    "C53_whole",
    "C53_insert_finishes",
    "C53_insert_sub_finishes",
    "C53_make_finishes",
    "C53_change_finishes",
    "C53_near_miss_refuted"
   ],
   "note": "For expressions, constants and events meeting accepts/src_ok/fits and event_ok (well-typed literals and values, room in the interning tables) and float ranges that are not split or have ends that are multiples of 2^-10 (floats_ok; where answers are compared also `fair`: per subscription and event, `not` only where the shortcut and the derived ranges are right, and no near miss of a constant where float ranges are split); the unrestricted claim is false, see the refuted theorems and DESIGN.md. Limits of the claim are witnessed by the listed *_refuted theorems."
  },
  {
   "property": "C54",
   "status": "proved",
   "theorems": [
    "C54_expr",
    "C54_event",
    "C54_total"
   ],
   "note": "All texts without NUL."
  },
  {
   "property": "C55",
   "status": "proved",
   "theorems": [
    "C55_expr_tokens",
    "C55_event_tokens",
    "C55_parse",
    "C55_parse_sound",
    "C55_event_parse",
    "C55_no_recovery",
    "C55_deep_not_refuted",
    "C55_deep_paren_refuted"
   ],
   "note": "All tokens and texts; that every sentence is accepted: up to the depth of the stack. Limits of the claim are witnessed by the listed *_refuted theorems."
  },
  {
   "property": "C56",
   "status": "proved",
   "theorems": [
    "C56_answers",
    "C56_careful",
    "C56_released_refuted"
   ],
   "note": "All programs of calls that finish in the tree model; with empty_tree: different ids and no second insertion of a made subscription. Limits of the claim are witnessed by the listed *_refuted theorems."
  },
  {
   "property": "C57",
   "status": "proved",
   "theorems": [
    "C57_free",
    "C57_no_leak",
    "C57_empty",
    "C57_inserted_twice_refuted",
    "C57_repeated_id_refuted"
   ],
   "note": "All programs with different ids and no second insertion of a made subscription; blocks of the index and the subscriptions. Limits of the claim are witnessed by the listed *_refuted theorems."
  },
  {
   "property": "C58",
   "status": "proved",
   "theorems": [
    "C58_answers",
    "C58_search",
    "C58_exists",
    "C58_unreadable_event",
    "C58_free"
   ],
   "note": "Supported programs of calls with texts that fit the stack of the parser."
  },
  {
   "property": "C59",
   "status": "proved",
   "theorems": [
    "C59_calls",
    "C59_insert",
    "C59_find",
    "C59_predicates"
   ],
   "note": "Every order, every sequence of calls, every memory."
  },
  {
   "property": "C60",
   "status": "proved",
   "theorems": [
    "C60_read",
    "C60_release",
    "C60_read_release",
    "C60_copy",
    "C60_lost",
    "C60_lost_first",
    "C60_unreadable_refuted"
   ],
   "note": "All texts without NUL and all states of the memory. That nothing is left behind is false for refused texts. Limits of the claim are witnessed by the listed *_refuted theorems."
  },
  {
   "property": "C61",
   "status": "proved",
   "theorems": [
    "C61_read",
    "C61_release",
    "C61_search",
    "C61_exists",
    "C61_search_event",
    "C61_exists_event",
    "C61_report",
    "C61_session",
    "C61_make",
    "C61_refused_refuted",
    "C61_replace_refuted"
   ],
   "note": "All texts without NUL, all trees, all states of the memory, every outcome. That a search leaves nothing behind is false for events that lack a variable. Limits of the claim are witnessed by the listed *_refuted theorems."
  },
  {
   "property": "C62",
   "status": "proved",
   "theorems": [
    "C62_conf",
    "C62_lookup",
    "C62_zero_refuted"
   ],
   "note": "All sequences of calls and all states of the memory, under the hypothesis c_roomy (at most 2^30 strings per table, no table but the first without strings). Without it the claim is false for variables with bound 0. Limits of the claim are witnessed by the listed *_refuted theorems."
  },
  {
   "property": "C63",
   "status": "proved",
   "theorems": [
    "C63_program",
    "C63_supported",
    "C63_all_released",
    "C63_constants_refuted",
    "C63_zero_refuted"
   ],
   "note": "C63_program: all programs that end on values, under roomy_run (the string tables along the run as in C62); C63_supported: programs of C58; C63_all_released: nothing is left when all made subscriptions were inserted and clean_run holds. Limits of the claim are witnessed by the listed *_refuted theorems."
  },
  {
   "property": "C64",
   "status": "proved",
   "theorems": [
    "C64_answers",
    "C64_memory"
   ],
   "note": "All programs that satisfy `program` of ProgramSpec.v, whose premises speak of declarations, texts and source expressions only."
  },
  {
   "property": "C65",
   "status": "proved",
   "theorems": [
    "C65_program",
    "C65_release",
    "C65_all_released",
    "C65_added_twice_refuted"
   ],
   "note": "All programs of calls of ObjProgram.v that end on values, under x_roomy_run (the string tables along the run as in C62). Using a pointer after it was given away is undefined behaviour in the model; C allows reading through it until it is released. Limits of the claim are witnessed by the listed *_refuted theorems."
  },
  {
   "property": "C66",
   "status": "proved",
   "theorems": [
    "C66_answers",
    "C66_memory",
    "C66_objects"
   ],
   "note": "All programs that satisfy `xprogram` of ObjProgramSpec.v; the event as it is after searches does not enter the rules, only what the caller put there. An answer may refer to earlier ones: `added_to` says that the report is what the earlier answer showed, with the new findings appended. C66_objects: the calls on objects of ObjProgram.v are exactly those of the relation `does`, anything else is undefined behaviour."
  },
  {
   "property": "C67",
   "status": "proved",
   "theorems": [
    "C67_calls",
    "C67_erase",
    "C67_size_refuted"
   ],
   "note": "The count is a size_t, so it is given modulo 2^64. The elements are opaque; their order is any total order on the elements used. Limits of the claim are witnessed by the listed *_refuted theorems."
  },
  {
   "property": "C68",
   "status": "proved",
   "theorems": [
    "C68_expression",
    "C68_event",
    "C68_read",
    "C68_read_event",
    "C68_length"
   ],
   "note": "All texts without NUL of at most INT_MAX - 2 characters; C68_length shows that longer ones are undefined. All tokens are read before the parser runs; the parser of the C code takes them one by one, which makes no difference to what the buffer contains, and a refused text stops the scanner earlier."
  },
  {
   "property": "C69",
   "status": "proved",
   "theorems": [
    "C69_expression",
    "C69_event",
    "C69_read",
    "C69_read_event",
    "C69_layout"
   ],
   "note": "All sequences of tokens and all texts without NUL that the scanners take. The blocks of the stacks have a ledger of their own; allocation never fails."
  },
  {
   "property": "C70",
   "status": "proved",
   "theorems": [
    "C70_text",
    "C70_only",
    "C70_limit",
    "C70_session"
   ],
   "note": "All expressions and memories. vsnprintf's results are the texts of Printer.v (two decimals for floats); allocation never fails."
  },
  {
   "property": "C71",
   "status": "proved",
   "theorems": [
    "C71_event",
    "C71_event_only",
    "C71_line",
    "C71_line_only",
    "C71_session",
    "C71_kinds_refuted",
    "C71_sign_refuted",
    "C71_slot_refuted"
   ],
   "note": "All events, variables, buffers and memories. That every event can be printed and that integers keep their sign is refuted (findings F54 and F55). Limits of the claim are witnessed by the listed *_refuted theorems."
  },
  {
   "property": "C72",
   "status": "proved",
   "theorems": [
    "C72_same",
    "C72_event_same",
    "C72_read",
    "C72_read_event",
    "C72_stops",
    "C72_event_stops"
   ],
   "note": "All texts without NUL that the scanners take. The stacks have a ledger of their own; allocation never fails."
  },
  {
   "property": "C73",
   "status": "proved",
   "theorems": [
    "C73_draw",
    "C73_draw_careful",
    "C73_subs",
    "C73_declared",
    "C73_commas_refuted",
    "C73_names_refuted",
    "C73_quotes_refuted"
   ],
   "note": "All programs of public calls. Opening the file succeeds; the texts of names are kept beside their blocks; code in comments and the unused functions of debug.c 699-762 are left out. That different nodes have different names, that levels are lists with commas and that names without quotes are identifiers is refuted (finding F56). Limits of the claim are witnessed by the listed *_refuted theorems."
  },
  {
   "property": "C74",
   "status": "proved",
   "theorems": [
    "C74_domain",
    "C74_domain_same",
    "C74_range",
    "C74_tree",
    "C74_report",
    "C74_type",
    "C74_decimals_refuted",
    "C74_limit_refuted"
   ],
   "note": "All definitions with names without blanks, all ranges. That the ends of float ranges and limits of SIZE_MAX - 1 strings are told is refuted. Limits of the claim are witnessed by the listed *_refuted theorems."
  },
  {
   "property": "C75",
   "status": "proved",
   "theorems": [
    "C75_shape",
    "C75_depth",
    "C75_size",
    "C75_recorded",
    "C75_twins_refuted"
   ],
   "note": "All histories of finished calls with different ids. With an id that is inserted twice the shape is refuted. Limits of the claim are witnessed by the listed *_refuted theorems."
  },
  {
   "property": "C76",
   "status": "proved",
   "theorems": [
    "C76_ranges",
    "C76_nodes"
   ],
   "note": "All histories of finished calls. Left out: partitions over float ranges whose ends are not multiples of 2^-10 up to 2^40 and a whole number apart, and over ranges declared with the upper end below the lower one."
  },
  {
   "property": "C77",
   "status": "proved",
   "theorems": [
    "C77_candidates",
    "C77_path",
    "C77_nodes"
   ],
   "note": "C77_candidates: every tree and event. The bounds: ordered ranges (floats as in C76) and events with one finite value for the variable of the partition; a list or a missing value can lead everywhere (C77_not)."
  }
 ]
}