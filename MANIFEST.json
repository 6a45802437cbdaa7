{"claims": [
{"property": "C01", "status": "proved", "theorems": ["C01_accepts_iff"], "note": ""},
{"property": "C02", "status": "proved", "theorems": ["C02_first_offender", "C02_whole_set", "C02_whole_set_text", "C02_later_ignored", "C02_reason"], "note": ""},
{"property": "C03", "status": "partial", "theorems": ["C03_refuted", "C03_all_validated_partial"], "note": "Refuted by the code (C03_refuted): expressions beyond the end of the flags or ids slices are skipped. C03_all_validated_partial: the contract holds whenever the other two slices are long enough."},
{"property": "C04", "status": "proved", "theorems": ["C04_single", "C04_irrelevant", "C04_relevant"], "note": ""},
{"property": "C05", "status": "proved", "theorems": ["C05_release_total", "C05_single", "C05_terminates"], "note": ""},
{"property": "C06", "status": "partial", "theorems": ["C06_refuted", "C06_panics_iff_partial", "C06_no_group_partial", "C06_overflow_iff"], "note": "Refuted by the code (C06_refuted: \"a(b)\"). C06_overflow_iff and C06_panics_iff_partial give the exact condition for parsing and for compile_multi to panic by overflow."},
{"property": "C07", "status": "proved", "theorems": ["C07_assert_iff", "C07_verb_never_asserts", "C07_other_panics", "C07_terminates"], "note": ""},
{"property": "C08", "status": "proved", "theorems": ["C08_selection", "C08_permutation", "C08_sublist"], "note": ""},
{"property": "C09", "status": "partial", "theorems": ["C09_refuted", "C09_literals_partial", "C09_literal_iff"], "note": "Refuted by the code in general (C09_refuted: \"a|b\" and \"c|d\"). C09_literals_partial proves it for literal expressions; C09_literal_iff says which these are."},
{"property": "C10", "status": "partial", "theorems": ["C10_refuted", "C10_message_partial", "C10_inverted_partial"], "note": "Refuted by the code (C10_refuted): what the earlier expression did is inverted. C10_message_partial gives the exact message, C10_inverted_partial that the ending is always the wrong one."},
{"property": "C11", "status": "partial", "theorems": ["C11_refuted", "C11_outcome_partial", "C11_assert_only_conflict_partial"], "note": "Refuted by the code with debug assertions (C11_refuted). C11_outcome_partial: an error value without them, a debug assertion with them; C11_assert_only_conflict_partial: nothing else trips it."},
{"property": "C12", "status": "proved", "theorems": ["C12_accepts_balanced", "C12_release_no_verb", "C12_checked"], "note": ""},
{"property": "C13", "status": "proved", "theorems": ["C13_tree_iff", "C13_unambiguous", "C13_injective", "C13_caseless_not_injective"], "note": ""},
{"property": "C14", "status": "proved", "theorems": ["C14_language", "C14_characters", "C14_groups"], "note": ""},
{"property": "C15", "status": "proved", "theorems": ["C15_numbering", "C15_wraps"], "note": ""},
{"property": "C16", "status": "proved", "theorems": ["C16_unmatched_iff", "C16_missing_iff", "C16_no_other_error", "C16_never_negative_iff"], "note": ""},
{"property": "C17", "status": "partial", "theorems": ["C17_printed_index_partial", "C17_innermost_unique", "C17_refuted"], "note": "Refuted by the code (C17_refuted): the reversed subtraction prints 2 to the width of usize minus the byte index. C17_printed_index_partial gives the printed index for every expression; C17_innermost_unique shows the group meant is unique."},
{"property": "C18", "status": "proved", "theorems": ["C18_verbs", "C18_parse_uses_verb", "C18_verb_unique"], "note": ""},
{"property": "C19", "status": "proved", "theorems": ["C19_second_verb_is_a_group", "C19_second_verb_is_read", "C19_second_verb_checked"], "note": ""},
{"property": "C20", "status": "partial", "theorems": ["C20_refuted", "C20_located_iff_partial"], "note": "Refuted by the code (C20_refuted). C20_located_iff_partial: a LocatedParse error carries a location exactly when it comes from a rejected control verb."},
{"property": "C21", "status": "proved", "theorems": ["C21_set", "C21_reset", "C21_flip", "C21_test", "C21_bulk", "C21_set_bytes", "C21_constructors", "C21_sequences"], "note": ""},
{"property": "C22", "status": "proved", "theorems": ["C22_pointwise", "C22_fields", "C22_equality", "C22_algebra"], "note": ""},
{"property": "C23", "status": "proved", "theorems": ["C23_set_range", "C23_from_range"], "note": ""},
{"property": "C24", "status": "proved", "theorems": ["C24_find_first", "C24_find_last", "C24_find_next", "C24_iteration"], "note": ""},
{"property": "C25", "status": "proved", "theorems": ["C25_count", "C25_find_nth", "C25_none_any_all"], "note": ""},
{"property": "C26", "status": "proved", "theorems": ["C26_make_caseless"], "note": ""},
{"property": "C27", "status": "proved", "theorems": ["C27_alphabetic", "C27_caseless_char", "C27_bit5", "C27_subset_overlap", "C27_ascii_utf8"], "note": ""},
{"property": "C28", "status": "proved", "theorems": ["C28_mask", "C28_mask_empty"], "note": ""},
{"property": "C29", "status": "partial", "theorems": ["C29_refuted", "C29_actual_partial"], "note": "Refuted by the code: the shift uses c & 8. C29_refuted is the witness; C29_actual_partial is the exact behaviour for every class, buffer and profile."},
{"property": "C30", "status": "proved", "theorems": ["C30_total_order", "C30_order"], "note": ""},
{"property": "C31", "status": "proved", "theorems": ["C31_language", "C31_recognised_iff", "C31_parsed"], "note": ""},
{"property": "C32", "status": "proved", "theorems": ["C32_literal", "C32_index", "C32_not_literal", "C32_never_mixed", "C32_iff", "C32_bytes"], "note": ""},
{"property": "C33", "status": "proved", "theorems": ["C33_mixed_sensitivity", "C33_pushed"], "note": ""},
{"property": "C34", "status": "partial", "theorems": ["C34_order", "C34_which_order", "C34_refuted", "C34_equality_partial"], "note": "First half refuted by the code: == ignores the case flags. C34_refuted is the witness; C34_equality_partial says exactly what == is; the order half is C34_order. C34_which_order says which order it is."},
{"property": "C35", "status": "proved", "theorems": ["C35_never_panics", "C35_stops", "C35_ids", "C35_next"], "note": ""},
{"property": "C36", "status": "proved", "theorems": ["C36_keys", "C36_next"], "note": ""},
{"property": "C37", "status": "proved", "theorems": ["C37_recorded", "C37_next"], "note": ""},
{"property": "C38", "status": "partial", "theorems": ["C38_refuted", "C38_one_report_partial", "C38_all_zero_partial"], "note": "The statement as written is false (C38_refuted): all literals share report 0. Proved instead what holds for every engine: at most one internal report exists, and every id ever issued is 0."},
{"property": "C39", "status": "proved", "theorems": ["C39_contents", "C39_full", "C39_again"], "note": ""},
{"property": "C40", "status": "proved", "theorems": ["C40_tree"], "note": ""},
{"property": "C41", "status": "proved", "theorems": ["C41_limits", "C41_stops", "C41_runs"], "note": ""},
{"property": "C42", "status": "proved", "theorems": ["C42_no_match_lost"], "note": ""},
{"property": "C43", "status": "proved", "theorems": ["C43_any_tree", "C43_noted", "C43_graph"], "note": ""},
{"property": "C44", "status": "partial", "theorems": ["C44_all_reports", "C44_is_vacuous", "C44_refuted", "C44_never_vacuous_partial"], "note": "The query part is proved in full. The last part is false (C44_refuted: \"()\"), because no accept edges are ever built; C44_never_vacuous_partial gives the actual behaviour."},
{"property": "C45", "status": "proved", "theorems": ["C45_engine_exists", "C45_min_width", "C45_no_depth_overflow", "C45_set"], "note": ""},
{"property": "C46", "status": "proved", "theorems": ["C46_database", "C46_engine", "C46_pure_literal_iff", "C46_never_single_outfix"], "note": ""},
{"property": "C47", "status": "proved", "theorems": ["C47_scan", "C47_sequence"], "note": ""},
{"property": "C48", "status": "partial", "theorems": ["C48_round_up_n_partial", "C48_round_down_n_partial", "C48_fixed_partial", "C48_exact_when_small", "C48_zero", "C48_refuted"], "note": "Refuted for results of more than eight bits (C48_refuted); the other theorems give the exact value for every width, argument and profile."},
{"property": "C49", "status": "proved", "theorems": ["C49_try_from", "C49_order", "C49_which_order", "C49_infinity"], "note": ""},
{"property": "C50", "status": "partial", "theorems": ["C50_char_injective", "C50_char_read", "C50_char_visible", "C50_char_sequences", "C50_runs", "C50_class_text", "C50_returns_iff", "C50_stuck", "C50_forever", "C50_denotes_unique", "C50_denotes", "C50_read", "C50_faithful_partial", "C50_refuted"], "note": "Single characters and series of them are proved injective for every output mode. For classes the statement fails (C50_refuted): the highest run is left out unless it ends at 255, and some classes overflow or loop. C50_class_text gives the text of every class, C50_denotes what set it reads as, C50_faithful_partial injectivity for texts in which nothing can be left out. C50_char_read: a written byte can be read back by the usual escape rules, exactly excepting the bytes below 16 other than tab, line feed and carriage return, which the code pads with a space."},
{"property": "C51", "status": "partial", "theorems": ["C51_dump", "C51_order_unique", "C51_fails", "C51_returns", "C51_parsed", "C51_equal_iff", "C51_injective_partial", "C51_determines_text", "C51_refuted"], "note": "Everything is proved for every parsed tree except that trees parsed in different case modes can have the same dump (C51_refuted); C51_injective_partial has the hypothesis of equal case modes, C51_equal_iff says exactly which trees share a dump."},
{"property": "C52", "status": "proved", "theorems": ["C52_walk", "C52_unique", "C52_once", "C52_parsed", "C52_unfinished"], "note": ""},
{"property": "C53", "status": "proved", "theorems": ["C53_step", "C53_chain", "C53_counted", "C53_panics", "C53_regions", "C53_no_caret_after_float", "C53_accept_replaced", "C53_initial"], "note": ""},
{"property": "C54", "status": "partial", "theorems": ["C54_refuted", "C54_start_filter_partial", "C54_other_filter_partial"], "note": "False as stated (C54_refuted): the epsilon test is inverted. C54_start_filter_partial and C54_other_filter_partial characterise the filter exactly."},
{"property": "C55", "status": "proved", "theorems": ["C55_contents", "C55_given_up"], "note": ""},
{"property": "C56", "status": "proved", "theorems": ["C56_no_match_lost"], "note": ""},
{"property": "C57", "status": "proved", "theorems": ["C57_recorded", "C57_global_exhaust", "C57_keys"], "note": ""},
{"property": "C58", "status": "partial", "theorems": ["C58_alternation", "C58_alternation_accepted", "C58_group_partial", "C58_group_is_verb", "C58_refuted", "C58_sequence", "C58_concatenation", "C58_empty"], "note": "Alternation, concatenation (of groups, and of texts without a bar outside groups), the empty expression are proved in full. Grouping is false (C58_refuted): wrapping an expression that begins with * and has another character makes a control verb (C58_group_is_verb). C58_group_partial: wrapping keeps the language of every other expression."},
{"property": "C59", "status": "proved", "theorems": ["C59_case_closure", "C59_closed", "C59_same_acceptance"], "note": ""},
{"property": "C60", "status": "proved", "theorems": ["C60_finite", "C60_word_length"], "note": ""},
{"property": "C61", "status": "proved", "theorems": ["C61_text", "C61_injective"], "note": ""},
{"property": "C62", "status": "proved", "theorems": ["C62_size", "C62_height"], "note": ""},
{"property": "C63", "status": "proved", "theorems": ["C63_verdict", "C63_horizon", "C63_classes"], "note": ""},
{"property": "C64", "status": "proved", "theorems": ["C64_expression", "C64_parsed"], "note": ""},
{"property": "C65", "status": "proved", "theorems": ["C65_case_helpers", "C65_inverse"], "note": ""},
{"property": "C66", "status": "proved", "theorems": ["C66_answers", "C66_full", "C66_state", "C66_asserts"], "note": ""},
{"property": "C67", "status": "proved", "theorems": ["C67_accepts_iff", "C67_depends", "C67_database", "C67_without_shortcuts", "C67_out_of_range"], "note": ""},
{"property": "C68", "status": "proved", "theorems": ["C68_contents", "C68_given_up"], "note": ""},
{"property": "C69", "status": "proved", "theorems": ["C69_parse", "C69_set"], "note": ""},
{"property": "C70", "status": "proved", "theorems": ["C70_final", "C70_repairable", "C70_panics", "C70_spoilt"], "note": ""},
{"property": "C71", "status": "proved", "theorems": ["C71_compile", "C71_parse", "C71_dump", "C71_classes", "C71_engine", "C71_transfer"], "note": ""},
{"property": "C72", "status": "proved", "theorems": ["C72_bits", "C72_read", "C72_noted", "C72_same", "C72_engine", "C72_each_matters"], "note": ""},
{"property": "C73", "status": "proved", "theorems": ["C73_store", "C73_stops"], "note": ""},
{"property": "C74", "status": "proved", "theorems": ["C74_recognised", "C74_buffers", "C74_min_width"], "note": ""},
{"property": "C75", "status": "proved", "theorems": ["C75_prefix", "C75_reports", "C75_words"], "note": ""},
{"property": "C76", "status": "proved", "theorems": ["C76_pattern", "C76_reference", "C76_single"], "note": ""},
{"property": "C77", "status": "proved", "theorems": ["C77_call", "C77_calls", "C77_misuse", "C77_pointer", "C77_compile", "C77_move"], "note": "Memory is a list of cells; a pointer is a cell number or dangling. Rust's aliasing rules are not modelled."},
{"property": "C78", "status": "proved", "theorems": ["C78_targets", "C78_differ", "C78_verdict"], "note": ""},
{"property": "C79", "status": "proved", "theorems": ["C79_model", "C79_outcomes", "C79_order", "C79_parsed", "C79_reachable"], "note": ""},
{"property": "C80", "status": "proved", "theorems": ["C80_class", "C80_dump", "C80_string", "C80_prefix", "C80_room"], "note": ""},
{"property": "C81", "status": "proved", "theorems": ["C81_literal", "C81_debug", "C81_text", "C81_line", "C81_kind", "C81_display"], "note": ""},
{"property": "C82", "status": "partial", "theorems": ["C82_refuted", "C82_documented_partial", "C82_reversed", "C82_keys", "C82_keys_run_out"], "note": "False of describe_range, which without overflow checks prints a text for c1 > c2 (C82_refuted; C82_reversed gives the text). It holds of the others: C82_documented_partial has exact conditions (for describe_range with overflow checks). The documented condition of get_exhaustible_key cannot arise; it panics once 2^32 keys are out, even for a known key (C82_keys, C82_keys_run_out)."},
{"property": "C83", "status": "proved", "theorems": ["C83_add", "C83_adds", "C83_order", "C83_literal", "C83_unreported"], "note": ""},
{"property": "C84", "status": "proved", "theorems": ["C84_walk", "C84_note", "C84_text", "C84_checked", "C84_limit", "C84_unbounded"], "note": ""},
{"property": "C85", "status": "proved", "theorems": ["C85_operators", "C85_closed", "C85_tests", "C85_constants", "C85_order", "C85_debug"], "note": ""},
{"property": "C86", "status": "proved", "theorems": ["C86_decodes", "C86_faithful", "C86_slices", "C86_parse", "C86_never_cuts", "C86_compile", "C86_messages"], "note": ""},
{"property": "C87", "status": "proved", "theorems": ["C87_possible", "C87_contents", "C87_find_edge", "C87_holder", "C87_trie"], "note": ""},
{"property": "C88", "status": "proved", "theorems": ["C88_room", "C88_words", "C88_cmp", "C88_literal", "C88_literal_room"], "note": ""},
{"property": "C89", "status": "proved", "theorems": ["C89_line", "C89_reads_back", "C89_lines", "C89_determines", "C89_values", "C89_values_determined", "C89_errors", "C89_expression"], "note": ""},
{"property": "C90", "status": "proved", "theorems": ["C90_parses", "C90_bitfield", "C90_helpers", "C90_charreach", "C90_describe"], "note": ""},
{"property": "C91", "status": "proved", "theorems": ["C91_updates", "C91_bulk", "C91_bytes", "C91_constructors", "C91_operators", "C91_ranges", "C91_searches", "C91_counts", "C91_caseless", "C91_predicates", "C91_mask", "C91_described", "C91_filled", "C91_letters"], "note": ""},
{"property": "C92", "status": "proved", "theorems": ["C92_errors", "C92_classes", "C92_sequences", "C92_verbs", "C92_context", "C92_parse"], "note": ""},
{"property": "C93", "status": "proved", "theorems": ["C93_tree", "C93_accepts", "C93_language", "C93_unmatched", "C93_missing", "C93_verbs", "C93_asserts", "C93_overflows", "C93_nothing_else", "C93_ends"], "note": ""},
{"property": "C94", "status": "proved", "theorems": ["C94_flags", "C94_depth", "C94_reports", "C94_literals", "C94_rose"], "note": ""},
{"property": "C95", "status": "proved", "theorems": ["C95_smallwrite", "C95_ng"], "note": ""},
{"property": "C96", "status": "proved", "theorems": ["C96_parsed_expression", "C96_walk", "C96_shortcut_literal"], "note": ""},
{"property": "C97", "status": "proved", "theorems": ["C97_holder", "C97_builder", "C97_classes", "C97_note_positions", "C97_sequences", "C97_build_graph", "C97_vacuous", "C97_vacuous_means", "C97_all_reports", "C97_filter_edges", "C97_connect_successors", "C97_connect_regions", "C97_build_state"], "note": ""},
{"property": "C98", "status": "proved", "theorems": ["C98_add_expression", "C98_build", "C98_compile_multi_int", "C98_compile_multi", "C98_compile"], "note": ""},
{"property": "C99", "status": "proved", "theorems": ["C99_comes", "C99_accepts", "C99_first_offender", "C99_whole_set", "C99_release", "C99_single"], "note": ""}
]}
