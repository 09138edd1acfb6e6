{
 "claims": [
  {
   "property": "C01",
   "status": "proved",
   "theorems": [
    "C01_plural_index_in_range",
    "C01_two_rows_out_of_range",
    "C01_plural_index_nonnegative"
   ],
   "note": ""
  },
  {
   "property": "C02",
   "status": "proved",
   "theorems": [
    "C02_rule_is_the_text",
    "C02_latvian_text_is_malformed"
   ],
   "note": ""
  },
  {
   "property": "C03",
   "status": "proved",
   "theorems": [
    "C03_whitespace_never_matters",
    "C03_recognised_iff_registered",
    "C03_unrecognised_is_invalid"
   ],
   "note": ""
  },
  {
   "property": "C04",
   "status": "proved",
   "theorems": [
    "C04_dictionary_is_a_map",
    "C04_fresh_dictionary"
   ],
   "note": ""
  },
  {
   "property": "C05",
   "status": "proved",
   "theorems": [
    "C05_untranslated_is_identity"
   ],
   "note": ""
  },
  {
   "property": "C06",
   "status": "proved",
   "theorems": [
    "C06_contexts_isolated"
   ],
   "note": ""
  },
  {
   "property": "C07",
   "status": "proved",
   "theorems": [
    "C07_plural_form_selected"
   ],
   "note": ""
  },
  {
   "property": "C08",
   "status": "proved",
   "theorems": [
    "C08_fallback_chain",
    "C08_fallback_chain_log"
   ],
   "note": ""
  },
  {
   "property": "C09",
   "status": "proved",
   "theorems": [
    "C09_fallback_cycle_diverges"
   ],
   "note": ""
  },
  {
   "property": "C10",
   "status": "proved",
   "theorems": [
    "C10_ctxt_lookup_leaves_context",
    "C10_unknown_context_ignores_fallback",
    "C10_plural_ignores_fallback",
    "C10_violation"
   ],
   "note": ""
  },
  {
   "property": "C11",
   "status": "proved",
   "theorems": [
    "C11_enumeration_exact"
   ],
   "note": ""
  },
  {
   "property": "C12",
   "status": "proved",
   "theorems": [
    "C12_warning_iff_overwrite",
    "C12_same_value_changes_nothing"
   ],
   "note": ""
  },
  {
   "property": "C13",
   "status": "proved",
   "theorems": [
    "C13_match_score",
    "C13_match_properties",
    "C13_agreement_and_monotonicity"
   ],
   "note": ""
  },
  {
   "property": "C14",
   "status": "proved",
   "theorems": [
    "C14_from_spec_best"
   ],
   "note": ""
  },
  {
   "property": "C15",
   "status": "proved",
   "theorems": [
    "C15_constructors_return_known_languages",
    "C15_names_round_trip",
    "C15_equal_iff_same_name"
   ],
   "note": ""
  },
  {
   "property": "C16",
   "status": "proved",
   "theorems": [
    "C16_from_env_splits",
    "C16_from_env_never_throws"
   ],
   "note": ""
  },
  {
   "property": "C17",
   "status": "proved",
   "theorems": [
    "C17_alias_resolution"
   ],
   "note": ""
  },
  {
   "property": "C18",
   "status": "proved",
   "theorems": [
    "C18_uppercase_aliases_are_dead",
    "C18_which_aliases",
    "C18_no_NO_example"
   ],
   "note": ""
  },
  {
   "property": "C19",
   "status": "proved",
   "theorems": [
    "C19_base_language"
   ],
   "note": ""
  },
  {
   "property": "C20",
   "status": "proved",
   "theorems": [
    "C20_order"
   ],
   "note": ""
  },
  {
   "property": "C21",
   "status": "proved",
   "theorems": [
    "C21_parse_outcomes",
    "C21_no_ub_while_running",
    "C21_effects_are_dictionary_calls",
    "C21_descriptors_closed"
   ],
   "note": ""
  },
  {
   "property": "C22",
   "status": "proved",
   "theorems": [
    "C22_terminates",
    "C22_terminates_complete"
   ],
   "note": ""
  },
  {
   "property": "C23",
   "status": "proved",
   "theorems": [
    "C23_parse_never_returns",
    "C23_parse_never_returns_after_conversions"
   ],
   "note": ""
  },
  {
   "property": "C24",
   "status": "proved",
   "theorems": [
    "C24_literals_round_trip",
    "C24_plural_literals_round_trip",
    "C24_every_string_can_be_spelled"
   ],
   "note": ""
  },
  {
   "property": "C25",
   "status": "proved",
   "theorems": [
    "C25_document_is_read_as_written",
    "C25_catalogue_read_back",
    "C25_untranslated_entries_add_nothing"
   ],
   "note": ""
  },
  {
   "property": "C26",
   "status": "proved",
   "theorems": [
    "C26_crlf"
   ],
   "note": ""
  },
  {
   "property": "C27",
   "status": "proved",
   "theorems": [
    "C27_isolation",
    "C27_isolation_plain",
    "C27_no_hang"
   ],
   "note": ""
  },
  {
   "property": "C28",
   "status": "proved",
   "theorems": [
    "C28_next_entry_is_swallowed"
   ],
   "note": ""
  },
  {
   "property": "C29",
   "status": "proved",
   "theorems": [
    "C29_independent",
    "C29_nothing_removed",
    "C29_settings_untouched"
   ],
   "note": ""
  },
  {
   "property": "C30",
   "status": "proved",
   "theorems": [
    "C30_first_plural_forms_win"
   ],
   "note": ""
  },
  {
   "property": "C31",
   "status": "proved",
   "theorems": [
    "C31_setting_has_no_effect",
    "C31_get_use_fuzzy",
    "C31_fuzzy_flags_ignored"
   ],
   "note": ""
  },
  {
   "property": "C32",
   "status": "proved",
   "theorems": [
    "C32_truncation"
   ],
   "note": ""
  },
  {
   "property": "C33",
   "status": "proved",
   "theorems": [
    "C33_bom",
    "C33_bom_divergence"
   ],
   "note": ""
  },
  {
   "property": "C34",
   "status": "proved",
   "theorems": [
    "C34_header_selects_the_converter",
    "C34_translations_are_converted"
   ],
   "note": ""
  },
  {
   "property": "C35",
   "status": "proved",
   "theorems": [
    "C35_big5_characters_pass_through"
   ],
   "note": ""
  },
  {
   "property": "C36",
   "status": "proved",
   "theorems": [
    "C36_line_numbers",
    "C36_no_overflow"
   ],
   "note": ""
  },
  {
   "property": "C37",
   "status": "proved",
   "theorems": [
    "C37_ascii_files_are_safe",
    "C37_non_ascii_line_is_undefined",
    "C37_undefined_or_the_same"
   ],
   "note": ""
  },
  {
   "property": "C38",
   "status": "proved",
   "theorems": [
    "C38_equal_charsets_identity",
    "C38_no_charsets_identity"
   ],
   "note": ""
  },
  {
   "property": "C39",
   "status": "proved",
   "theorems": [
    "C39_conversion_exact",
    "C39_result_is_iconv_output",
    "C39_one_text_after_another"
   ],
   "note": ""
  },
  {
   "property": "C40",
   "status": "proved",
   "theorems": [
    "C40_descriptors_disciplined",
    "C40_violation_close_of_invalid_descriptor"
   ],
   "note": ""
  },
  {
   "property": "C41",
   "status": "proved",
   "theorems": [
    "C41_buffer_too_small",
    "C41_conversion_not_repeatable"
   ],
   "note": ""
  },
  {
   "property": "C42",
   "status": "proved",
   "theorems": [
    "C42_cache_transparent",
    "C42_returns_when_readable"
   ],
   "note": ""
  },
  {
   "property": "C43",
   "status": "proved",
   "theorems": [
    "C43_half_loaded_dictionary_is_cached"
   ],
   "note": ""
  },
  {
   "property": "C44",
   "status": "proved",
   "theorems": [
    "C44_first_directory_wins",
    "C44_translate",
    "C44_search_path"
   ],
   "note": ""
  },
  {
   "property": "C45",
   "status": "proved",
   "theorems": [
    "C45_last_directory_sets_plural_forms"
   ],
   "note": ""
  },
  {
   "property": "C46",
   "status": "proved",
   "theorems": [
    "C46_best_file"
   ],
   "note": ""
  },
  {
   "property": "C47",
   "status": "proved",
   "theorems": [
    "C47_ownership",
    "C47_returned_references_are_live",
    "C47_destructor",
    "C47_no_memory_error"
   ],
   "note": ""
  },
  {
   "property": "C48",
   "status": "proved",
   "theorems": [
    "C48_get_language",
    "C48_no_language",
    "C48_language_set"
   ],
   "note": ""
  },
  {
   "property": "C49",
   "status": "proved",
   "theorems": [
    "C49_languages_of_the_files",
    "C49_unreadable_directory",
    "C49_undefined_language_is_listed",
    "C49_lower_case_country"
   ],
   "note": ""
  },
  {
   "property": "C50",
   "status": "proved",
   "theorems": [
    "C50_conversion",
    "C50_throws_iff_short",
    "C50_result_unique",
    "C50_file_language"
   ],
   "note": ""
  },
  {
   "property": "C51",
   "status": "proved",
   "theorems": [
    "C51_log_callbacks",
    "C51_messages"
   ],
   "note": ""
  },
  {
   "property": "C52",
   "status": "proved",
   "theorems": [
    "C52_single_thread_correct",
    "C52_race_loses_registered_key",
    "C52_answers_right_or_missing",
    "C52_filler_is_right",
    "C52_complete_in_the_end",
    "C52_safe_after_initialisation"
   ],
   "note": ""
  },
  {
   "property": "C53",
   "status": "proved",
   "theorems": [
    "C53_unreadable_is_empty",
    "C53_open_failure_never_reported",
    "C53_unreadable_stream"
   ],
   "note": ""
  },
  {
   "property": "C54",
   "status": "proved",
   "theorems": [
    "C54_stray_underscore_becomes_country"
   ],
   "note": ""
  },
  {
   "property": "C55",
   "status": "proved",
   "theorems": [
    "C55_missing_newline_after_msgstr_is_harmless"
   ],
   "note": ""
  },
  {
   "property": "C56",
   "status": "proved",
   "theorems": [
    "C56_references_stay_valid",
    "C56_references_dangle_after_a_change"
   ],
   "note": ""
  },
  {
   "property": "C57",
   "status": "proved",
   "theorems": [
    "C57_translation_is_safe"
   ],
   "note": ""
  },
  {
   "property": "C58",
   "status": "proved",
   "theorems": [
    "C58_forms_are_mixed"
   ],
   "note": ""
  },
  {
   "property": "C59",
   "status": "proved",
   "theorems": [
    "C59_every_call_comes_from_an_entry",
    "C59_every_call_is_literal",
    "C59_nothing_is_made_up"
   ],
   "note": ""
  },
  {
   "property": "C60",
   "status": "proved",
   "theorems": [
    "C60_exact_log",
    "C60_tidy_documents_are_silent"
   ],
   "note": ""
  },
  {
   "property": "C61",
   "status": "proved",
   "theorems": [
    "C61_defined_languages_have_names",
    "C61_names_come_from_the_table",
    "C61_defined_iff_named",
    "C61_hash"
   ],
   "note": ""
  },
  {
   "property": "C62",
   "status": "proved",
   "theorems": [
    "C62_lookup_log",
    "C62_plural_context_miss_log"
   ],
   "note": ""
  },
  {
   "property": "C63",
   "status": "proved",
   "theorems": [
    "C63_diagnostics_quote_their_line"
   ],
   "note": ""
  },
  {
   "property": "C64",
   "status": "proved",
   "theorems": [
    "C64_loading",
    "C64_any_time",
    "C64_loaded_once",
    "C64_other_calls_are_silent"
   ],
   "note": ""
  },
  {
   "property": "C65",
   "status": "proved",
   "theorems": [
    "C65_pedantic_only_adds_warnings"
   ],
   "note": ""
  },
  {
   "property": "C66",
   "status": "proved",
   "theorems": [
    "C66_exactly_what_is_lost",
    "C66_segments_are_unique",
    "C66_every_file_has_segments"
   ],
   "note": ""
  },
  {
   "property": "C67",
   "status": "proved",
   "theorems": [
    "C67_silence_means_well_formed",
    "C67_well_formed_means_silence"
   ],
   "note": ""
  },
  {
   "property": "C68",
   "status": "proved",
   "theorems": [
    "C68_one_text_per_mistake",
    "C68_reports_depend_on_the_file_only"
   ],
   "note": ""
  },
  {
   "property": "C69",
   "status": "proved",
   "theorems": [
    "C69_last_segment",
    "C69_stuck_files_never_return",
    "C69_other_files_are_read_alike",
    "C69_newline_never_hurts"
   ],
   "note": ""
  },
  {
   "property": "C70",
   "status": "proved",
   "theorems": [
    "C70_answers_are_the_texts_in_the_files",
    "C70_every_directory_holds_something",
    "C70_missing_directory"
   ],
   "note": ""
  },
  {
   "property": "C71",
   "status": "proved",
   "theorems": [
    "C71_one_result",
    "C71_sessions",
    "C71_other_calls_come_back",
    "C71_new_manager",
    "C71_any_time",
    "C71_files_that_end_well",
    "C71_one_bad_file"
   ],
   "note": "'Exactly when' is proved constructively: a call that does not come back is shown not not to get stuck (no classical axiom is used), and the converse where the ctype functions accept any char."
  },
  {
   "property": "C72",
   "status": "proved",
   "theorems": [
    "C72_everything_about_a_file",
    "C72_strict_platforms",
    "C72_log_is_determined",
    "C72_log_independent_of_converter"
   ],
   "note": ""
  },
  {
   "property": "C73",
   "status": "proved",
   "theorems": [
    "C73_every_file_is_described",
    "C73_what_a_parse_does",
    "C73_strict_platforms"
   ],
   "note": ""
  },
  {
   "property": "C74",
   "status": "proved",
   "theorems": [
    "C74_manager_does_not_notice",
    "C74_changes_add_up",
    "C74_change_is_the_call",
    "C74_change_through_a_dangling_reference"
   ],
   "note": ""
  },
  {
   "property": "C75",
   "status": "proved",
   "theorems": [
    "C75_changes_last",
    "C75_changes_are_lost"
   ],
   "note": ""
  },
  {
   "property": "C76",
   "status": "proved",
   "theorems": [
    "C76_empty_dictionary_is_never_reset",
    "C76_cached_dictionaries_never_dangle",
    "C76_fallback_of_the_empty_dictionary_dangles",
    "C76_safe_without_addFallback"
   ],
   "note": ""
  },
  {
   "property": "C77",
   "status": "proved",
   "theorems": [
    "C77_character_classes",
    "C77_case",
    "C77_strings"
   ],
   "note": ""
  },
  {
   "property": "C78",
   "status": "proved",
   "theorems": [
    "C78_numbers_are_decimal"
   ],
   "note": ""
  },
  {
   "property": "C79",
   "status": "proved",
   "theorems": [
    "C79_read_error_is_end_of_file",
    "C79_read_error_hang",
    "C79_read_error_between_blocks",
    "C79_read_error_after_line",
    "C79_manager_read_errors"
   ],
   "note": ""
  },
  {
   "property": "C80",
   "status": "proved",
   "theorems": [
    "C80_defined",
    "C80_lookups",
    "C80_one_fate",
    "C80_other_queries"
   ],
   "note": ""
  },
  {
   "property": "C81",
   "status": "proved",
   "theorems": [
    "C81_callbacks",
    "C81_plain_callbacks",
    "C81_violation_throwing_callback_terminates"
   ],
   "note": ""
  },
  {
   "property": "C82",
   "status": "proved",
   "theorems": [
    "C82_answers_are_the_converted_texts",
    "C82_every_directory_says_one_thing",
    "C82_stateless_converters_serve"
   ],
   "note": ""
  },
  {
   "property": "C83",
   "status": "proved",
   "theorems": [
    "C83_translate_prints_the_text",
    "C83_failures_are_printed",
    "C83_listing",
    "C83_numbers",
    "C83_number_out_of_range"
   ],
   "note": ""
  },
  {
   "property": "C84",
   "status": "proved",
   "theorems": [
    "C84_every_file_is_checked",
    "C84_every_file_has_one_report",
    "C84_without_files"
   ],
   "note": ""
  },
  {
   "property": "C85",
   "status": "proved",
   "theorems": [
    "C85_language",
    "C85_language_dir",
    "C85_directory_without_language",
    "C85_unknown_language",
    "C85_directory",
    "C85_missing_directory",
    "C85_usage",
    "C85_every_command_line_ends"
   ],
   "note": ""
  },
  {
   "property": "C86",
   "status": "proved",
   "theorems": [
    "C86_enough_memory",
    "C86_completed",
    "C86_failed",
    "C86_terminates_only_when_warning",
    "C86_terminates",
    "C86_histories",
    "C86_retry",
    "C86_failure_visible",
    "C86_failure_mixes"
   ],
   "note": ""
  },
  {
   "property": "C87",
   "status": "proved",
   "theorems": [
    "C87_undisturbed",
    "C87_nested_calls_harmless",
    "C87_reentrant_get",
    "C87_reentrant_current"
   ],
   "note": ""
  },
  {
   "property": "C88",
   "status": "proved",
   "theorems": [
    "C88_language_switched_while_loading"
   ],
   "note": ""
  },
  {
   "property": "C89",
   "status": "proved",
   "theorems": [
    "C89_clearing_calls",
    "C89_cleared_while_loading"
   ],
   "note": ""
  },
  {
   "property": "C90",
   "status": "proved",
   "theorems": [
    "C90_path_changed",
    "C90_path_changed_while_listing",
    "C90_deleted_before_use"
   ],
   "note": ""
  },
  {
   "property": "C91",
   "status": "proved",
   "theorems": [
    "C91_a_file_is_not_amplified",
    "C91_same_charset",
    "C91_manager"
   ],
   "note": ""
  },
  {
   "property": "C92",
   "status": "proved",
   "theorems": [
    "C92_messages_are_bounded",
    "C92_log_is_quadratic"
   ],
   "note": ""
  },
  {
   "property": "C93",
   "status": "proved",
   "theorems": [
    "C93_no_failure_yet",
    "C93_languages_after_failures",
    "C93_aliases_after_failures",
    "C93_plural_rules_after_failures",
    "C93_a_language_is_lost",
    "C93_a_language_becomes_fatal",
    "C93_an_alias_is_lost",
    "C93_a_plural_rule_is_lost",
    "C93_the_base_is_not_lost",
    "C93_catalan_becomes_its_own_base"
   ],
   "note": ""
  },
  {
   "property": "C94",
   "status": "proved",
   "theorems": [
    "C94_ownership",
    "C94_returned_references_are_live",
    "C94_destructor",
    "C94_no_memory_error",
    "C94_nothing_fails",
    "C94_loaded_dictionaries_survive",
    "C94_failed_load",
    "C94_a_translation_is_lost",
    "C94_a_dictionary_is_leaked",
    "C94_a_warning_aborts",
    "C94_setters_lose_the_dictionaries",
    "C94_parser_failures_are_not_reported",
    "C94_own_base"
   ],
   "note": ""
  },
  {
   "property": "C95",
   "status": "proved",
   "theorems": [
    "C95_uninterrupted",
    "C95_writes_are_recorded",
    "C95_readers",
    "C95_one_loader",
    "C95_undisturbed"
   ],
   "note": ""
  },
  {
   "property": "C96",
   "status": "proved",
   "theorems": [
    "C96_map_race",
    "C96_settings_race",
    "C96_unfinished_dictionary",
    "C96_lost_dictionary"
   ],
   "note": ""
  },
  {
   "property": "C97",
   "status": "proved",
   "theorems": [
    "C97_enumeration",
    "C97_in_place",
    "C97_rehash",
    "C97_undefined"
   ],
   "note": ""
  },
  {
   "property": "C98",
   "status": "proved",
   "theorems": [
    "C98_nested_calls",
    "C98_every_miss_logs",
    "C98_answers",
    "C98_destroyed",
    "C98_violation_unknown_message",
    "C98_known_messages",
    "C98_switching_off"
   ],
   "note": ""
  },
  {
   "property": "C99",
   "status": "proved",
   "theorems": [
    "C99_sdl_is_an_iconv",
    "C99_violation_failure_is_silent",
    "C99_codes",
    "C99_violation_full_buffer_is_silent",
    "C99_success_is_the_same",
    "C99_parsing_with_sdl",
    "C99_memoryless_tables"
   ],
   "note": ""
  },
  {
   "property": "C100",
   "status": "proved",
   "theorems": [
    "C100_exact",
    "C100_overflow",
    "C100_small_files",
    "C100_violation_many_lines",
    "C100_violation_hangs_overflow",
    "C100_violation_blank_lines",
    "C100_violation_long_line"
   ],
   "note": ""
  },
  {
   "property": "C101",
   "status": "proved",
   "theorems": [
    "C101_answers",
    "C101_additions",
    "C101_determined",
    "C101_plain",
    "C101_candidates",
    "C101_considerate",
    "C101_violation_learning",
    "C101_violation_insisting",
    "C101_violation_emptied"
   ],
   "note": ""
  },
  {
   "property": "C102",
   "status": "proved",
   "theorems": [
    "C102_cut_short",
    "C102_one_result",
    "C102_descriptors_closed",
    "C102_badbit_harmless",
    "C102_read_error_reported",
    "C102_failbit_eofbit_never_return",
    "C102_failbit_eofbit_throw",
    "C102_blank_line_at_the_end"
   ],
   "note": ""
  },
  {
   "property": "C103",
   "status": "proved",
   "theorems": [
    "C103_blank_line_at_the_end",
    "C103_no_exception_escapes",
    "C103_reported",
    "C103_badbit_harmless"
   ],
   "note": ""
  },
  {
   "property": "C104",
   "status": "proved",
   "theorems": [
    "C104_menu_is_what_loads",
    "C104_not_on_the_menu",
    "C104_own_name",
    "C104_exact_file_wins",
    "C104_file_of_the_locale",
    "C104_str_identifies",
    "C104_names_can_coincide"
   ],
   "note": ""
  },
  {
   "property": "C105",
   "status": "proved",
   "theorems": [
    "C105_the_order_is_irrelevant",
    "C105_get_languages",
    "C105_the_order_decides",
    "C105_one_exact_file_is_decisive",
    "C105_lower_case_locale"
   ],
   "note": ""
  },
  {
   "property": "C106",
   "status": "proved",
   "theorems": [
    "C106_the_other_files_are_hidden"
   ],
   "note": ""
  }
 ]
}