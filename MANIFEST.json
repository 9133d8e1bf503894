{
 "claims": [
  {
   "property": "C01",
   "status": "proved",
   "theorems": [
    "C01_decrypt_inverts_encrypt",
    "C01_encrypt_inverts_decrypt"
   ],
   "note": ""
  },
  {
   "property": "C02",
   "status": "proved",
   "theorems": [
    "C02_encrypt64_is_threefish",
    "C02_decrypt64_is_threefish"
   ],
   "note": ""
  },
  {
   "property": "C03",
   "status": "proved",
   "theorems": [
    "C03_encrypt_bytes",
    "C03_decrypt_bytes_undoes",
    "C03_New_has_full_state_size",
    "C03_NewSize_has_full_state_size"
   ],
   "note": ""
  },
  {
   "property": "C04",
   "status": "proved",
   "theorems": [
    "C04_history_independence",
    "C04_like_fresh",
    "C04_like_New"
   ],
   "note": ""
  },
  {
   "property": "C05",
   "status": "proved",
   "theorems": [
    "C05_New_accepts_exactly",
    "C05_New64_accepts_exactly",
    "C05_NewSize_accepts_exactly",
    "C05_New_and_New64_agree"
   ],
   "note": ""
  },
  {
   "property": "C06",
   "status": "proved",
   "theorems": [
    "C06_New64_blocksize_refuted",
    "C06_New64_256_encrypt_is_noop_refuted",
    "C06_New64_bytes_exact",
    "C06_New64_bytes_after_history"
   ],
   "note": "The statement records the exact (faulty) behaviour; the naive claim is false of the code and refuted."
  },
  {
   "property": "C07",
   "status": "proved",
   "theorems": [
    "C07_wrong_key_length_panics_refuted",
    "C07_decrypt_returns_zeros_refuted",
    "C07_roundtrip_refuted"
   ],
   "note": "The statement records the exact (faulty) behaviour; the naive claim is false of the code and refuted."
  },
  {
   "property": "C08",
   "status": "proved",
   "theorems": [
    "C08_composition",
    "C08_default_classes",
    "C08_default_characters",
    "C08_configured",
    "C08_machine_ints"
   ],
   "note": ""
  },
  {
   "property": "C09",
   "status": "proved",
   "theorems": [
    "C09_no_repeats"
   ],
   "note": ""
  },
  {
   "property": "C10",
   "status": "proved",
   "theorems": [
    "C10_refused_exactly",
    "C10_only_reader_errors",
    "C10_MustGenerate",
    "C10_mock",
    "C10_machine_ints",
    "C10_overflow_refuted"
   ],
   "note": ""
  },
  {
   "property": "C11",
   "status": "proved",
   "theorems": [
    "C11_same_number_of_ways",
    "C11_draw_uniform",
    "C11_generate_uniform",
    "C11_every_password_reachable",
    "C11_default_proper"
   ],
   "note": ""
  },
  {
   "property": "C12",
   "status": "proved",
   "theorems": [
    "C12_length_law",
    "C12_negative_count_lengthens",
    "C12_non_ascii_doubles",
    "C12_duplicates_never_return",
    "C12_hang",
    "C12_any_bytes"
   ],
   "note": ""
  },
  {
   "property": "C13",
   "status": "proved",
   "theorems": [
    "C13_accepts_exactly",
    "C13_mul_is_product_mod_poly",
    "C13_field_laws"
   ],
   "note": ""
  },
  {
   "property": "C14",
   "status": "proved",
   "theorems": [
    "C14_log_exp",
    "C14_exp_log",
    "C14_exp_add",
    "C14_exp_is_power",
    "C14_special_cases"
   ],
   "note": ""
  },
  {
   "property": "C15",
   "status": "proved",
   "theorems": [
    "C15_codeword",
    "C15_generator_roots"
   ],
   "note": ""
  },
  {
   "property": "C16",
   "status": "proved",
   "theorems": [
    "C16_distance",
    "C16_unique_nearest"
   ],
   "note": ""
  },
  {
   "property": "C17",
   "status": "proved",
   "theorems": [
    "C17_history_independent",
    "C17_panics_iff_short",
    "C17_rest_of_check"
   ],
   "note": ""
  },
  {
   "property": "C18",
   "status": "proved",
   "theorems": [
    "C18_size_predicted"
   ],
   "note": ""
  },
  {
   "property": "C19",
   "status": "proved",
   "theorems": [
    "C19_bits_decode_to_text"
   ],
   "note": ""
  },
  {
   "property": "C20",
   "status": "proved",
   "theorems": [
    "C20_smallest_version",
    "C20_error_iff_no_version_fits"
   ],
   "note": ""
  },
  {
   "property": "C21",
   "status": "proved",
   "theorems": [
    "C21_padding_and_check_bytes"
   ],
   "note": ""
  },
  {
   "property": "C22",
   "status": "proved",
   "theorems": [
    "C22_plan_layout",
    "C22_versions_outside_refused"
   ],
   "note": ""
  },
  {
   "property": "C23",
   "status": "proved",
   "theorems": [
    "C23_reader_recovers_text",
    "C23_plan_encode",
    "C23_plan_refuses"
   ],
   "note": ""
  },
  {
   "property": "C24",
   "status": "proved",
   "theorems": [
    "C24_full_blocks",
    "C24_half_blocks",
    "C24_full_screen_reads_back",
    "C24_half_screen_reads_back"
   ],
   "note": ""
  },
  {
   "property": "C25",
   "status": "proved",
   "theorems": [
    "C25_overlong_text_panics_refuted",
    "C25_longer_texts_panic_refuted"
   ],
   "note": "The statement records the exact (faulty) behaviour; the naive claim is false of the code and refuted."
  },
  {
   "property": "C26",
   "status": "proved",
   "theorems": [
    "C26_schedule_independent",
    "C26_every_schedule_ends",
    "C26_no_deadlock",
    "C26_mutual_exclusion",
    "C26_returns_or_crashes",
    "C26_crashes_iff",
    "C26_index_order_irrelevant"
   ],
   "note": ""
  },
  {
   "property": "C27",
   "status": "proved",
   "theorems": [
    "C27_ClosestN",
    "C27_Closest_first",
    "C27_Closest_best",
    "C27_answers"
   ],
   "note": ""
  },
  {
   "property": "C28",
   "status": "proved",
   "theorems": [
    "C28_match_scores",
    "C28_score_unique"
   ],
   "note": ""
  },
  {
   "property": "C29",
   "status": "proved",
   "theorems": [
    "C29_exact_entry_among_answers",
    "C29_exact_entry_loses_only_to",
    "C29_exact_entry_first_when",
    "C29_shadowed_entry",
    "C29_upper_case_finds_nothing",
    "C29_exact_entry_first_refuted"
   ],
   "note": "All clauses of the statement; C29_exact_entry_first_refuted is the counterexample to the naive claim."
  },
  {
   "property": "C30",
   "status": "proved",
   "theorems": [
    "C30_findable",
    "C30_found_iff",
    "C30_new_words_found",
    "C30_refuted"
   ],
   "note": "C30_found_iff is the whole claim; C30_refuted is the counterexample to the naive claim."
  },
  {
   "property": "C31",
   "status": "proved",
   "theorems": [
    "C31_without_store",
    "C31_scan_lists_exactly_the_entries",
    "C31_root_called_git",
    "C31_missing_root",
    "C31_unclean_root_refuted",
    "C31_dot_root_refuted",
    "C31_unclean_root_misnames"
   ],
   "note": "Proved for clean roots (the English claim); for roots with a trailing slash or '.' the claim fails, with counterexamples as _refuted theorems."
  },
  {
   "property": "C32",
   "status": "proved",
   "theorems": [
    "C32_lines",
    "C32_every_line_once",
    "C32_total",
    "C32_open_error",
    "C32_directory",
    "C32_unopenable",
    "C32_overlong_line_silently_ends"
   ],
   "note": ""
  },
  {
   "property": "C33",
   "status": "proved",
   "theorems": [
    "C33_search_in_file",
    "C33_total",
    "C33_stopping_comparison"
   ],
   "note": ""
  },
  {
   "property": "C34",
   "status": "proved",
   "theorems": [
    "C34_search_covers_every_file",
    "C34_compiled_search",
    "C34_direct_search",
    "C34_total",
    "C34_searches_wrong_directory_refuted",
    "C34_search_from_root"
   ],
   "note": "The names are opened relative to the working directory: C34_searches_wrong_directory_refuted shows the store's files are not searched from elsewhere, C34_search_from_root that from the store's directory every entry is searched, with exactly its matching lines."
  },
  {
   "property": "C35",
   "status": "proved",
   "theorems": [
    "C35_show_prints_best_entry",
    "C35_show_ends",
    "C35_missing_store",
    "C35_listed_but_missing",
    "C35_no_name"
   ],
   "note": ""
  },
  {
   "property": "C36",
   "status": "proved",
   "theorems": [
    "C36_exact",
    "C36_only_documented_values",
    "C36_set_env",
    "C36_ends",
    "C36_binary_file_order_refuted",
    "C36_without_store",
    "C36_name_trimmed"
   ],
   "note": "Exact for every run; C36_set_env is the English claim when no selected entry is binary, and C36_binary_file_order_refuted shows that with a binary file the result depends on map order."
  },
  {
   "property": "C37",
   "status": "proved",
   "theorems": [
    "C37_form_followed",
    "C37_alnum_without_symbols",
    "C37_never_panics",
    "C37_form_not_refused",
    "C37_a_may_be_symbol_refuted",
    "C37_unique_plain",
    "C37_unique_mixed_refuted",
    "C37_unique_refuted"
   ],
   "note": ""
  },
  {
   "property": "C38",
   "status": "proved",
   "theorems": [
    "C38_list_all",
    "C38_list_category",
    "C38_search",
    "C38_negative_fuzzy_panics",
    "C38_list_ends",
    "C38_search_ends",
    "C38_no_search"
   ],
   "note": "A negative --fuzzy crashes (C38_negative_fuzzy_panics); otherwise as claimed."
  },
  {
   "property": "C39",
   "status": "proved",
   "theorems": [
    "C39_grep",
    "C39_grep_ends",
    "C39_no_pattern"
   ],
   "note": ""
  },
  {
   "property": "C40",
   "status": "proved",
   "theorems": [
    "C40_insert",
    "C40_insert_impossible",
    "C40_insert_from_itself_refuted",
    "C40_insert_default_root_refuted",
    "C40_other_commands_change_nothing",
    "C40_other_commands_print",
    "C40_insert_keeps_order"
   ],
   "note": "insert works as claimed for an expanded root and a source other than the target; with the default root it always fails because $HOME is not expanded, and inserting an entry from itself empties it (_refuted theorems)."
  },
  {
   "property": "C41",
   "status": "proved",
   "theorems": [
    "C41_unix_always_fails_refuted",
    "C41_tool_choice",
    "C41_enabled_write",
    "C41_enabled_read",
    "C41_command_line"
   ],
   "note": "The statement records the exact (faulty) behaviour; the naive claim is false of the code and refuted."
  },
  {
   "property": "C42",
   "status": "proved",
   "theorems": [
    "C42_quote_literal",
    "C42_nul_refuted"
   ],
   "note": ""
  },
  {
   "property": "C43",
   "status": "proved",
   "theorems": [
    "C43_parse_total",
    "C43_progress"
   ],
   "note": ""
  },
  {
   "property": "C44",
   "status": "proved",
   "theorems": [
    "C44_parse_written",
    "C44_unambiguous",
    "C44_grammar_refuted",
    "C44_exact",
    "C44_rejects",
    "C44_one_tree",
    "C44_documented_included",
    "C44_last_backslash",
    "C44_nul"
   ],
   "note": ""
  },
  {
   "property": "C45",
   "status": "proved",
   "theorems": [
    "C45_text_matchers",
    "C45_character_matchers",
    "C45_empty_refuted",
    "C45_any_matchers",
    "C45_length_matchers",
    "C45_combinations"
   ],
   "note": "Each matcher kind against its language (GlobProps3); the empty-string exceptions of Single and the negated classes are the _refuted theorem and the side conditions."
  },
  {
   "property": "C46",
   "status": "proved",
   "theorems": [
    "C46_bytes",
    "C46_bytes_nested",
    "C46_bytes_written",
    "C46_bytes_alternatives",
    "C46_bytes_stricter",
    "C46_bytes_prefix_refuted",
    "C46_nested",
    "C46_nested_written",
    "C46_nested_alternatives",
    "C46_nested_covers",
    "C46_order_refuted",
    "C46_sequences",
    "C46_written",
    "C46_between",
    "C46_alternatives",
    "C46_shared",
    "C46_refuted",
    "C46_texts_and_stars",
    "C46_texts_and_stars_written",
    "C46_text_star_text"
   ],
   "note": "Proved on the fragments of GlobFragment.v and GlobNestSpec.v (nested alternatives, with shared beginnings and ends; C46_nested_covers: it contains the flat one), on ASCII strings with [item false], on all byte strings with [item true] (GlobBytesProps.v); C46_refuted gives, for each side condition, a pattern outside it whose glob is wrong or panics."
  },
  {
   "property": "C47",
   "status": "proved",
   "theorems": [
    "C47_factoring_meaning",
    "C47_compile_total",
    "C47_glob_unique"
   ],
   "note": ""
  },
  {
   "property": "C48",
   "status": "proved",
   "theorems": [
    "C48_index",
    "C48_last_index",
    "C48_last_index_refuted",
    "C48_index_any",
    "C48_runes",
    "C48_max_min",
    "C48_append_merge",
    "C48_reverse",
    "C48_index_any_runes",
    "C48_last_index_any_runes",
    "C48_last_index_any_runes_refuted"
   ],
   "note": ""
  },
  {
   "property": "C49",
   "status": "proved",
   "theorems": [
    "C49_function_patterns",
    "C49_white_outside"
   ],
   "note": ""
  },
  {
   "property": "C50",
   "status": "proved",
   "theorems": [
    "C50_damage_is_correctable"
   ],
   "note": ""
  },
  {
   "property": "C51",
   "status": "proved",
   "theorems": [
    "C51_image_not_scaled_refuted"
   ],
   "note": "The statement records the exact (faulty) behaviour; the naive claim is false of the code and refuted."
  },
  {
   "property": "C52",
   "status": "proved",
   "theorems": [
    "C52_qr_text",
    "C52_colon_password_refuted",
    "C52_field_keeps_space",
    "C52_field_value",
    "C52_trimmed"
   ],
   "note": "C52_qr_text is the whole claim; the other theorems are consequences for colons and field names; C52_trimmed says what trimming is, on every valid UTF-8 text."
  },
  {
   "property": "C53",
   "status": "proved",
   "theorems": [
    "C53_root_flag_ignored_refuted",
    "C53_home_store",
    "C53_home_unset",
    "C53_home_trailing_slash_refuted"
   ],
   "note": "The unconditional claim is false (flag ignored, trailing slash); the exact behaviours are proved."
  },
  {
   "property": "C54",
   "status": "proved",
   "theorems": [
    "C54_mac_write",
    "C54_mac_read"
   ],
   "note": ""
  },
  {
   "property": "C55",
   "status": "proved",
   "theorems": [
    "C55_write_closes",
    "C55_read_closes",
    "C55_memory",
    "C55_write_success",
    "C55_write_possible",
    "C55_nul_leaves_open_refuted",
    "C55_not_opened_refuted",
    "C55_read_possible",
    "C55_write_accepts_last_unlock",
    "C55_read_rejects_last_unlock_refuted",
    "C55_write_reports",
    "C55_read_reports"
   ],
   "note": ""
  },
  {
   "property": "C56",
   "status": "proved",
   "theorems": [
    "C56_round_trip",
    "C56_long_refuted",
    "C56_invalid_refuted",
    "C56_any_units",
    "C56_text_unique"
   ],
   "note": ""
  },
  {
   "property": "C57",
   "status": "proved",
   "theorems": [
    "C57_pool_index",
    "C57_no_panic"
   ],
   "note": ""
  },
  {
   "property": "C58",
   "status": "proved",
   "theorems": [
    "C58_prints_or_reports",
    "C58_printed_independent_of_clipboard",
    "C58_clipboard_only_on_request",
    "C58_unix_never_copies_refuted",
    "C58_mac",
    "C58_windows"
   ],
   "note": ""
  },
  {
   "property": "C59",
   "status": "proved",
   "theorems": [
    "C59_same_answers",
    "C59_ascii_same_answers",
    "C59_invalid_pieces_lost",
    "C59_load_gives_saved",
    "C59_save_load_ascii",
    "C59_same_answers_refuted",
    "C59_nil_means_saved_refuted",
    "C59_greatest_survives",
    "C59_failed_save",
    "C59_undefined_word_crashes"
   ],
   "note": ""
  },
  {
   "property": "C60",
   "status": "proved",
   "theorems": [
    "C60_words_bounds",
    "C60_letters_bounds",
    "C60_empty_panics",
    "C60_one_word",
    "C60_letters_panics_refuted",
    "C60_words_never_panics",
    "C60_letters_asks",
    "C60_words_asks",
    "C60_words_passed",
    "C60_letters_asks_all",
    "C60_words_asks_all"
   ],
   "note": ""
  },
  {
   "property": "C61",
   "status": "proved",
   "theorems": [
    "C61_history",
    "C61_list",
    "C61_set_env"
   ],
   "note": ""
  },
  {
   "property": "C62",
   "status": "proved",
   "theorems": [
    "C62_bytes",
    "C62_nested",
    "C62_texts_and_stars",
    "C62_contains",
    "C62_quoted_is_direct",
    "C62_terms",
    "C62_error",
    "C62_ends",
    "C62_search_from_root",
    "C62_contains_in_store"
   ],
   "note": ""
  },
  {
   "property": "C63",
   "status": "proved",
   "theorems": [
    "C63_exact_name_matches",
    "C63_show_exact_name",
    "C63_show_exact_name_any_size",
    "C63_show_exact_name_outweighs",
    "C63_shadowed_entry_never_shown",
    "C63_show_any_best_entry",
    "C63_search_exact_name",
    "C63_list_exact_category",
    "C63_list_empty_category",
    "C63_show_after_inserts",
    "C63_exact_name_refuted",
    "C63_same_pairs_refuted"
   ],
   "note": ""
  },
  {
   "property": "C64",
   "status": "proved",
   "theorems": [
    "C64_exact",
    "C64_match_agrees",
    "C64_suffix",
    "C64_suffix_any",
    "C64_every_of",
    "C64_every_parts",
    "C64_row",
    "C64_btree_refuted",
    "C64_limits_refuted"
   ],
   "note": ""
  },
  {
   "property": "C65",
   "status": "proved",
   "theorems": [
    "C65_len",
    "C65_btree",
    "C65_parts",
    "C65_mixed_refuted"
   ],
   "note": ""
  },
  {
   "property": "C66",
   "status": "proved",
   "theorems": [
    "C66_expansion",
    "C66_root",
    "C66_plain",
    "C66_values_not_expanded_again",
    "C66_depends_only_on_mentioned"
   ],
   "note": "C66_expansion is the whole claim (equivalence with an inductive specification)."
  },
  {
   "property": "C67",
   "status": "proved",
   "theorems": [
    "C67_simplifies",
    "C67_clean",
    "C67_unique",
    "C67_idempotent",
    "C67_same_file",
    "C67_join_same_file",
    "C67_converse_refuted",
    "C67_insert_writes_there",
    "C67_insert_impossible",
    "C67_target",
    "C67_confined",
    "C67_insert_outside_store_refuted"
   ],
   "note": "C67_insert_outside_store_refuted: the claim that insert stays inside the store is false of the code; C67_converse_refuted: a cleaned path may exist where the original does not."
  },
  {
   "property": "C68",
   "status": "proved",
   "theorems": [
    "C68_never_panics",
    "C68_no_braces",
    "C68_crash_needs_brace",
    "C68_refuted",
    "C68_settled_different",
    "C68_settled_empty_first"
   ],
   "note": "C68_refuted: for each condition a pattern without it whose Match panics."
  },
  {
   "property": "C69",
   "status": "proved",
   "theorems": [
    "C69_concurrent",
    "C69_progress",
    "C69_ends",
    "C69_race_free",
    "C69_pooled_once",
    "C69_constants"
   ],
   "note": "C69_concurrent, C69_progress, C69_ends (every schedule), C69_race_free, C69_pooled_once, C69_constants; GlobMem models each memory access as a step."
  },
  {
   "property": "C70",
   "status": "proved",
   "theorems": [
    "C70_encrypt_exact",
    "C70_rest_is_lost_refuted",
    "C70_decrypt_panics_exactly"
   ],
   "note": "C70_encrypt_exact gives every answer; C70_rest_is_lost_refuted: the claim is false for texts longer than a block."
  },
  {
   "property": "C71",
   "status": "proved",
   "theorems": [
    "C71_pieces",
    "C71_one_separator",
    "C71_globtest",
    "C71_globtest_one_outcome",
    "C71_listed",
    "C71_globdraw",
    "C71_no_separators",
    "C71_star_without_s",
    "C71_no_s_is_no_separators_refuted"
   ],
   "note": "C71_no_s_is_no_separators_refuted: without -s globtest uses U+FFFD as a separator. Not modelled: package flag, the benchmark lines of -v."
  },
  {
   "property": "C72",
   "status": "proved",
   "theorems": [
    "C72_drawing",
    "C72_one_graph",
    "C72_tree_read",
    "C72_draws",
    "C72_percent_refuted",
    "C72_quote_refuted"
   ],
   "note": "C72_percent_refuted, C72_quote_refuted: percent signs in parts and double quotes break the drawing. Not modelled: formats with flags, widths or argument indices without arguments (then the model allows any text)."
  },
  {
   "property": "C73",
   "status": "proved",
   "theorems": [
    "C73_mixture",
    "C73_starts_from",
    "C73_undisturbed",
    "C73_every_schedule_ends",
    "C73_no_deadlock",
    "C73_mutual_exclusion",
    "C73_crash",
    "C73_no_crash",
    "C73_adds",
    "C73_calls",
    "C73_any_mixture",
    "C73_neither_refuted",
    "C73_adds_order_refuted"
   ],
   "note": "C73_neither_refuted, C73_adds_order_refuted: a search is not atomic with respect to an Add, and two Adds number their words alike."
  },
  {
   "property": "C74",
   "status": "proved",
   "theorems": [
    "C74_listed_was_there",
    "C74_constant_entry_listed",
    "C74_each_once",
    "C74_ends",
    "C74_root_link",
    "C74_dies_iff",
    "C74_lists",
    "C74_plain",
    "C74_histories_are_sane",
    "C74_snapshot_refuted",
    "C74_removal_kills"
   ],
   "note": "C74_root_link, C74_snapshot_refuted, C74_removal_kills show what fails: a root that is a link, changes during the Scan."
  },
  {
   "property": "C75",
   "status": "proved",
   "theorems": [
    "C75_lines",
    "C75_search",
    "C75_total",
    "C75_growing",
    "C75_error_is_silent",
    "C75_torn_refuted"
   ],
   "note": "C75_error_is_silent: a failed read is not reported; C75_torn_refuted: a file rewritten in place."
  },
  {
   "property": "C76",
   "status": "proved",
   "theorems": [
    "C76_anywhere",
    "C76_own_target",
    "C76_one_insert",
    "C76_not_stuck",
    "C76_ends",
    "C76_failure_is_silent",
    "C76_mixture_refuted"
   ],
   "note": "C76_failure_is_silent: any beginning of the source may be left without an error; C76_mixture_refuted: two inserts of one name. The sources are no targets, and no other program renames or removes the files meanwhile."
  },
  {
   "property": "C77",
   "status": "proved",
   "theorems": [
    "C77_any",
    "C77_safe",
    "C77_after",
    "C77_not_stuck",
    "C77_ends",
    "C77_exchange_refuted",
    "C77_mixture_refuted",
    "C77_key_mixture",
    "C77_setter_alone",
    "C77_key_refuted"
   ],
   "note": "C77_exchange_refuted, C77_mixture_refuted, C77_key_refuted: the byte methods and the setters are not safe for concurrent use. 64-bit words are read and written whole (a 64-bit machine)."
  },
  {
   "property": "C78",
   "status": "proved",
   "theorems": [
    "C78_anywhere",
    "C78_own_target",
    "C78_itself",
    "C78_not_stuck",
    "C78_ends",
    "C78_exchange_refuted"
   ],
   "note": "C78_itself and C78_exchange_refuted: an entry inserted from itself, or two exchanged at once, are emptied without an error. The source is read by name: no links, and nothing renames files."
  },
  {
   "property": "C79",
   "status": "proved",
   "theorems": [
    "C79_texts_and_stars",
    "C79_exponential",
    "C79_polynomial_refuted"
   ],
   "note": "C79_polynomial_refuted: 2^n - 1 accesses to segments for b*a*...a* on n times a (exactly). Steps counted are the accesses to shared segment lists (len, index, pool get and put); comparisons of bytes inside one matcher call are not counted, so these are lower bounds on time. The upper bound is for patterns of texts and stars."
  },
  {
   "property": "C80",
   "status": "proved",
   "theorems": [
    "C80_apart",
    "C80_separate",
    "C80_largest",
    "C80_own_buffer",
    "C80_room",
    "C80_after",
    "C80_exchange_refuted",
    "C80_crash_refuted",
    "C80_after_refuted"
   ],
   "note": "C80_exchange_refuted, C80_crash_refuted, C80_after_refuted: an RSEncoder must not be shared (its field p is a hidden shared buffer). The words of the slice header rs.p are accessed one by one in no fixed order, as the Go memory model allows; an access beyond an array is a state Wild, after a write of that kind nothing is claimed. Data and check slices are the calls' own."
  },
  {
   "property": "C81",
   "status": "proved",
   "theorems": [
    "C81_as_alone",
    "C81_bytes_once",
    "C81_composition",
    "C81_no_waiting",
    "C81_joint",
    "C81_unsafe_reader_refuted",
    "C81_scheduled"
   ],
   "note": "C81_unsafe_reader_refuted: the claim \"safe for concurrent use\" depends on the reader given to NewGenerator. Modelled: the steps of rand.Int and io.ReadFull with short reads and failures; the Generator itself is only read. C81_joint is for schedulers that decide byte by byte (a Read of j bytes is j decisions for the same call; C81_scheduled says these runs are executions of the model)."
  },
  {
   "property": "C82",
   "status": "proved",
   "theorems": [
    "C82_returns",
    "C82_number",
    "C82_probability"
   ],
   "note": "Limits are stated with naturals: for every q the deviation is at most one q-th from some length on (same = c! d! s!, choices = (c+d+s)! times the selections; probability same/choices). Fuel: large enough for the N-byte streams. crypto/rand is taken to deliver uniform independent bytes."
  },
  {
   "property": "C83",
   "status": "proved",
   "theorems": [
    "C83_equally_likely",
    "C83_only_outcomes",
    "C83_number",
    "C83_probability",
    "C83_mixed_unique_refuted",
    "C83_a_refuted"
   ],
   "note": "Proved about generate_run (C37) with the streams counted as in C11/C82: C83_equally_likely, C83_only_outcomes, C83_number, C83_probability; the two _refuted theorems show that --mixed with --unique, and forms with a, are not uniform."
  },
  {
   "property": "C84",
   "status": "proved",
   "theorems": [
    "C84_returns",
    "C84_agrees",
    "C84_texts",
    "C84_messages",
    "C84_read_or_refused",
    "C84_stream"
   ],
   "note": "Model with the lexer's fields (pos, err, queue, termsLevel, lastRune, lastRuneSize, hasRune); slicing outside the pattern is a panic, loops have fuel and running out is a hang. C84_messages is an equivalence with the specification GlobErrSpec.refused. The token text in \"unexpected token: %s\" is left out of the model: C84_texts shows that this error never comes up."
  },
  {
   "property": "C85",
   "status": "proved",
   "theorems": [
    "C85_size",
    "C85_depth"
   ],
   "note": "size (GlobSizeSpec.v) counts objects and the bytes they hold; shared Go slices are counted once per holder, so real memory is smaller. bytes p: every Go string. The constant is not claimed to be the best one."
  },
  {
   "property": "C86",
   "status": "proved",
   "theorems": [
    "C86_far_apart",
    "C86_strength",
    "C86_unique_text",
    "C86_never_alike",
    "C86_repaired"
   ],
   "note": "changed counts modules of the n by n picture, function patterns included. The reader is QrSpec.read_symbol (the standard's, written independently of the encoder); its error correction is any search for Reed-Solomon blocks within half the distance, no particular decoder is modelled."
  },
  {
   "property": "C87",
   "status": "proved",
   "theorems": [
    "C87_fewer_separators",
    "C87_stars_without_separators",
    "C87_order_of_alternatives",
    "C87_braces_around",
    "C87_distributes",
    "C87_distributes_refuted"
   ],
   "note": "Corollaries of C46 and C44 that relate several globs, with the fragment of C46 as hypothesis for each pattern involved. C87_distributes_refuted: the law fails outside the fragment."
  }
 ]
}