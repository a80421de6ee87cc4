{
 "claims": [
  {
   "property": "C01",
   "status": "proved",
   "theorems": [
    "C01_compressed_int_roundtrip",
    "C01_reader_total_refuted"
   ],
   "note": "Round trip, minimal LEB128 length. The refuted theorem records that the reader overflows on six continuation bytes."
  },
  {
   "property": "C02",
   "status": "proved",
   "theorems": [
    "C02_utf8_check_exact",
    "C02_cstring_roundtrip",
    "C02_cstring_nul_truncates",
    "C02_cstring_invalid_utf8_is_empty"
   ],
   "note": ""
  },
  {
   "property": "C03",
   "status": "proved",
   "theorems": [
    "C03_written_archive_reads_back"
   ],
   "note": "For names, keys and values without NUL and non-empty names and keys; every iteration order of the file map."
  },
  {
   "property": "C04",
   "status": "proved",
   "theorems": [
    "C04_checksum_covers_output",
    "C04_recomputed_checksum",
    "C04_recomputed_without_properties_refuted"
   ],
   "note": "SHA-1 is an arbitrary 20-byte digest. The mismatch for archives written without properties is proved as part of the statement."
  },
  {
   "property": "C05",
   "status": "proved",
   "theorems": [
    "C05_output_independent_of_order",
    "C05_case_variants_refuted"
   ],
   "note": "The case-variant exception is a proved witness."
  },
  {
   "property": "C06",
   "status": "proved",
   "theorems": [
    "C06_file_returns_its_own_bytes",
    "C06_invalid_property_value_refuted",
    "C06_case_variant_shadowed_refuted"
   ],
   "note": "Proved for archives whose property values are valid UTF-8; a witness shows the wrong bytes are returned otherwise."
  },
  {
   "property": "C07",
   "status": "proved",
   "theorems": [
    "C07_accepted_input_is_an_archive",
    "C07_archives_are_accepted",
    "C07_reader_total"
   ],
   "note": "Both directions."
  },
  {
   "property": "C08",
   "status": "proved",
   "theorems": [
    "C08_archive_is_a_map"
   ],
   "note": ""
  },
  {
   "property": "C09",
   "status": "proved",
   "theorems": [
    "C09_key_files_roundtrip",
    "C09_oversized_number_refuted"
   ],
   "note": "Numbers that do not fit the declared length are truncated (witness)."
  },
  {
   "property": "C10",
   "status": "proved",
   "theorems": [
    "C10_sign_then_verify",
    "C10_built_archive_signs_and_verifies"
   ],
   "note": "Fermat's little theorem is proved in Signing/Fermat.v. A certified 320 bit key is exhibited."
  },
  {
   "property": "C11",
   "status": "proved",
   "theorems": [
    "C11_what_verification_pins",
    "C11_signature_fits_one_archive",
    "C11_signature_without_private_key"
   ],
   "note": "The last theorem is a forgery that works for every archive and key."
  },
  {
   "property": "C12",
   "status": "proved",
   "theorems": [
    "C12_rapify_decodes",
    "C12_rapify_injective",
    "C12_nul_string_refuted"
   ],
   "note": "Decoding is the raP grammar of Config/RapSpec.v."
  },
  {
   "property": "C13",
   "status": "proved",
   "theorems": [
    "C13_lengths_exact",
    "C13_class_lengths_exact",
    "C13_error_nodes_panic"
   ],
   "note": ""
  },
  {
   "property": "C14",
   "status": "proved",
   "theorems": [
    "C14_string_literal",
    "C14_quoted_string",
    "C14_backslash_before_break_refuted"
   ],
   "note": ""
  },
  {
   "property": "C15",
   "status": "proved",
   "theorems": [
    "C15_integers",
    "C15_edges_refuted"
   ],
   "note": ""
  },
  {
   "property": "C16",
   "status": "proved",
   "theorems": [
    "C16_decompress_inverts_compress"
   ],
   "note": ""
  },
  {
   "property": "C17",
   "status": "proved",
   "theorems": [
    "C17_worst_compress_bounds",
    "C17_small_buffer_overrun_refuted"
   ],
   "note": ""
  },
  {
   "property": "C18",
   "status": "proved",
   "theorems": [
    "C18_decompress_safe"
   ],
   "note": ""
  },
  {
   "property": "C19",
   "status": "proved",
   "theorems": [
    "C19_eval_follows_grammar",
    "C19_outside_the_grammar_refuted"
   ],
   "note": "For any number type, parser and operators. Texts outside the grammar: witnesses of acceptance and of a rejected leading minus."
  },
  {
   "property": "C20",
   "status": "proved",
   "theorems": [
    "C20_version_text_exact",
    "C20_version_roundtrip",
    "C20_parse_print_parse"
   ],
   "note": ""
  },
  {
   "property": "C21",
   "status": "proved",
   "theorems": [
    "C21_version_order",
    "C21_equal_but_not_eq_refuted"
   ],
   "note": ""
  },
  {
   "property": "C22",
   "status": "proved",
   "theorems": [
    "C22_prefix_stable",
    "C22_unstable_prefixes_refuted"
   ],
   "note": "to_lowercase is a parameter."
  },
  {
   "property": "C23",
   "status": "proved",
   "theorems": [
    "C23_blocks_run_as_read",
    "C23_skipped_lines_inert",
    "C23_selected_lines"
   ],
   "note": "Locating files, float parsing and comparison are parameters."
  },
  {
   "property": "C24",
   "status": "proved",
   "theorems": [
    "C24_second_else_rejected",
    "C24_stray_endif_ignored",
    "C24_stray_else_panics",
    "C24_nested_second_else_refuted",
    "C24_stray_else_release_refuted"
   ],
   "note": ""
  },
  {
   "property": "C25",
   "status": "proved",
   "theorems": [
    "C25_call_restores_tables",
    "C25_call_substitutes"
   ],
   "note": "General nested calls are covered by C23_blocks_run_as_read through the expansion rules of Preproc/Spec.v."
  },
  {
   "property": "C26",
   "status": "proved",
   "theorems": [
    "C26_line_scope_ends",
    "C26_child_scopes",
    "C26_include_isolated",
    "C26_wider_scopes_stay",
    "C26_line_flag_persists_refuted"
   ],
   "note": ""
  },
  {
   "property": "C27",
   "status": "proved",
   "theorems": [
    "C27_compiled_script_loads",
    "C27_compiled_script_computes",
    "C27_one_value_per_expression"
   ],
   "note": "For every tree that compiles, with a text below 4 GiB and at most 65536 constants. The interpretation of the commands is arbitrary."
  },
  {
   "property": "C28",
   "status": "proved",
   "theorems": [
    "C28_indices_in_range",
    "C28_entry_point",
    "C28_entry_point_wraps_refuted"
   ],
   "note": "With 65537 constants the entry point wraps to 0; the serialiser then refuses the script."
  },
  {
   "property": "C29",
   "status": "proved",
   "theorems": [
    "C29_file_determines_script",
    "C29_files_differ",
    "C29_compiled_file_is_the_program",
    "C29_only_size_fails",
    "C29_long_block_refuted",
    "C29_own_reader_refuted"
   ],
   "note": "The reader is a specification; the code's own (unused) reader is wrong about code pointers, and a block of 2^31 bytes or more loses its top bit."
  },
  {
   "property": "C30",
   "status": "proved",
   "theorems": [
    "C30_optimizer_preserves_meaning",
    "C30_assigning_this_refuted",
    "C30_changing_else_refuted"
   ],
   "note": "For every interpretation meeting the stated laws (records congruence, arithmetic, this_is_kept, arrays of Sqf/OptimizeSpec.v); a heap engine with mutable arrays and calls meets them; two variants show which laws are needed."
  },
  {
   "property": "C31",
   "status": "proved",
   "theorems": [
    "C31_optimizer_returns",
    "C31_else_in_array_refuted"
   ],
   "note": "The stated condition suffices for every tree; the witness panics."
  },
  {
   "property": "C32",
   "status": "proved",
   "theorems": [
    "C32_parser_reads_the_grammar",
    "C32_grammar_unambiguous",
    "C32_two_operators",
    "C32_custom_or_refuted"
   ],
   "note": "Parser model accepts exactly the grammar of ParseSpec.v. Tokens are the input (the lexer is a separate matter); error messages not modelled."
  },
  {
   "property": "C33",
   "status": "proved",
   "theorems": [
    "C33_every_character_has_a_writer",
    "C33_mapping_is_the_writer",
    "C33_token_writes_itself",
    "C33_text_without_joins",
    "C33_text_without_quotes",
    "C33_extract_is_the_span",
    "C33_label_place",
    "C33_ends_overshoot_refuted",
    "C33_label_across_files_refuted",
    "C33_label_lost_refuted",
    "C33_label_empty_text_refuted"
   ],
   "note": "Position map of the preprocessed text and the diagnostic labels made from it; the ends of mappings and the label corner cases are refuted by witnesses."
  },
  {
   "property": "C34",
   "status": "proved",
   "theorems": [
    "C34_line_and_column",
    "C34_line_table",
    "C34_every_byte_has_a_line",
    "C34_no_other_lines",
    "C34_past_the_end",
    "C34_crlf_table_slips_refuted",
    "C34_empty_file_panics_refuted"
   ],
   "note": "Line table proved for texts without CRLF; CRLF and the empty file are refuted by witnesses."
  },
  {
   "property": "C35",
   "status": "proved",
   "theorems": [
    "C35_p3d_roundtrip",
    "C35_p3d_read_then_write",
    "C35_end_marker_tag_refuted"
   ],
   "note": "Floats are their bit patterns; the reader's order of unordered tags is the file's."
  },
  {
   "property": "C36",
   "status": "proved",
   "theorems": [
    "C36_paa_roundtrip",
    "C36_write_panics_exactly",
    "C36_4096_square_refuted",
    "C36_wide_image_refuted",
    "C36_read_panics_only_on_other_formats",
    "C36_other_format_refuted"
   ],
   "note": "The DXT coder is a parameter of which only the output size is assumed."
  },
  {
   "property": "C37",
   "status": "proved",
   "theorems": [
    "C37_fail_stop",
    "C37_prefix",
    "C37_exit_status",
    "C37_archive_is_last",
    "C37_flags",
    "C37_hooks_first"
   ],
   "note": "Modules are arbitrary state transformers."
  },
  {
   "property": "C38",
   "status": "proved",
   "theorems": [
    "C38_effective_is_set",
    "C38_accepted_iff",
    "C38_mandatory_lints_stay",
    "C38_runs_as_set",
    "C38_own_lints",
    "C38_lowest",
    "C38_stringtables_check_refuted",
    "C38_same_name_refuted"
   ],
   "note": ""
  },
  {
   "property": "C39",
   "status": "proved",
   "theorems": [
    "C39_names_differ",
    "C39_accepted_iff"
   ],
   "note": ""
  },
  {
   "property": "C40",
   "status": "proved",
   "theorems": [
    "C40_distinct_pbos",
    "C40_dotted_names_refuted",
    "C40_dotted_prefix_refuted"
   ],
   "note": ""
  },
  {
   "property": "C41",
   "status": "proved",
   "theorems": [
    "C41_only_reorders",
    "C41_in_order",
    "C41_sorted_stays",
    "C41_idempotent",
    "C41_stable",
    "C41_containers_refuted"
   ],
   "note": ""
  },
  {
   "property": "C42",
   "status": "proved",
   "theorems": [
    "C42_counts",
    "C42_coverage",
    "C42_listed_twice_refuted"
   ],
   "note": "Up to 2^32 keys; the counters are 32 bits."
  },
  {
   "property": "C43",
   "status": "proved",
   "theorems": [
    "C43_only_case",
    "C43_only_commands",
    "C43_single_quotes_refuted",
    "C43_comment_refuted",
    "C43_again_refuted"
   ],
   "note": ""
  },
  {
   "property": "C44",
   "status": "proved",
   "theorems": [
    "C44_script_version_exact",
    "C44_longer_name_refuted"
   ],
   "note": ""
  },
  {
   "property": "C45",
   "status": "proved",
   "theorems": [
    "C45_config_parses",
    "C45_unambiguous",
    "C45_missing_braces",
    "C45_missing_semicolon",
    "C45_no_equals_refuted",
    "C45_space_changes_number_refuted",
    "C45_eval_without_parentheses_refuted"
   ],
   "note": "Float parsing, float printing and expression evaluation are parameters."
  },
  {
   "property": "C46",
   "status": "proved",
   "theorems": [
    "C46_tokens_keep_text",
    "C46_lexer_total",
    "C46_words_whole",
    "C46_comment_in_comment_refuted"
   ],
   "note": "The pest combinators' meaning is part of the model."
  },
  {
   "property": "C47",
   "status": "proved",
   "theorems": [
    "C47_token_places",
    "C47_lines_in_string_comment_refuted",
    "C47_columns_refuted"
   ],
   "note": ""
  },
  {
   "property": "C48",
   "status": "proved",
   "theorems": [
    "C48_plain_text_unchanged"
   ],
   "note": ""
  },
  {
   "property": "C49",
   "status": "proved",
   "theorems": [
    "C49_include_in_place"
   ],
   "note": ""
  },
  {
   "property": "C50",
   "status": "proved",
   "theorems": [
    "C50_descending_files_end",
    "C50_mutual_macros_diverge_refuted",
    "C50_self_include_diverges_refuted"
   ],
   "note": "Termination under the stated numbering (which exists whenever the graph of names and the graph of includes have no cycle), for every lexer result; the refuted theorems are the non-terminating shapes."
  },
  {
   "property": "C51",
   "status": "proved",
   "theorems": [
    "C51_digests_of_any_archive",
    "C51_verified_digests",
    "C51_signed_digests"
   ],
   "note": "What a signature's three numbers are digests of, stated over the files put into the archive."
  },
  {
   "property": "C52",
   "status": "proved",
   "theorems": [
    "C52_streams_end_themselves"
   ],
   "note": ""
  },
  {
   "property": "C53",
   "status": "proved",
   "theorems": [
    "C53_empty_statements_and_comments",
    "C53_nothing_else_is_dropped"
   ],
   "note": ""
  },
  {
   "property": "C54",
   "status": "proved",
   "theorems": [
    "C54_signs_what_was_built",
    "C54_key_beside"
   ],
   "note": ""
  },
  {
   "property": "C55",
   "status": "proved",
   "theorems": [
    "C55_translations_kept",
    "C55_again",
    "C55_cdata_kept",
    "C55_names_kept",
    "C55_cdata_refuted",
    "C55_name_refuted"
   ],
   "note": "quick_xml's reading and escaping of text is modelled from its documentation; blanks around a text are left out."
  },
  {
   "property": "C56",
   "status": "proved",
   "theorems": [
    "C56_archive_contents",
    "C56_build_succeeds",
    "C56_nested_prefix_file_refuted",
    "C56_empty_key_refuted"
   ],
   "note": "composed with the PBO writer and reader models; glob matching, prefix parsing (C22) and lowercase are parameters; the listing is a snapshot"
  },
  {
   "property": "C57",
   "status": "proved",
   "theorems": [
    "C57_decompress_follows_format"
   ],
   "note": "an equivalence between the decompressor's model and a separate declarative definition of the LZO1X format"
  },
  {
   "property": "C58",
   "status": "proved",
   "theorems": [
    "C58_malformed_rejected",
    "C58_condition_or_malformed"
   ],
   "note": "__has_include is excluded (it depends on a pragma)."
  },
  {
   "property": "C59",
   "status": "proved",
   "theorems": [
    "C59_lexer_reads_the_grammar",
    "C59_one_reading",
    "C59_tokens_cover_the_text",
    "C59_strings_read_back",
    "C59_tokens_apart_read_back",
    "C59_unclosed_comment_refuted",
    "C59_big_number_refuted"
   ],
   "note": "The conversions to f32 are parameters."
  },
  {
   "property": "C60",
   "status": "proved",
   "theorems": [
    "C60_text_to_tree",
    "C60_layout_does_not_matter",
    "C60_blocks_read_back",
    "C60_places_run_forwards",
    "C60_empty_block_refuted"
   ],
   "note": "The grammar of tokens is that of C59, the grammar of scripts that of C32."
  },
  {
   "property": "C61",
   "status": "proved",
   "theorems": [
    "C61_source_reads_back",
    "C61_source_tells_apart",
    "C61_quote_refuted",
    "C61_big_number_refuted"
   ],
   "note": "f32::to_string is a parameter; the refuted theorems are the witnesses the statement names."
  },
  {
   "property": "C62",
   "status": "proved",
   "theorems": [
    "C62_reported_or_written",
    "C62_broken_reported",
    "C62_text_converts",
    "C62_severity_refuted"
   ],
   "note": "The refuted theorem is the witness about severities that the statement names."
  },
  {
   "property": "C63",
   "status": "proved",
   "theorems": [
    "C63_properties_exact",
    "C63_classes_exact",
    "C63_parsed_dotless"
   ],
   "note": ""
  },
  {
   "property": "C64",
   "status": "proved",
   "theorems": [
    "C64_missing_parents_exact",
    "C64_parent_case_exact",
    "C64_hidden_parent_refuted",
    "C64_own_parent_refuted"
   ],
   "note": "The refuted theorems are the witnesses the statement names."
  },
  {
   "property": "C65",
   "status": "proved",
   "theorems": [
    "C65_values_exact",
    "C65_arrays_exact",
    "C65_punctuation_exact",
    "C65_magazines_exact",
    "C65_magazine_case_refuted"
   ],
   "note": "The refuted theorem is the witness the statement names."
  },
  {
   "property": "C66",
   "status": "proved",
   "theorems": [
    "C66_number_reads_back",
    "C66_number_bound_refuted",
    "C66_third_digit_refuted",
    "C66_highest_patch",
    "C66_one_config",
    "C66_two_configs_refuted",
    "C66_whole_number_refuted",
    "C66_future_warning",
    "C66_far_future_refuted"
   ],
   "note": "The refuted theorems are the witnesses the statement names."
  },
  {
   "property": "C67",
   "status": "proved",
   "theorems": [
    "C67_reported_commands_are_newer",
    "C67_newer_commands_are_reported",
    "C67_operands_hide_commands_refuted"
   ],
   "note": "Soundness for all scripts, completeness for statements of commands and blocks, and the commands that are always missed."
  },
  {
   "property": "C68",
   "status": "proved",
   "theorems": [
    "C68_lints_see_everything",
    "C68_no_pooled_arrays"
   ],
   "note": "The walk as an equivalence with occurrence in the tree."
  },
  {
   "property": "C69",
   "status": "proved",
   "theorems": [
    "C69_unknown_events",
    "C69_wrong_commands",
    "C69_new_events",
    "C69_once_per_block_refuted",
    "C69_switched_off_refuted",
    "C69_ignored_event_refuted"
   ],
   "note": "The wiki's events and the places of commands are parameters."
  },
  {
   "property": "C70",
   "status": "proved",
   "theorems": [
    "C70_every_format",
    "C70_stray_percent",
    "C70_undefined",
    "C70_unused",
    "C70_skipped",
    "C70_accepted",
    "C70_each_argument_once",
    "C70_repeated_placeholder_refuted",
    "C70_big_placeholder_refuted",
    "C70_reports"
   ],
   "note": "Each verdict is an equivalence with the specification's reading of the string."
  },
  {
   "property": "C71",
   "status": "proved",
   "theorems": [
    "C71_never_panics",
    "C71_parts_of_conditions",
    "C71_impossible_is_impossible",
    "C71_overlapping_is_redundant",
    "C71_contrary_bounds_are_reported",
    "C71_same_direction_is_reported",
    "C71_between_refuted",
    "C71_reversed_refuted",
    "C71_equal_bounds_missed_refuted"
   ],
   "note": "Soundness for conditions with the variable first; the refuted theorems are the witnesses the statement names."
  },
  {
   "property": "C72",
   "status": "proved",
   "theorems": [
    "C72_overwrites_are_overwrites",
    "C72_overwrites_are_reported",
    "C72_never_restored",
    "C72_never_restored_was_saved",
    "C72_holder_overwritten",
    "C72_saved_and_restored",
    "C72_params",
    "C72_restored_elsewhere_refuted",
    "C72_restored_reported_refuted",
    "C72_case_refuted"
   ],
   "note": "The refuted theorems are the witnesses the statement names."
  },
  {
   "property": "C73",
   "status": "proved",
   "theorems": [
    "C73_exactly",
    "C73_variable_and_string_refuted",
    "C73_case_refuted"
   ],
   "note": "Membership in the list of reports, as an equivalence."
  },
  {
   "property": "C74",
   "status": "proved",
   "theorems": [
    "C74_misuse_rejected",
    "C74_unclosed_rejected",
    "C74_function_at_end_panics_refuted",
    "C74_valueless_at_end_panics_refuted",
    "C74_open_include_accepted_refuted",
    "C74_open_call_accepted_refuted"
   ],
   "note": "MisuseSpec.v lists the ways text can go against the macros, without the processor; the _refuted theorems show the exceptions the statement names."
  },
  {
   "property": "C75",
   "status": "proved",
   "theorems": [
    "C75_suggestion_reads_as_better",
    "C75_suggestion_means_the_same",
    "C75_select_exact",
    "C75_condition_unwrapped_refuted",
    "C75_digit_strings_refuted",
    "C75_branch_variable_refuted",
    "C75_text_of_location_refuted",
    "C75_tiny_number_refuted",
    "C75_needle_quote_refuted",
    "C75_type_spelling_refuted"
   ],
   "note": "The parser, lexer and Expression::source are the models of C37, C64 and C65; `fit` states when an operand may be shown as text, `exact` that a constant near 0 or 1 is it. The wiki's result types are a parameter."
  },
  {
   "property": "C76",
   "status": "proved",
   "theorems": [
    "C76_command_case",
    "C76_banned_commands",
    "C76_needless_not",
    "C76_all_caps",
    "C76_needless_this",
    "C76_without_not",
    "C76_without_this",
    "C76_word_operators_refuted",
    "C76_case_suggestion_refuted"
   ],
   "note": "The wiki (names and groups by command), the strings of an option and to_lowercase are parameters; the similar macro names offered for an all-caps variable are not modelled."
  },
  {
   "property": "C77",
   "status": "proved",
   "theorems": [
    "C77_resolved_profiles",
    "C77_rejected_profiles",
    "C77_endless_profiles",
    "C77_accepted_profiles",
    "C77_loaded_profiles",
    "C77_reported_profiles",
    "C77_order_of_profiles",
    "C77_chosen_profiles",
    "C77_circle_refuted"
   ],
   "note": "profiles as they come from the map; the endless loop on circles is shown exactly"
  },
  {
   "property": "C78",
   "status": "proved",
   "theorems": [
    "C78_windows_launch",
    "C78_no_instance_refuted",
    "C78_reports",
    "C78_program",
    "C78_preset_page",
    "C78_dlc_names",
    "C78_dlc_shown",
    "C78_linux_refuted",
    "C78_linux_file_patching_refuted",
    "C78_executable_refuted",
    "C78_preset_dot_refuted"
   ],
   "note": "the file system, the build and the digit class of regular expressions are parameters"
  },
  {
   "property": "C79",
   "status": "proved",
   "theorems": [
    "C79_relative",
    "C79_workspace",
    "C79_prefix",
    "C79_no_prefix",
    "C79_found_exists",
    "C79_order",
    "C79_round_trip",
    "C79_discovered",
    "C79_refused",
    "C79_pdrive",
    "C79_on_demand",
    "C79_on_demand_folders",
    "C79_with_extension",
    "C79_nested_refuted",
    "C79_relative_case_refuted",
    "C79_twins_refuted",
    "C79_double_slash_refuted",
    "C79_up_refuted",
    "C79_archive_slash_refuted",
    "C79_archive_case_refuted"
   ],
   "note": "Paths are ASCII; the vfs crate's join is modelled from its documentation; the order of the HashMap of prefixes is arbitrary. Shown false beyond the stated boundary by the refuted theorems."
  },
  {
   "property": "C80",
   "status": "proved",
   "theorems": [
    "C80_targets",
    "C80_located",
    "C80_results",
    "C80_separate",
    "C80_runs",
    "C80_reported",
    "C80_gives_up",
    "C80_extension_case_refuted",
    "C80_short_refuted",
    "C80_trailing_refuted",
    "C80_clash_refuted",
    "C80_folder_refuted"
   ],
   "note": "Bin/BinarizeProps.v. Reading a model, glob matching and file lookup are parameters (C35, C79); the _refuted theorems show each exception named in the statement."
  },
  {
   "property": "C81",
   "status": "proved",
   "theorems": [
    "C81_any_schedule",
    "C81_errors",
    "C81_all_or_nothing",
    "C81_every_schedule_ends",
    "C81_never_stuck",
    "C81_configs",
    "C81_scripts",
    "C81_outputs",
    "C81_rapifier",
    "C81_script_compiler",
    "C81_included_refuted",
    "C81_two_configs_refuted",
    "C81_which_error_refuted",
    "C81_relative_exclude_refuted"
   ],
   "note": "small-step interleaving of arbitrary reading and writing programs; each conversion is abstract apart from what it may write"
  },
  {
   "property": "C82",
   "status": "proved",
   "theorems": [
    "C82_file",
    "C82_plain_file",
    "C82_plain_not_parsed",
    "C82_layout",
    "C82_values",
    "C82_written_only"
   ],
   "note": "End to end: preprocess, Processed::new, parse, analyze, rapify composed. config_text is the grammar of C45; deserved/wrong in Config/FileSpec.v. Texts are ASCII (a character is a byte). Numbers: f32_parse yields 32-bit words. Parses that succeed only through recovery are reported as NotParsed and not followed."
  },
  {
   "property": "C83",
   "status": "proved",
   "theorems": [
    "C83_script_compiles",
    "C83_script_is_typed",
    "C83_long_array_refuted",
    "C83_small_script_too_large_refuted"
   ],
   "note": "The two _refuted theorems are the boundary stated in the property."
  },
  {
   "property": "C84",
   "status": "proved",
   "theorems": [
    "C84_script",
    "C84_written_only",
    "C84_not_read",
    "C84_plain_script",
    "C84_settings_refuted"
   ],
   "note": "The analysis is a parameter (any test of the tree and the text); C84_settings_refuted is the exception stated in the property."
  },
  {
   "property": "C85",
   "status": "proved",
   "theorems": [
    "C85_settings",
    "C85_conflict",
    "C85_version",
    "C85_one_version_per_run",
    "C85_answers",
    "C85_reads_back",
    "C85_long_hash_refuted",
    "C85_lone_build_refuted"
   ],
   "note": "The refuted theorems: git_hash above the length of a commit's name panics; build without major is accepted and ignored."
  },
  {
   "property": "C86",
   "status": "proved",
   "theorems": [
    "C86_selection",
    "C86_build_selection",
    "C86_dev",
    "C86_optional_missing",
    "C86_build",
    "C86_emptied_refuted",
    "C86_just_and_optional_refuted"
   ],
   "note": "Folder as files and links; what other modules do to the project is arbitrary. The refuted witnesses show the two provisos are needed."
  },
  {
   "property": "C87",
   "status": "proved",
   "theorems": [
    "C87_archives",
    "C87_release",
    "C87_folder",
    "C87_once",
    "C87_past",
    "C87_dotted_refuted",
    "C87_instead_refuted"
   ],
   "note": "ZIP as names with contents and directory names; PBO, key and signature making are parameters (C01.., C05..)."
  },
  {
   "property": "C88",
   "status": "proved",
   "theorems": [
    "C88_never_into_existing",
    "C88_stays_inside",
    "C88_exactly_the_archive",
    "C88_unpacks_what_was_packed",
    "C88_extract",
    "C88_extract_never_over",
    "C88_climbs_out_refuted",
    "C88_absolute_refuted",
    "C88_case_refuted",
    "C88_forward_slash_refuted",
    "C88_property_file_refuted"
   ],
   "note": "Unix paths; symbolic links, permissions and a full disk are not modelled. The five refuted witnesses show that each limit named in the statement is needed."
  },
  {
   "property": "C89",
   "status": "proved",
   "theorems": [
    "C89_unchanged",
    "C89_comments_stay",
    "C89_only_languages",
    "C89_languages",
    "C89_sorted_once",
    "C89_warns",
    "C89_command",
    "C89_blank_line_refuted",
    "C89_ampersand_refuted",
    "C89_last_refuted",
    "C89_package_end_refuted",
    "C89_beside_refuted",
    "C89_empty_key_refuted"
   ],
   "note": "The file as lines with comments above them; the XML reader is a parameter (what the file reads as), the writer of quick_xml is modelled line by line. The refuted theorems are the boundary named in the statement."
  },
  {
   "property": "C90",
   "status": "proved",
   "theorems": [
    "C90_phase",
    "C90_order",
    "C90_all",
    "C90_goes_on",
    "C90_version",
    "C90_memory",
    "C90_called_memory",
    "C90_script",
    "C90_init",
    "C90_called_refuted",
    "C90_called_version_refuted",
    "C90_panic_refuted",
    "C90_folder_refuted",
    "C90_name_refuted"
   ],
   "note": "What a script does is arbitrary (a tree of effects on the disk and on the memory layer); the interpreter with fuel is shown equal to a big-step relation with no bound. The refuted theorems are the boundary named in the statement."
  },
  {
   "property": "C91",
   "status": "proved",
   "theorems": [
    "C91_scripts_first",
    "C91_after_the_configs",
    "C91_without_configs",
    "C91_never_too_new_refuted"
   ],
   "note": "C91_never_too_new_refuted: that too new commands and events are reported in a build is false of the code in every run, since the scripts are checked before the configs are read."
  },
  {
   "property": "C92",
   "status": "proved",
   "theorems": [
    "C92_files",
    "C92_kept",
    "C92_config_cpp",
    "C92_script",
    "C92_archive",
    "C92_text_to_archive"
   ],
   "note": "The composition of C81 (schedules), C82 (one config) and C56 (packing). What a script compiles to is C84. C92_case meets the hypotheses."
  },
  {
   "property": "C93",
   "status": "proved",
   "theorems": [
    "C93_project",
    "C93_accepted",
    "C93_unknown_keys",
    "C93_addon",
    "C93_addon_file",
    "C93_stringtable_lints_refuted",
    "C93_replaced_in_strings_refuted",
    "C93_comment_refuted"
   ],
   "note": "The TOML parser is an argument that gives documents without repeated keys; to_lowercase, the names of severities and the values of lint options are arguments."
  },
  {
   "property": "C94",
   "status": "proved",
   "theorems": [
    "C94_verified",
    "C94_release",
    "C94_tampered",
    "C94_exit_refuted",
    "C94_no_prefix_refuted",
    "C94_checksum_refuted"
   ],
   "note": "The verify command says Verified exactly if the signature beside the archive fits; every archive of a successful signed release verifies with the key beside it; witnesses for the limits. C94_case meets the hypotheses with a two-addon release."
  },
  {
   "property": "C95",
   "status": "proved",
   "theorems": [
    "C95_requests",
    "C95_pictures",
    "C95_done",
    "C95_only_torn",
    "C95_careful",
    "C95_ends",
    "C95_complete",
    "C95_unsupported",
    "C95_torn_refuted",
    "C95_torn_game_refuted",
    "C95_folder_refuted"
   ],
   "note": "Three programs over a socket under arbitrary schedules: safety, and termination in a bounded number of fair rounds. C95_torn_refuted and C95_torn_game_refuted: a reader between the two writes of a message stops the session. C95_hypotheses and C95_session meet the hypotheses."
  },
  {
   "property": "C96",
   "status": "proved",
   "theorems": [
    "C96_weapons",
    "C96_previews",
    "C96_no_main",
    "C96_plain",
    "C96_panics",
    "C96_photoshoot",
    "C96_prefix_refuted",
    "C96_case_refuted",
    "C96_bare_refuted",
    "C96_panic_refuted"
   ],
   "note": "The search over config trees characterised exactly, and composed with C95_complete. C96_project meets the hypotheses."
  },
  {
   "property": "C97",
   "status": "proved",
   "theorems": [
    "C97_shown",
    "C97_settles",
    "C97_truthful",
    "C97_late_refuted",
    "C97_overlap_refuted",
    "C97_failed_refuted"
   ],
   "note": "The conditions under which the editor is right are stated by DiagSpec.orderly; the three refuted theorems show schedules outside them with stale errors at rest. What a check of a config finds is a parameter (C-properties on the preprocessor, parser and lints cover it)."
  },
  {
   "property": "C98",
   "status": "proved",
   "theorems": [
    "C98_distinct",
    "C98_root",
    "C98_written",
    "C98_folder",
    "C98_found",
    "C98_lost",
    "C98_outside",
    "C98_open",
    "C98_beside_refuted",
    "C98_nested_refuted",
    "C98_alike_refuted",
    "C98_space_refuted",
    "C98_backslash_refuted"
   ],
   "note": "URLs are modelled by their paths (file URLs without host); C98_folder gives the exact condition for the choice of the folder."
  },
  {
   "property": "C99",
   "status": "proved",
   "theorems": [
    "C99_sound",
    "C99_hover",
    "C99_first_char",
    "C99_last",
    "C99_tight_refuted",
    "C99_included_refuted"
   ],
   "note": "LocateSpec.laid_out states the layout; the mapping from the preprocessed text to the files is a parameter."
  },
  {
   "property": "C100",
   "status": "proved",
   "theorems": [
    "C100_report",
    "C100_fresh",
    "C100_rarely",
    "C100_interrupted",
    "C100_torn_refuted",
    "C100_clock_refuted"
   ],
   "note": "Bin/UpdateModel; semver parsing and comparison are parameters"
  },
  {
   "property": "C101",
   "status": "proved",
   "theorems": [
    "C101_exact",
    "C101_once",
    "C101_fails",
    "C101_prefix_refuted",
    "C101_folder_refuted"
   ],
   "note": "Bin/BomModel"
  },
  {
   "property": "C102",
   "status": "proved",
   "theorems": [
    "C102_script_to_archive"
   ],
   "note": "The composition of C84 (one script), C81 (schedules), C92 and C56 (packing); C102_case meets the hypotheses"
  },
  {
   "property": "C103",
   "status": "proved",
   "theorems": [
    "C103_reads_back",
    "C103_folder",
    "C103_refuses",
    "C103_interrupted",
    "C103_license",
    "C103_license_refuted",
    "C103_torn_refuted",
    "C103_escape_refuted",
    "C103_quote_refuted",
    "C103_launch_refuted"
   ],
   "note": "hemtt new: what was answered is what hemtt reads in the new folder, exactly what the folder holds, refusals, and what is left of an interrupted run. The refuted theorems give what is not read back and that the places for author and year in the licenses are never filled in."
  },
  {
   "property": "C104",
   "status": "proved",
   "theorems": [
    "C104_list",
    "C104_unknown",
    "C104_version",
    "C104_reads_back",
    "C104_needs_version",
    "C104_new_project",
    "C104_authority",
    "C104_settings",
    "C104_order_refuted",
    "C104_unset_refuted"
   ],
   "note": "hemtt value: list names exactly what is answered, what each name prints, and that nothing is printed without a version. The refuted theorems: properties come in no fixed order; unset and empty settings are printed alike."
  },
  {
   "property": "C105",
   "status": "proved",
   "theorems": [
    "C105_apart",
    "C105_emptied",
    "C105_nothing_else",
    "C105_profile_kept",
    "C105_underscore_refuted",
    "C105_first_refuted",
    "C105_top_refuted",
    "C105_profile_refuted",
    "C105_one_profile_refuted"
   ],
   "note": "The temporary folders of projects: no interference between projects at ordinary places, over every interleaving. The refuted theorems are the places that share a folder."
  },
  {
   "property": "C106",
   "status": "proved",
   "theorems": [
    "C106_archive",
    "C106_picture",
    "C106_signature",
    "C106_public_key",
    "C106_extension",
    "C106_text",
    "C106_text_named_key",
    "C106_private_key_refuted",
    "C106_binary_refuted",
    "C106_authority_refuted",
    "C106_short_refuted"
   ],
   "note": "The refuted theorems give the boundary: private keys and other binary files end in a panic, an authority with GGAT at its third character is taken for a picture, and files under six bytes are an error."
  },
  {
   "property": "C107",
   "status": "proved",
   "theorems": [
    "C107_listing",
    "C107_hex",
    "C107_checksum",
    "C107_no_warning",
    "C107_exchanged",
    "C107_slash_refuted",
    "C107_case_refuted"
   ],
   "note": "SHA-1 is any function giving 20 bytes. The refuted theorems give the boundary: names with a forward slash (archives of other tools) panic, and names that differ in case only give a false warning."
  },
  {
   "property": "C108",
   "status": "proved",
   "theorems": [
    "C108_inspect",
    "C108_rows",
    "C108_convert",
    "C108_packed",
    "C108_packed_blocks",
    "C108_existing",
    "C108_kept",
    "C108_unreadable",
    "C108_status_refuted",
    "C108_no_maps_refuted",
    "C108_odd_size_refuted"
   ],
   "note": "The DXT decoder and the picture encoders are parameters; LZO is the modelled one. The refuted theorems give the boundary: status 0 without a picture, files without maps, and packed maps whose sides are not multiples of four, which panic."
  }
 ]
}