{
 "claims": [
  {
   "property": "C01",
   "status": "proved",
   "theorems": [
    "C01_hash_table_is_a_map",
    "C01_rejected_add_changes_nothing"
   ],
   "note": ""
  },
  {
   "property": "C02",
   "status": "proved",
   "theorems": [
    "C02_hash_in_bounds",
    "C02_no_access_out_of_bounds"
   ],
   "note": ""
  },
  {
   "property": "C03",
   "status": "partial",
   "theorems": [
    "C03_iteration_partial",
    "C03_iteration_of_empty_table_refuted"
   ],
   "note": "Holds for every non-empty table; on an empty initialised table the code reads table(table_size+1)."
  },
  {
   "property": "C04",
   "status": "proved",
   "theorems": [
    "C04_lock_assigns_dense_advected_first_indices",
    "C04_num_constituents_exact",
    "C04_no_index_before_lock"
   ],
   "note": ""
  },
  {
   "property": "C05",
   "status": "partial",
   "theorems": [
    "C05_protocol_partial",
    "C05_reusable_after_reset_refuted",
    "C05_lock_empty_table_is_undefined_refuted"
   ],
   "note": "Holds for every history without initialize_table after lock_data; the code never clears data_locked, and locking an empty table is undefined behaviour."
  },
  {
   "property": "C06",
   "status": "proved",
   "theorems": [
    "C06_duplicate_registration"
   ],
   "note": ""
  },
  {
   "property": "C07",
   "status": "partial",
   "theorems": [
    "C07_instantiate_fresh",
    "C07_instantiate_values",
    "C07_instantiate_unplaced",
    "C07_classification_values",
    "C07_equivalent_iff",
    "C07_vertical_classes",
    "C07_reinstantiate_keeps_object_refuted",
    "C07_deallocate_then_instantiate_partial",
    "C07_deallocate_then_instantiate_refuted",
    "C07_index_assigned_once",
    "C07_classification_exclusive",
    "C07_setters_change_only_their_attribute",
    "C07_copy_is_complete"
   ],
   "note": "Index assigned once, classification and setters are proved; re-instantiate destroys the object and deallocate keeps stale fields (refuted)."
  },
  {
   "property": "C08",
   "status": "proved",
   "theorems": [
    "C08_copy_in_out",
    "C08_roundtrips",
    "C08_wrong_levels_refused"
   ],
   "note": ""
  },
  {
   "property": "C09",
   "status": "proved",
   "theorems": [
    "C09_wrong_state_call_has_no_effect",
    "C09_unknown_name_has_no_effect",
    "C09_which_group_a_call_reaches",
    "C09_state_moves_along_life_cycle",
    "C09_state_is_the_life_cycle_state"
   ],
   "note": ""
  },
  {
   "property": "C10",
   "status": "partial",
   "theorems": [
    "C10_calls_in_order_until_first_error",
    "C10_until_error_meaning",
    "C10_failed_phase_does_not_advance_refuted"
   ],
   "note": "Calls in order until the first error is proved in full; that a failing phase leaves the suite state unchanged is false: the generated code advances the state anyway (refuted)."
  },
  {
   "property": "C11",
   "status": "partial",
   "theorems": [
    "C11_allocation_balanced_partial",
    "C11_retry_after_failed_check_refuted",
    "C11_register_twice_refuted"
   ],
   "note": "Balanced for every history that keeps to the life cycle and in which no phase check fails; a retry after a failed check, or registering twice, allocates an allocated array (refuted)."
  },
  {
   "property": "C12",
   "status": "partial",
   "theorems": [
    "C12_exact_partial",
    "C12_generated_iff",
    "C12_full_refuted",
    "C12_nothing_asked_refuted"
   ],
   "note": "Exactness proved when no variable is input of one group and output of another, or without structures when inputs or outputs are asked for; false otherwise (C12_full_refuted and examples a-e show out-of-bounds writes, duplicates and unset elements). intrinsic_elements is a parameter of the model; the suite if/else-if selection is not modelled."
  },
  {
   "property": "C13",
   "status": "partial",
   "theorems": [
    "C13_what_is_processed",
    "C13_ifdef_ifndef",
    "C13_one_branch_partial",
    "C13_if_branch_excludes_alternatives",
    "C13_two_branches_refuted"
   ],
   "note": "Exact set of processed lines proved for every nested text; equals a real preprocessor's when each conditional has at most one alternative, and whenever the #if branch is taken; with two or more alternatives a taken #elif does not exclude later ones (refuted)."
  },
  {
   "property": "C14",
   "status": "partial",
   "theorems": [
    "C14_regions_nest",
    "C14_line_kept_iff_all_regions_active",
    "C14_unmatched_endif_reported",
    "C14_unmatched_else_refuted"
   ],
   "note": "Nesting, restoration and unmatched #endif proved; unmatched #else/#elif raise IndexError instead of a syntax error (refuted)."
  },
  {
   "property": "C15",
   "status": "partial",
   "theorems": [
    "C15_condition_value_partial",
    "C15_number_condition",
    "C15_quoted_text_untouched",
    "C15_three_operands_refuted",
    "C15_no_blank_after_if_refuted"
   ],
   "note": "Proved for all conditions with parenthesised binary operators, given Python's parser; three-operand && ignores the third, and '#if(' is never evaluated (refuted)."
  },
  {
   "property": "C16",
   "status": "proved",
   "theorems": [
    "C16_conversion_preserves_quantity",
    "C16_round_trip",
    "C16_two_steps"
   ],
   "note": ""
  },
  {
   "property": "C17",
   "status": "partial",
   "theorems": [
    "C17_overwrite_installs_everything",
    "C17_default_partial",
    "C17_changed_file_is_discarded_refuted",
    "C17_duplicate_names"
   ],
   "note": "Refuted in the default mode: every changed file is discarded (filecmp result inverted). Proved: overwrite mode, exact effect of the default mode, duplicate names."
  },
  {
   "property": "C18",
   "status": "proved",
   "theorems": [
    "C18_terminates",
    "C18_exact",
    "C18_order",
    "C18_order_within_entry"
   ],
   "note": "Proved for every file system with finitely many files."
  },
  {
   "property": "C19",
   "status": "proved",
   "theorems": [
    "C19_classified",
    "C19_unambiguous",
    "C19_longest_suffix",
    "C19_unrelated",
    "C19_case_insensitive",
    "C19_transition_match",
    "C19_machine_names_unique",
    "C19_machine_lookup"
   ],
   "note": "proved for every ASCII string; Regex.v models Python's re with a verified matcher"
  },
  {
   "property": "C20",
   "status": "partial",
   "theorems": [
    "C20_fortran_id",
    "C20_standard_name",
    "C20_blank_standard_name",
    "C20_newline_refuted"
   ],
   "note": "Exact for strings not ending in a newline; a final newline is accepted by the code (refuted)."
  },
  {
   "property": "C21",
   "status": "partial",
   "theorems": [
    "C21_found",
    "C21_unclosed",
    "C21_none",
    "C21_quotes_hide",
    "C21_stray_closing_refuted"
   ],
   "note": "Exact in both directions; a stray closing parenthesis before the first opening one derails the search (refuted)."
  },
  {
   "property": "C22",
   "status": "proved",
   "theorems": [
    "C22_line_length",
    "C22_default_line_length",
    "C22_finding_one_too_long",
    "C22_ends",
    "C22_letters",
    "C22_folding",
    "C22_comment",
    "C22_layout",
    "C22_short",
    "C22_text_letters",
    "C22_finding_index_error"
   ],
   "note": "line length, termination, content and comment theorems; findings: 131-column lines, three IndexError cases"
  },
  {
   "property": "C23",
   "status": "partial",
   "theorems": [
    "C23_statements",
    "C23_join_refuted"
   ],
   "note": "Exact cut points proved for every line. Refuted part: joining the statements does not give back a line with empty statements."
  },
  {
   "property": "C24",
   "status": "partial",
   "theorems": [
    "C24_reassemble",
    "C24_quotes_refuted"
   ],
   "note": "Exact cut points, balance and the error condition proved for every text. Refuted part: character context is not ignored, contrary to the description of the function."
  },
  {
   "property": "C25",
   "status": "proved",
   "theorems": [
    "C25_lines",
    "C25_grouping_exists",
    "C25_curr_line_repeats",
    "C25_write_line",
    "C25_reset_pos"
   ],
   "note": "Every call's result and line number for every file; rewriting and resetting covered."
  },
  {
   "property": "C26",
   "status": "partial",
   "theorems": [
    "C26_leave",
    "C26_leave_effect",
    "C26_enter",
    "C26_no_nesting",
    "C26_bracketed",
    "C26_in_region",
    "C26_failed_leave_refuted"
   ],
   "note": "All histories covered. Refuted part: a failing leave_region removes the innermost region all the same."
  },
  {
   "property": "C27",
   "status": "partial",
   "theorems": [
    "C27_one_per_name",
    "C27_duplicate_rejected",
    "C27_intent_mismatch_rejected",
    "C27_added_is_found",
    "C27_kept_until_removed",
    "C27_others_unaffected",
    "C27_removed_is_gone",
    "C27_failed_add_changes_nothing_partial",
    "C27_innermost_scope",
    "C27_failed_add_after_removal_refuted",
    "C27_add_after_removal_refuted"
   ],
   "note": "Failed-add atomicity holds only without removals (refuted otherwise); re-adding a removed variable fails (refuted). Variable compatibility is a parameter; loop substitution and call-list search of subclasses not modelled."
  },
  {
   "property": "C28",
   "status": "partial",
   "theorems": [
    "C28_search_terminates",
    "C28_fresh_partial",
    "C28_first_rename_unique_partial",
    "C28_unique_refuted",
    "C28_upper_case_refuted"
   ],
   "note": "Uniqueness is false in general: third collision, upper-case names, truncated names."
  },
  {
   "property": "C29",
   "status": "partial",
   "theorems": [
    "C29_merged_intent_covers",
    "C29_order_irrelevant",
    "C29_protected_target",
    "C29_protected_refuted"
   ],
   "note": "Coverage and order independence proved for unprotected variables; a protected use merged into a written variable is accepted (refuted)."
  },
  {
   "property": "C30",
   "status": "proved",
   "theorems": [
    "C30_match_sound",
    "C30_match_complete",
    "C30_no_permutation",
    "C30_identity",
    "C30_reordered"
   ],
   "note": "sound, complete (with at most one horizontal dimension per list), identity and reordering"
  },
  {
   "property": "C31",
   "status": "partial",
   "theorems": [
    "C31_needed_default_bound_refuted",
    "C31_default_bound_refuted"
   ],
   "note": "Refuted for VarCompatObj."
  },
  {
   "property": "C32",
   "status": "partial",
   "theorems": [
    "C32_equivalent_interchangeable_partial",
    "C32_identical_equivalent",
    "C32_character_length_refuted",
    "C32_orientation_refuted",
    "C32_horizontal_extent_refuted"
   ],
   "note": "Refuted parts: character len=5/len=10, opposite vertical orientation and horizontal_dimension/horizontal_loop_extent are reported equivalent."
  },
  {
   "property": "C33",
   "status": "partial",
   "theorems": [
    "C33_permutations_inverse",
    "C33_round_trip",
    "C33_round_trip_adjusted_partial",
    "C33_addresses_partial",
    "C33_round_trip_refuted",
    "C33_addresses_refuted",
    "C33_needs_horizontal_refuted"
   ],
   "note": "Refuted parts: with adjustment a rotated dimension order does not round-trip; a swap shifts the vertical index; no horizontal dimension raises an internal error."
  },
  {
   "property": "C34",
   "status": "proved",
   "theorems": [
    "C34_decode",
    "C34_dict",
    "C34_injective",
    "C34_arity",
    "C34_finding_blank",
    "C34_finding_no_underscore"
   ],
   "note": "names without blanks; findings for names with blanks and items without underscore"
  },
  {
   "property": "C35",
   "status": "partial",
   "theorems": [
    "C35_direct_partial",
    "C35_nested_refuted"
   ],
   "note": "Proved for direct components; for every component of an inner structure the reference is wrong (the inner structure is left out), since isinstance(var_ref, Var) is true for every VarDDT."
  },
  {
   "property": "C36",
   "status": "proved",
   "theorems": [
    "C36_definitions",
    "C36_list_forms",
    "C36_kinds",
    "C36_finding_malformed"
   ],
   "note": "Finding: a malformed definition is never an error, it defines the empty name (C36_finding_malformed)."
  },
  {
   "property": "C37",
   "status": "proved",
   "theorems": [
    "C37_exact",
    "C37_host",
    "C37_invalid",
    "C37_terminates",
    "C37_generated",
    "C37_finding_name_clash",
    "C37_finding_cycle"
   ],
   "note": "C37_exact, C37_host, C37_invalid: every table. C37_terminates: acyclic parents. C37_generated: tables written by capgen (groups, call lists and part dictionaries) without name clash. Findings: C37_finding_name_clash (suite a group b_c against suite a_b group c: the wrong suite's variables are reported), C37_finding_cycle (a suite named after another's constituent dictionary makes the query loop)."
  },
  {
   "property": "C38",
   "status": "proved",
   "theorems": [
    "C38_layout",
    "C38_fuel",
    "C38_content",
    "C38_width",
    "C38_finding_quotes"
   ],
   "note": "All lines, widths, indentations. Finding C38_finding_quotes: quoted spaces are break points although the code tracks quotes (the flags are never set)."
  },
  {
   "property": "C39",
   "status": "proved",
   "theorems": [
    "C39_track",
    "C39_entries",
    "C39_total",
    "C39_missing",
    "C39_finding_same_name",
    "C39_finding_empty_subcycle",
    "C39_finding_suite_wide"
   ],
   "note": "C39_track, C39_entries (exact list), C39_total (when it succeeds), C39_missing. Findings: groups of the same name overwrite each other in the call tree, an empty first subcycle raises UnboundLocalError, the scheme of a suite-wide <init> or <finalize> is not tracked."
  },
  {
   "property": "C40",
   "status": "proved",
   "theorems": [
    "C40_pieces",
    "C40_refused",
    "C40_value_kept"
   ],
   "note": "C40_pieces (exactly what is accepted and the pieces), C40_refused, C40_value_kept."
  },
  {
   "property": "C41",
   "status": "partial",
   "theorems": [
    "C41_flatten",
    "C41_accepts",
    "C41_analysis_keeps_order",
    "C41_subcycle_refuted",
    "C41_variable_count_refuted",
    "C41_written_partial",
    "C41_finding_part"
   ],
   "note": "C41_flatten, C41_accepts, C41_analysis_keeps_order hold for every tree; C41_written_partial: without subcycles, running what is written makes the calls in order. Refuted: Subcycle.loop reads itself, so every group with a subcycle raises RecursionError when written (C41_subcycle_refuted), and a loop count given by a variable already when read. Missing for subcycles: nothing is written at all."
  },
  {
   "property": "C42",
   "status": "proved",
   "theorems": [
    "C42_version",
    "C42_roundtrip",
    "C42_schema_files",
    "C42_finding_spellings"
   ],
   "note": "Finding: signs, blanks and underscores are accepted, as int() does (C42_finding_spellings)."
  },
  {
   "property": "C43",
   "status": "partial",
   "theorems": [
    "C43_lock_detects_preassigned_index_refuted"
   ],
   "note": "Refuted: lock_table can report success although a constituent kept a different, pre-assigned index."
  },
  {
   "property": "C44",
   "status": "partial",
   "theorems": [
    "C44_threads_refused_partial",
    "C44_second_thread_refuted"
   ],
   "note": "The generated check is omp_get_thread_num() > 1: threads with number 2 and up are refused, the threads numbered 0 and 1 of a parallel region are let through (refuted)."
  },
  {
   "property": "C45",
   "status": "partial",
   "theorems": [
    "C45_unterminated_refuted"
   ],
   "note": "Refuted: the region stack is not checked at end of file."
  },
  {
   "property": "C46",
   "status": "partial",
   "theorems": [
    "C46_define_with_value_partial",
    "C46_undef",
    "C46_inactive_define_ignored",
    "C46_define_without_value_refuted"
   ],
   "note": "Proved when a value is given and for #undef; '#define NAME' without value is ignored (refuted)."
  },
  {
   "property": "C47",
   "status": "partial",
   "theorems": [
    "C47_ordering_partial",
    "C47_symbol_value",
    "C47_symbols_compared_as_text",
    "C47_symbol_against_number",
    "C47_equality_refuted",
    "C47_undefined_symbol_refuted",
    "C47_symbol_without_value_refuted"
   ],
   "note": "Ordering comparisons proved; equality with a number is always false for stored text values, undefined symbols are true, valueless symbols raise TypeError (refuted)."
  },
  {
   "property": "C48",
   "status": "partial",
   "theorems": [
    "C48_tendency_accepted_partial",
    "C48_tendency_units_start_with_state_units",
    "C48_state_with_rate_units_refuted",
    "C48_wrong_tendency_refuted"
   ],
   "note": "Refuted parts: state units containing s-1 are refused; units without s-1 and the tendency of another variable are accepted."
  },
  {
   "property": "C49",
   "status": "partial",
   "theorems": [
    "C49_kind_conversion_partial",
    "C49_integer_refuted",
    "C49_empty_kind_refuted",
    "C49_unit_conversion_text",
    "C49_conversion_table_plain"
   ],
   "note": "Refuted parts: integers are converted with real(); an unnamed kind gives an invalid call."
  },
  {
   "property": "C50",
   "status": "proved",
   "theorems": [
    "C50_lock_data_initialises_fields"
   ],
   "note": "Proved for fresh layer constituents and histories without initialize_table after lock_data."
  },
  {
   "property": "C51",
   "status": "partial",
   "theorems": [
    "C51_missing_file_is_silently_dropped_refuted"
   ],
   "note": "Refuted for every missing name."
  },
  {
   "property": "C52",
   "status": "partial",
   "theorems": [
    "C52_rank_refuted",
    "C52_rank_unpermuted_partial"
   ],
   "note": "refuted in general: need ['a'] against have ['a','b'] is reported as a match with permutation [0]; proved when no permutation is reported"
  },
  {
   "property": "C53",
   "status": "partial",
   "theorems": [
    "C53_integer",
    "C53_real",
    "C53_double_precision",
    "C53_logical",
    "C53_default_value",
    "C53_complex",
    "C53_character_partial",
    "C53_underscore_refuted",
    "C53_quote_refuted",
    "C53_kind_refuted",
    "C53_kind_case_refuted",
    "C53_crash_refuted"
   ],
   "note": "integer, real, double precision, logical and complex exact for values without blanks and with a lower-case kind (a value with an underscore only with a kind); character partial: no underscore, no kind, any quote character; refuted: underscore in text, quote choice, trailing underscore, kind case, crashes."
  },
  {
   "property": "C54",
   "status": "proved",
   "theorems": [
    "C54_reference",
    "C54_local_name",
    "C54_protected_local_name",
    "C54_integer_constant"
   ],
   "note": "Exact for strings not ending in a newline."
  },
  {
   "property": "C55",
   "status": "proved",
   "theorems": [
    "C55_units"
   ],
   "note": "Exact for every string."
  },
  {
   "property": "C56",
   "status": "partial",
   "theorems": [
    "C56_error_flag",
    "C56_dimensions_refuted"
   ],
   "note": "Proved for eight checkers, refuted for check_dimensions (size(...) only without errors)."
  },
  {
   "property": "C57",
   "status": "proved",
   "theorems": [
    "C57_diagnostic_name",
    "C57_fixed_name",
    "C57_not_both"
   ],
   "note": "Exact for strings not ending in a newline."
  },
  {
   "property": "C58",
   "status": "proved",
   "theorems": [
    "C58_dimensions",
    "C58_dimensions_accepts",
    "C58_too_many_parts",
    "C58_bad_item_refused"
   ],
   "note": "error=True exact; error=False: nothing valid refused."
  },
  {
   "property": "C59",
   "status": "partial",
   "theorems": [
    "C59_list",
    "C59_nested_refuted"
   ],
   "note": "Proved for flat lists; nested commas are split (refuted)."
  },
  {
   "property": "C60",
   "status": "partial",
   "theorems": [
    "C60_intrinsic",
    "C60_type",
    "C60_trailing_refuted"
   ],
   "note": "Exact, with the trailing text after double precision part of the statement; refuted as an exact name check."
  },
  {
   "property": "C61",
   "status": "proved",
   "theorems": [
    "C61_read_statements"
   ],
   "note": "For every file and position; termination by a sufficient fuel bound."
  },
  {
   "property": "C62",
   "status": "proved",
   "theorems": [
    "C62_error_limit",
    "C62_limit_value"
   ],
   "note": "For every file and number of errors."
  },
  {
   "property": "C63",
   "status": "proved",
   "theorems": [
    "C63_scan_free",
    "C63_stray_ampersand"
   ],
   "note": "Equivalence for every line and context."
  },
  {
   "property": "C64",
   "status": "proved",
   "theorems": [
    "C64_read_file",
    "C64_line_count",
    "C64_unique",
    "C64_statement_complete",
    "C64_finding_words_joined"
   ],
   "note": "Equivalence between read_file and preprocessor plus merging, for every file without backslash ends. C64_finding_words_joined records that a blank before the mark is dropped, so words on two lines can be joined."
  },
  {
   "property": "C65",
   "status": "partial",
   "theorems": [
    "C65_scan_fixed",
    "C65_fixed_merge_partial",
    "C65_inline_comment_refuted",
    "C65_column_72_refuted",
    "C65_exclamation_refuted"
   ],
   "note": "Proved when no first line of a statement has a comment and there are no directives. Refuted: a continuation after a line with a comment is appended to the wrong statement; quotes after column 72 are seen; a continuation marked by an exclamation mark is dropped."
  },
  {
   "property": "C66",
   "status": "partial",
   "theorems": [
    "C66_constants_partial",
    "C66_long_constant_refuted"
   ],
   "note": "long constants are corrupted by blanks (refuted); constants unchanged in statements with places to break"
  },
  {
   "property": "C67",
   "status": "partial",
   "theorems": [
    "C67_trailing_comment_partial",
    "C67_code_lost_refuted"
   ],
   "note": "refuted for code beyond the target length; proved for code that fits"
  },
  {
   "property": "C68",
   "status": "partial",
   "theorems": [
    "C68_split",
    "C68_array",
    "C68_no_reference_refuted"
   ],
   "note": "array references split as documented; a name without reference loses its last character (refuted part)"
  },
  {
   "property": "C69",
   "status": "partial",
   "theorems": [
    "C69_injective_partial",
    "C69_injective_refuted",
    "C69_identifier",
    "C69_accepts"
   ],
   "note": "partial: injective on units whose words are not p, minus, plus; refuted in general"
  },
  {
   "property": "C70",
   "status": "proved",
   "theorems": [
    "C70_escape",
    "C70_injective"
   ],
   "note": "full"
  },
  {
   "property": "C71",
   "status": "partial",
   "theorems": [
    "C71_exact",
    "C71_same_local_name_refuted",
    "C71_recursive_type_refuted",
    "C71_skip_flat",
    "C71_skip_nested_refuted",
    "C71_unknown_type"
   ],
   "note": "Exact conditions proved. Refuted parts: equal local names in different structures are refused, a type containing itself recurses for ever, skip_duplicates is not handed down."
  },
  {
   "property": "C72",
   "status": "proved",
   "theorems": [
    "C72_lines",
    "C72_groups_exist",
    "C72_error_limit"
   ],
   "note": "C72_lines, C72_groups_exist (every file has groups), C72_error_limit."
  },
  {
   "property": "C73",
   "status": "proved",
   "theorems": [
    "C73_parse",
    "C73_finding_unbound"
   ],
   "note": "C73_parse is an equivalence; the property checks of metavar.py (valid_value, Var, add_variable) are a parameter, modelled elsewhere (C58-C62). Finding: an unknown first property of a variable raises UnboundLocalError."
  },
  {
   "property": "C74",
   "status": "proved",
   "theorems": [
    "C74_names",
    "C74_agrees",
    "C74_finding_no_section"
   ],
   "note": "C74_names (equivalence), C74_agrees (with the parser). Finding: a last table without a section raises IndexError although the parser accepts it."
  },
  {
   "property": "C75",
   "status": "proved",
   "theorems": [
    "C75_phase_schemes",
    "C75_finding_shadowed",
    "C75_finding_only_groups"
   ],
   "note": "C75_phase_schemes. Findings: has_item compares a routine name with scheme names, so a routine with the name of a scheme already in the group is left out (C75_finding_shadowed); only group elements are accepted in a suite (C75_finding_only_groups)."
  },
  {
   "property": "C76",
   "status": "proved",
   "theorems": [
    "C76_group_call",
    "C76_suite_call",
    "C76_unknown_suite",
    "C76_unknown_group",
    "C76_finding_else_without_if"
   ],
   "note": "Finding: a suite without any group in a stage yields a branch chain starting with else (C76_finding_else_without_if)."
  },
  {
   "property": "C77",
   "status": "partial",
   "theorems": [
    "C77_init_runs_once_partial",
    "C77_other_stages_partial",
    "C77_instances_refuted"
   ],
   "note": "Proved but for the independence of instances, which is refuted."
  },
  {
   "property": "C78",
   "status": "partial",
   "theorems": [
    "C78_refused_call_message_partial",
    "C78_refused_call_returns_zero_refuted"
   ],
   "note": "No scheme is called and the message is set; that an error is returned is refuted."
  },
  {
   "property": "C79",
   "status": "partial",
   "theorems": [
    "C79_finalize_scheme_never_called_refuted",
    "C79_init_scheme_runs_once_partial",
    "C79_init_scheme_not_run_again_refuted"
   ],
   "note": "Refuted; what does happen is proved."
  },
  {
   "property": "C80",
   "status": "proved",
   "theorems": [
    "C80_failure_stops_the_call",
    "C80_failed_group_not_initialised"
   ],
   "note": ""
  },
  {
   "property": "C81",
   "status": "partial",
   "theorems": [
    "C81_subcycles_partial",
    "C81_loop_zero_refuted"
   ],
   "note": "Proved for loop extents of at least 1; refuted for 0 and below."
  },
  {
   "property": "C82",
   "status": "proved",
   "theorems": [
    "C82_wrapped",
    "C82_wrapped_explicit",
    "C82_line_length",
    "C82_finding_repeated_argument"
   ],
   "note": "Names repeated at the end never break a line (finding theorem). The text around the list on the first line is not counted."
  },
  {
   "property": "C83",
   "status": "partial",
   "theorems": [
    "C83_unconditional",
    "C83_conditional_partial",
    "C83_inactive",
    "C83_conditional_out_refuted",
    "C83_dangling_pointer_refuted"
   ],
   "note": "Refuted: with a condition, other units and intent(out) the pointer is never set; with intent(in) the pointer dangles. Proved for all other combinations."
  },
  {
   "property": "C84",
   "status": "partial",
   "theorems": [
    "C84_section_partial",
    "C84_section_refuted"
   ],
   "note": "Refuted for the templates that do not end in {var} (s/min/h/d, K/C, degree/radian, km h-1)."
  },
  {
   "property": "C85",
   "status": "partial",
   "theorems": [
    "C85_blocked_partial",
    "C85_blocked_readers",
    "C85_lost_output_refuted",
    "C85_reader_changes_units_refuted"
   ],
   "note": "Refuted: the first scheme decides whether data are copied back: later output is lost, or a later reader with other units changes the host data. Proved under the hypotheses named in the theorem."
  },
  {
   "property": "C86",
   "status": "partial",
   "theorems": [
    "C86_group_intent",
    "C86_group_declared",
    "C86_suite_intent",
    "C86_finding_two_outputs",
    "C86_component_refuted"
   ],
   "note": "Sound and exact for intent(in); refuted for components of derived types."
  },
  {
   "property": "C87",
   "status": "partial",
   "theorems": [
    "C87_typedefs_current",
    "C87_caps_current",
    "C87_schemes_current_partial",
    "C87_cmakefile_lines",
    "C87_order_irrelevant",
    "C87_other_suffix_refuted",
    "C87_killed_refuted",
    "C87_killed_early"
   ],
   "note": "Proved for every history of complete runs that starts without the makefile (typedefs, caps; schemes when all files end in .F .F90 .f .f90). Refuted for other suffixes (they never reach the makefile, and adding one leaves the other two stale) and for a run killed after the first rename."
  },
  {
   "property": "C88",
   "status": "partial",
   "theorems": [
    "C88_content",
    "C88_untouched",
    "C88_propagates",
    "C88_history",
    "C88_killed_refuted",
    "C88_finding_test_file_stays"
   ],
   "note": "Content, untouched and propagation proved for every prior state; the ordering invariant for every history of complete runs. Refuted when a run is killed between the group caps and the suite cap."
  },
  {
   "property": "C89",
   "status": "partial",
   "theorems": [
    "C89_agree_partial",
    "C89_only_requests",
    "C89_verdict",
    "C89_order",
    "C89_modules",
    "C89_character_refuted"
   ],
   "note": "Exact in both directions when no character variable is requested; for character variables compatibility is not transitive (len=* agrees with any length), so a scheme with another length than the host can be accepted, depending on the order of the files (C89_character_refuted). Because the filter keeps the whole list of requests of a variable, a request by a scheme of no suite can still stop the run."
  },
  {
   "property": "C90",
   "status": "proved",
   "theorems": [
    "C90_registered",
    "C90_preserves_quantity",
    "C90_round_trip",
    "C90_missing_stops"
   ],
   "note": "The intents are those the metadata parser admits."
  },
  {
   "property": "C91",
   "status": "partial",
   "theorems": [
    "C91_parse_partial",
    "C91_sound",
    "C91_refused",
    "C91_init_refuted",
    "C91_empty_subcycle_refuted"
   ],
   "note": "Refuted for suites with <init>/<finalize> elements without a name attribute (always an exception) and for subcycles without schemes (they take the loop count of the preceding subcycle, or stop the run)."
  },
  {
   "property": "C92",
   "status": "partial",
   "theorems": [
    "C92_kept_partial",
    "C92_suite_finalize_refuted",
    "C92_name_refuted",
    "C92_timestep_refuted"
   ],
   "note": "Proved exactly for scheme names that contain no stage name; refuted for names containing finalize or timestep_init, for names ending in timestep, and for the scheme of the suite <finalize> element: their variables are dropped."
  },
  {
   "property": "C93",
   "status": "proved",
   "theorems": [
    "C93_check",
    "C93_filter",
    "C93_compile"
   ],
   "note": "If a scheme has argument tables in two files only the last file is compiled: last_file in the statement."
  },
  {
   "property": "C94",
   "status": "proved",
   "theorems": [
    "C94_modules"
   ],
   "note": "Containers are those the parser produces (decoding succeeds)."
  },
  {
   "property": "C95",
   "status": "partial",
   "theorems": [
    "C95_sound_partial",
    "C95_complete",
    "C95_dims_refuted",
    "C95_unknown_refuted",
    "C95_first_optional_refuted",
    "C95_optional_missing_refuted"
   ],
   "note": "Sound and complete for names, order, type, kind, intent, rank and optional (all but the first argument). Refuted: dimensions themselves are never compared (the test is fdim in (\":\", fdim)); the optional attribute of the first argument is not checked in the Fortran (index 0 is false); an unknown dimension or a missing optional argument ends in UnboundLocalError or AttributeError instead of a message."
  },
  {
   "property": "C96",
   "status": "partial",
   "theorems": [
    "C96_declared_partial",
    "C96_host_refuted",
    "C96_array_refuted"
   ],
   "note": "Proved for module and ddt tables without array references; host tables are never compared with their module, and after n array references the last n variables are only looked up, not compared."
  },
  {
   "property": "C97",
   "status": "proved",
   "theorems": [
    "C97_paired",
    "C97_complete"
   ],
   "note": ""
  },
  {
   "property": "C98",
   "status": "proved",
   "theorems": [
    "C98_unique",
    "C98_duplicate_refused",
    "C98_finding_crash"
   ],
   "note": "C98_finding_crash: the message for a duplicate table is an UnboundLocalError or KeyError."
  },
  {
   "property": "C99",
   "status": "partial",
   "theorems": [
    "C99_list",
    "C99_datatable_refuted"
   ],
   "note": "The removal itself is exact for a list of paths (C99_list), but clean is given the XML datatable, so it removes that file only."
  },
  {
   "property": "C100",
   "status": "proved",
   "theorems": [
    "C100_first"
   ],
   "note": ""
  },
  {
   "property": "C101",
   "status": "proved",
   "theorems": [
    "C101_kept",
    "C101_unique"
   ],
   "note": "Proved for all trees without tails (the only ones the repository builds), ASCII."
  },
  {
   "property": "C102",
   "status": "proved",
   "theorems": [
    "C102_written_iff",
    "C102_finding_slash"
   ],
   "note": "The English as stated (the equivalence) is proved; C102_finding_slash shows a tree that cannot be written."
  },
  {
   "property": "C103",
   "status": "proved",
   "theorems": [
    "C103_files",
    "C103_suites"
   ],
   "note": "Proved end to end through the file."
  },
  {
   "property": "C104",
   "status": "proved",
   "theorems": [
    "C104_dependencies"
   ],
   "note": "Proved end to end through the file."
  },
  {
   "property": "C105",
   "status": "partial",
   "theorems": [
    "C105_modules",
    "C105_processes",
    "C105_once_refuted"
   ],
   "note": "Modules and processes proved; 'each scheme once' refuted. No scheme is called 'scheme'."
  },
  {
   "property": "C106",
   "status": "proved",
   "theorems": [
    "C106_sources",
    "C106_calls_resolve"
   ],
   "note": "Scalars; subcycles flattened; constituents, vertical loops and transforms not modelled."
  },
  {
   "property": "C107",
   "status": "proved",
   "theorems": [
    "C107_defined_before_use",
    "C107_defined_suffices"
   ],
   "note": "Both directions; the converse assumes names agree, loop variables come from the host, no constants or protected arguments, names of at most 63 characters."
  },
  {
   "property": "C108",
   "status": "proved",
   "theorems": [
    "C108_dummy_intents"
   ],
   "note": "For non-loop dummy arguments."
  },
  {
   "property": "C109",
   "status": "partial",
   "theorems": [
    "C109_distinct_names",
    "C109_names_refuted"
   ],
   "note": "Proved under agreement of names; refuted without."
  },
  {
   "property": "C110",
   "status": "partial",
   "theorems": [
    "C110_uses_compatible",
    "C110_host_refuted",
    "C110_protected_refuted"
   ],
   "note": "Proved for uses within a group; refuted for host, other groups, locals and protected host variables."
  },
  {
   "property": "C111",
   "status": "partial",
   "theorems": [
    "C111_loop_variables_in_run_phases",
    "C111_loop_bounds",
    "C111_bounds_refuted"
   ],
   "note": "Proved for four host configurations; refuted for {begin,extent} and {end,extent}."
  },
  {
   "property": "C112",
   "status": "partial",
   "theorems": [
    "C112_call_text",
    "C112_optional_refuted"
   ],
   "note": "Proved without optional arguments; refuted with."
  },
  {
   "property": "C113",
   "status": "proved",
   "theorems": [
    "C113_declaration",
    "C113_no_intent_outside_schemes"
   ],
   "note": ""
  },
  {
   "property": "C114",
   "status": "partial",
   "theorems": [
    "C114_refuted",
    "C114_underscore_refuted",
    "C114_plain"
   ],
   "note": "lengths in parentheses and the plain word proved; other forms refuted for all lines"
  },
  {
   "property": "C115",
   "status": "partial",
   "theorems": [
    "C115_definition",
    "C115_short_definition",
    "C115_declarations_are_not_definitions",
    "C115_other_statements",
    "C115_refuted"
   ],
   "note": "recognition proved; false positives refuted"
  },
  {
   "property": "C116",
   "status": "partial",
   "theorems": [
    "C116_no_declaration",
    "C116_refuted"
   ],
   "note": "proved for statements beginning with no type word; glued words refuted"
  },
  {
   "property": "C117",
   "status": "partial",
   "theorems": [
    "C117_initial_values",
    "C117_refuted"
   ],
   "note": "proved for simple initial values; refuted for array constructors, comparisons, strings"
  },
  {
   "property": "C118",
   "status": "proved",
   "theorems": [
    "C118_arguments"
   ],
   "note": "full equivalence: table or error"
  },
  {
   "property": "C119",
   "status": "proved",
   "theorems": [
    "C119_file"
   ],
   "note": "exact result of the parse"
  },
  {
   "property": "C120",
   "status": "partial",
   "theorems": [
    "C120_tables",
    "C120_refuted"
   ],
   "note": "the tables are proved (C120_tables); additional routines are those of the last module only (C120_refuted: a defect)"
  },
  {
   "property": "C121",
   "status": "partial",
   "theorems": [
    "C121_named_end_refuted",
    "C121_immediate_refuted",
    "C121_no_module_refuted",
    "C121_bare_end_refuted",
    "C121_no_contains",
    "C121_second_module_refuted"
   ],
   "note": "refuted clause by clause, for all surrounding text; C121_no_contains shows the exact behaviour of a module without contains that is the last one"
  },
  {
   "property": "C122",
   "status": "partial",
   "theorems": [
    "C122_generate",
    "C122_elsewhere_refuted"
   ],
   "note": "Compatibility of a tendency with its variable is a parameter (C48). Model leaves out declarations, units, kinds and quoting."
  },
  {
   "property": "C123",
   "status": "partial",
   "theorems": [
    "C123_register",
    "C123_only_dynamic_refuted"
   ],
   "note": "Objects are those not registered before; the generated code is modelled by what it does. Objects of the host registered in an earlier call are destroyed by initialize_table (see C05), so they must be offered anew."
  },
  {
   "property": "C124",
   "status": "partial",
   "theorems": [
    "C124_queries",
    "C124_errors_refuted"
   ],
   "note": "The error handling is refuted."
  },
  {
   "property": "C125",
   "status": "partial",
   "theorems": [
    "C125_again_refuted",
    "C125_stale_refuted",
    "C125_without_data"
   ],
   "note": "Refuted after the data is initialised."
  },
  {
   "property": "C126",
   "status": "partial",
   "theorems": [
    "C126_run",
    "C126_stage",
    "C126_unknown_suite",
    "C126_unknown_part",
    "C126_phase_name_refuted",
    "C126_no_part_refuted",
    "C126_ambiguous_refuted"
   ],
   "note": "Dispatch of all stages but register (see C128) proved for all suites and strings; partial because three clauses are refuted by counterexamples (groups named like phases; suites without other groups; ambiguous names)."
  },
  {
   "property": "C127",
   "status": "partial",
   "theorems": [
    "C127_generated",
    "C127_arguments",
    "C127_loop_refuted"
   ],
   "note": "Generation condition and argument passing proved; loop variables of other phases refuted. var_call_string is given by the dictionaries."
  },
  {
   "property": "C128",
   "status": "partial",
   "theorems": [
    "C128_register",
    "C128_error",
    "C128_other_suite_refuted",
    "C128_twice_refuted"
   ],
   "note": "Proved for one suite with run-time constituents; refuted for several (for all of them) and for a second registration."
  },
  {
   "property": "C129",
   "status": "partial",
   "theorems": [
    "C129_suites",
    "C129_parts",
    "C129_schemes",
    "C129_unknown",
    "C129_round_trip",
    "C129_truncated_refuted"
   ],
   "note": "Proved for long enough strings; truncation refuted."
  },
  {
   "property": "C130",
   "status": "proved",
   "theorems": [
    "C130_called_once",
    "C130_received",
    "C130_plain"
   ],
   "note": "Horizontal subscripts are not modelled (a fixed column); kind conversion is the identity on exact values; names are assumed not to clash (ready)."
  },
  {
   "property": "C131",
   "status": "proved",
   "theorems": [
    "C131_returned",
    "C131_in_unchanged",
    "C131_frame",
    "C131_round_trip"
   ],
   "note": "Exact arithmetic instead of floating point."
  },
  {
   "property": "C132",
   "status": "partial",
   "theorems": [
    "C132_optional_out",
    "C132_out_refuted"
   ],
   "note": "Main claim refuted for non-optional arguments, proved for optional active ones."
  },
  {
   "property": "C133",
   "status": "partial",
   "theorems": [
    "C133_absent",
    "C133_present",
    "C133_inactive_transform_refuted",
    "C133_inactive_present_refuted"
   ],
   "note": "Proved for untransformed optional arguments; refuted for inactive transformed ones."
  },
  {
   "property": "C134",
   "status": "partial",
   "theorems": [
    "C134_group_variable_refuted",
    "C134_optional_name_refuted"
   ],
   "note": "Refuted claims."
  },
  {
   "property": "C135",
   "status": "partial",
   "theorems": [
    "C135_stale_pointer_refuted"
   ],
   "note": "Refuted claim."
  },
  {
   "property": "C136",
   "status": "proved",
   "theorems": [
    "C136_condition_translated",
    "C136_succeeds_iff_names_known"
   ],
   "note": "ASCII texts; a dictionary is a function from standard names to variables."
  },
  {
   "property": "C137",
   "status": "partial",
   "theorems": [
    "C137_foreign_characters_dropped_refuted",
    "C137_quoted_text_reported_partial"
   ],
   "note": "REFUTED for signs, arithmetic, decimal points, %, commas, tabs; proved for quoted texts."
  },
  {
   "property": "C138",
   "status": "partial",
   "theorems": [
    "C138_names_any_case_partial",
    "C138_upper_case_operators_refuted"
   ],
   "note": "REFUTED for operators; proved for names."
  },
  {
   "property": "C139",
   "status": "partial",
   "theorems": [
    "C139_if_without_parentheses_refuted",
    "C139_parenthesised_condition_legal_partial"
   ],
   "note": "REFUTED in general; proved for conditions written in parentheses, local names without parentheses."
  },
  {
   "property": "C140",
   "status": "proved",
   "theorems": [
    "C140_requirements_complete",
    "C140_condition_as_read"
   ],
   "note": "host metadata is a function fixed during the call (the later mutation of parent local names is outside)."
  },
  {
   "property": "C141",
   "status": "partial",
   "theorems": [
    "C141_defined_is_accepted_partial",
    "C141_undefined_is_reported_partial",
    "C141_undefined_bound_is_reported_partial",
    "C141_added_names_unchecked_refuted"
   ],
   "note": "REFUTED for automatically added names; the rest proved."
  },
  {
   "property": "C142",
   "status": "proved",
   "theorems": [
    "C142_parents_and_indices"
   ],
   "note": ""
  },
  {
   "property": "C143",
   "status": "partial",
   "theorems": [
    "C143_subscripts_found_partial",
    "C143_no_subscripts_partial",
    "C143_nested_commas_refuted",
    "C143_actual_subscripts_partial"
   ],
   "note": "Partial: subscripts with several subscripts of their own are cut in pieces (C143_nested_commas_refuted, for all such names)."
  },
  {
   "property": "C144",
   "status": "partial",
   "theorems": [
    "C144_suite_arguments_partial",
    "C144_nothing_else",
    "C144_component_out_refuted"
   ],
   "note": "Partial: C144_component_out_refuted shows, for all such hosts, that writing one component makes the whole derived type intent(out)."
  },
  {
   "property": "C145",
   "status": "partial",
   "theorems": [
    "C145_bounds_available_partial",
    "C145_bounds_of_bounds_refuted"
   ],
   "note": "Partial: bounds of bounds are not reached (C145_bounds_of_bounds_refuted)."
  },
  {
   "property": "C146",
   "status": "partial",
   "theorems": [
    "C146_right_shape_partial",
    "C146_lower_bound_refuted",
    "C146_empty_refuted"
   ],
   "note": "Partial: lower bounds other than 1 and empty dimensions are refuted for all values."
  },
  {
   "property": "C147",
   "status": "partial",
   "theorems": [
    "C147_total_size_partial",
    "C147_vector",
    "C147_transposed_refuted",
    "C147_suite_variable_refuted"
   ],
   "note": "Partial: only total sizes are compared (C147_transposed_refuted) and suite variables are not measured (C147_suite_variable_refuted)."
  },
  {
   "property": "C148",
   "status": "proved",
   "theorems": [
    "C148_not_touched",
    "C148_checked",
    "C148_no_call_after_error",
    "C148_recorded"
   ],
   "note": ""
  },
  {
   "property": "C149",
   "status": "proved",
   "theorems": [
    "C149_each_argument_declared",
    "C149_written_iff"
   ],
   "note": "rank-0 and optional host variables included; a dimension a:b:c is read as a:b, as in the code"
  },
  {
   "property": "C150",
   "status": "partial",
   "theorems": [
    "C150_scalar_bounds_declared_first",
    "C150_component_bounds_refuted"
   ],
   "note": "partial: refuted for bounds that are components of array arguments"
  },
  {
   "property": "C151",
   "status": "partial",
   "theorems": [
    "C151_kinds_and_types_imported_once",
    "C151_import_from_module_partial",
    "C151_module_name_mangled_refuted",
    "C151_kind_by_other_name_refuted"
   ],
   "note": "partial: refuted when the kind has another local name or the module name contains MODULE_"
  },
  {
   "property": "C152",
   "status": "partial",
   "theorems": [
    "C152_locals_declared",
    "C152_derived_type_missing_refuted",
    "C152_pointer_types_refuted",
    "C152_pointer_type_determines_partial"
   ],
   "note": "partial: refuted for default_kind, len=* and derived types"
  },
  {
   "property": "C153",
   "status": "proved",
   "theorems": [
    "C153_imports",
    "C153_answer",
    "C153_own_subscript"
   ],
   "note": "C153_imports exact for every host, search sequence and any bound on recursion that suffices; C153_answer; C153_own_subscript: a variable with itself as subscript makes the search recurse for ever. Hypothesis: no host variable has the local name '1' (not a Fortran name, rejected by check_local_name)."
  },
  {
   "property": "C154",
   "status": "partial",
   "theorems": [
    "C154_dummies",
    "C154_accessible_partial",
    "C154_array_reference_refuted"
   ],
   "note": "C154_dummies exact, C154_accessible_partial for all used table variables; refuted (C154_array_reference_refuted) for module variables whose local name is an array reference: the import is not Fortran."
  },
  {
   "property": "C155",
   "status": "proved",
   "theorems": [
    "C155_accepted",
    "C155_one_offer",
    "C155_same_type_rejected"
   ],
   "note": "C155_accepted is an equivalence; C155_one_offer; C155_same_type_rejected shows that two host structures of one type can never be accepted."
  },
  {
   "property": "C156",
   "status": "partial",
   "theorems": [
    "C156_one_table_partial",
    "C156_lost_refuted"
   ],
   "note": "True with one host table (C156_one_table_partial); false with several (C156_lost_refuted, for every such host)."
  },
  {
   "property": "C157",
   "status": "proved",
   "theorems": [
    "C157_array_references",
    "C157_other_names"
   ],
   "note": "handle_array_ref is modelled exactly; the unreachable last test is left out."
  },
  {
   "property": "C158",
   "status": "partial",
   "theorems": [
    "C158_run_arguments",
    "C158_run_complete",
    "C158_element_of_array_refuted"
   ],
   "note": "Sound and complete for dictionaries whose bounds are scalars and whose structure names are plain; C158_element_of_array_refuted shows the standard name left in the text otherwise."
  },
  {
   "property": "C159",
   "status": "proved",
   "theorems": [
    "C159_whole_arguments",
    "C159_whole_complete"
   ],
   "note": "Sound and complete."
  },
  {
   "property": "C160",
   "status": "partial",
   "theorems": [
    "C160_reported",
    "C160_unknown_names",
    "C160_cycle_refuted"
   ],
   "note": "Proved for acyclic dictionaries; C160_cycle_refuted."
  },
  {
   "property": "C161",
   "status": "partial",
   "theorems": [
    "C161_dimensions",
    "C161_complete",
    "C161_reported",
    "C161_colons",
    "C161_number_refuted"
   ],
   "note": "Sound, complete and error-reporting; C161_number_refuted."
  },
  {
   "property": "C162",
   "status": "partial",
   "theorems": [
    "C162_dummy",
    "C162_read_back",
    "C162_optional_refuted",
    "C162_repeated_target_refuted"
   ],
   "note": "legal unless the variable is both optional and has the property target (refuted there); optional lost for allocatable outputs (refuted)"
  },
  {
   "property": "C163",
   "status": "partial",
   "theorems": [
    "C163_local",
    "C163_scalar_target_refuted",
    "C163_array_refuted"
   ],
   "note": "the two _refuted theorems show where the property is false of the code"
  },
  {
   "property": "C164",
   "status": "proved",
   "theorems": [
    "C164_outcomes",
    "C164_declare"
   ],
   "note": ""
  },
  {
   "property": "C165",
   "status": "proved",
   "theorems": [
    "C165_pointer",
    "C165_read_back"
   ],
   "note": ""
  },
  {
   "property": "C166",
   "status": "proved",
   "theorems": [
    "C166_section",
    "C166_columns",
    "C166_placed",
    "C166_colons"
   ],
   "note": ""
  },
  {
   "property": "C167",
   "status": "partial",
   "theorems": [
    "C167_rank",
    "C167_rank_refuted"
   ],
   "note": "False for dimensions whose two bounds have the same text: the cap passes an element. Proved for all others."
  },
  {
   "property": "C168",
   "status": "partial",
   "theorems": [
    "C168_never_fires",
    "C168_reports_refuted",
    "C168_empty_refuted",
    "C168_signed_refuted"
   ],
   "note": "Proved: no false alarm when extents are not negative and lower bounds have no sign. Refuted: the check compares size(x(a:b)) with b-a+1, which never depends on x, so wrong sizes are not reported; extents below zero stop the model; signed bounds give nlev--1+1."
  },
  {
   "property": "C169",
   "status": "partial",
   "theorems": [
    "C169_known",
    "C169_phase",
    "C169_phase_refuted",
    "C169_accepts",
    "C169_message_refuted"
   ],
   "note": "Refuted parts: the code compares with ccpp_loop_extent, so horizontal_loop_extent is accepted outside the run phase; a host variable without horizontal dimension gives UnboundLocalError."
  },
  {
   "property": "C170",
   "status": "partial",
   "theorems": [
    "C170_names",
    "C170_unique",
    "C170_component_refuted",
    "C170_case_refuted"
   ],
   "note": "Proved for local names whose subscripts, if any, are at the end and without parentheses. Refuted: subscripts in the middle of a name (the last letter is taken for an array reference), subscripts in another letter case."
  },
  {
   "property": "C171",
   "status": "proved",
   "theorems": [
    "C171_order"
   ],
   "note": ""
  },
  {
   "property": "C172",
   "status": "partial",
   "theorems": [
    "C172_exactly",
    "C172_cycle_refuted",
    "C172_message_refuted"
   ],
   "note": "The condition for success is proved exact; the message is false of the code: RecursionError, ValueError, TypeError or KeyError."
  },
  {
   "property": "C173",
   "status": "proved",
   "theorems": [
    "C173_converted"
   ],
   "note": "Holds. The cache of parsed files and the file-exists test are not modelled; a scheme name is either absent or nonempty."
  },
  {
   "property": "C174",
   "status": "partial",
   "theorems": [
    "C174_exact",
    "C174_sections_exist",
    "C174_message_refuted",
    "C174_dimension_refuted"
   ],
   "note": "The exact accepted set is proved. False in two respects of the intended claim: the message for an optional host variable cannot be built (AttributeError), and the checks of dimensions never apply, because the parser turns each dimension into ccpp_constant_one:<name> before the comparison."
  },
  {
   "property": "C175",
   "status": "partial",
   "theorems": [
    "C175_dependencies",
    "C175_once_refuted"
   ],
   "note": "The list is proved exactly. Duplicates are kept (C175_once_refuted)."
  },
  {
   "property": "C176",
   "status": "partial",
   "theorems": [
    "C176_found",
    "C176_only",
    "C176_once",
    "C176_case_refuted",
    "C176_prefix_refuted"
   ],
   "note": "Soundness, completeness and uniqueness are proved for every file that is accepted. False: foo_RUN and \"pure subroutine foo_run\" are silently ignored (C176_case_refuted, C176_prefix_refuted)."
  },
  {
   "property": "C177",
   "status": "partial",
   "theorems": [
    "C177_table",
    "C177_substring_refuted"
   ],
   "note": "Proved for every file with the header recognised as the code does it (contains the name); this lets arg_table_foo_run_old serve as header of foo_run (C177_substring_refuted)."
  },
  {
   "property": "C178",
   "status": "partial",
   "theorems": [
    "C178_defined",
    "C178_continuation",
    "C178_comment_refuted"
   ],
   "note": "Continued and blank lines proved. False for comments: a comment that ends with & swallows the next line (C178_comment_refuted)."
  },
  {
   "property": "C179",
   "status": "partial",
   "theorems": [
    "C179_lists",
    "C179_duplicate_scalar_refuted"
   ],
   "note": "Proved for distinct local names. False for a variable declared twice: two scalars with one local name raise KeyError (C179_duplicate_scalar_refuted)."
  },
  {
   "property": "C180",
   "status": "partial",
   "theorems": [
    "C180_written",
    "C180_allocated",
    "C180_freed",
    "C180_order_refuted"
   ],
   "note": "Proved for allocation, for what is accepted and for deallocation, whatever order the set of optional arrays has; the text depends on that order (C180_order_refuted)."
  },
  {
   "property": "C181",
   "status": "partial",
   "theorems": [
    "C181_pointers",
    "C181_no_locals_refuted"
   ],
   "note": "Proved when the group has any local of its own; if its only locals are pointers, writing it raises UnboundLocalError (C181_no_locals_refuted)."
  },
  {
   "property": "C182",
   "status": "partial",
   "theorems": [
    "C182_accepted",
    "C182_ddt",
    "C182_empty_refuted",
    "C182_crash_refuted"
   ],
   "note": "C182_accepted and C182_ddt: for descriptions without duplicate keys, whose names are not empty, whose texts do not end with a newline and for which the constant test of a protected variable ends (that of check_fortran_literal). float() is a parameter. Refuted: an empty local name, standard name or type is accepted; a molar mass text that is no number gives ValueError instead of a syntax error; a protected variable of a derived type whose name ends with _<type> gives ParseInternalError though legal."
  },
  {
   "property": "C183",
   "status": "partial",
   "theorems": [
    "C183_given",
    "C183_default",
    "C183_long_name",
    "C183_kind",
    "C183_kind_blank_refuted",
    "C183_constituent",
    "C183_false_text_refuted"
   ],
   "note": "C183_given, C183_default, C183_long_name, C183_kind, C183_constituent. Refuted: a type with blanks around it is accepted but has no default kind; the text \"false\" given to the constructor counts as true."
  },
  {
   "property": "C184",
   "status": "partial",
   "theorems": [
    "C184_adjust",
    "C184_clone",
    "C184_renamed",
    "C184_promoted",
    "C184_ddt_kind_refuted"
   ],
   "note": "C184_adjust, C184_clone, C184_renamed, C184_promoted. C184_clone excludes a derived type created with another type, for which C184_ddt_kind_refuted shows that the clone has another kind. Contexts and sources of clones are not modelled."
  },
  {
   "property": "C185",
   "status": "proved",
   "theorems": [
    "C185_read_back",
    "C185_one_reading",
    "C185_finding_alternating"
   ],
   "note": "C185_read_back: written and read back; C185_one_reading: the tables are determined; C185_finding_alternating: one concrete case of headers of two schemes that alternate and make a file that the reader refuses (not proved for every alternation)."
  },
  {
   "property": "C186",
   "status": "proved",
   "theorems": [
    "C186_numbers",
    "C186_named",
    "C186_whole_file"
   ],
   "note": "C186_numbers: the unnamed bounds of a variable get the numbers n+1..m in order, all different; C186_whole_file: the same over all the variables of a file; C186_named: a known bound gets its latest standard name."
  }
 ]
}