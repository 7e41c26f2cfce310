{
 "claims": [
  {
   "property": "C01",
   "status": "proved",
   "theorems": [
    "C01_SearchChar_first_live",
    "C01_search_terminates"
   ],
   "note": "No hypothesis on the searched character; NUL excluded by the string model."
  },
  {
   "property": "C02",
   "status": "proved",
   "theorems": [
    "C02_SearchToken_first_live",
    "C02_SearchLastToken_last_live",
    "C02_SearchLastChar_last_live",
    "C02_SearchLastChar_caret_refuted"
   ],
   "note": "'last' variants need a set without '^' (refuted otherwise by C02_SearchLastChar_caret_refuted)."
  },
  {
   "property": "C03",
   "status": "proved",
   "theorems": [
    "C03_UnEscape_inverts",
    "C03_UnEscape_total",
    "C03_UnEscape_plain",
    "C03_UnEscape_length"
   ],
   "note": ""
  },
  {
   "property": "C04",
   "status": "proved",
   "theorems": [
    "C04_SearchToken_OutQuotes",
    "C04_SearchChar_OutQuotes",
    "C04_OutQuotes_terminates",
    "C04_Hybrid"
   ],
   "note": "Also covers the hybrid search."
  },
  {
   "property": "C05",
   "status": "proved",
   "theorems": [
    "C05_history_refines",
    "C05_call_refines",
    "C05_holds_capacity"
   ],
   "note": ""
  },
  {
   "property": "C06",
   "status": "proved",
   "theorems": [
    "C06_replace_all",
    "C06_replaced_total_unique",
    "C06_empty_pattern_never_returns"
   ],
   "note": ""
  },
  {
   "property": "C07",
   "status": "proved",
   "theorems": [
    "C07_read_lines",
    "C07_read_one_line",
    "C07_lines_exist",
    "C07_normalised_unix",
    "C07_normalised_dos"
   ],
   "note": ""
  },
  {
   "property": "C08",
   "status": "proved",
   "theorems": [
    "C08_acquire_disjoint",
    "C08_held_distinct",
    "C08_fallback"
   ],
   "note": ""
  },
  {
   "property": "C09",
   "status": "proved",
   "theorems": [
    "C09_lookup_sound",
    "C09_register_all",
    "C09_register_twice",
    "C09_register_unaffected",
    "C09_lookup_complete",
    "C09_lookup_alone",
    "C09_builtin_found",
    "C09_goto_semicolon_refuted"
   ],
   "note": ""
  },
  {
   "property": "C10",
   "status": "proved",
   "theorems": [
    "C10_rebuild",
    "C10_build",
    "C10_small_tables_refuted",
    "C10_duplicate",
    "C10_define"
   ],
   "note": ""
  },
  {
   "property": "C11",
   "status": "proved",
   "theorems": [
    "C11_match_sound",
    "C11_case_match_sound",
    "C11_star_question_refuted",
    "C11_utf8_refuted"
   ],
   "note": ""
  },
  {
   "property": "C12",
   "status": "proved",
   "theorems": [
    "C12_match_exact",
    "C12_case_match_exact",
    "C12_trailing_star_refuted",
    "C12_no_backtrack_refuted"
   ],
   "note": ""
  },
  {
   "property": "C13",
   "status": "proved",
   "theorems": [
    "C13_split_partition"
   ],
   "note": ""
  },
  {
   "property": "C14",
   "status": "proved",
   "theorems": [
    "C14_substring",
    "C14_documented",
    "C14_tail",
    "C14_characters",
    "C14_negative_start_refuted",
    "C14_overflow_refuted"
   ],
   "note": ""
  },
  {
   "property": "C15",
   "status": "proved",
   "theorems": [
    "C15_unchanged"
   ],
   "note": ""
  },
  {
   "property": "C16",
   "status": "proved",
   "theorems": [
    "C16_history",
    "C16_any_case",
    "C16_trailing_blank_refuted",
    "C16_address_refuted"
   ],
   "note": ""
  },
  {
   "property": "C17",
   "status": "proved",
   "theorems": [
    "C17_initial",
    "C17_history",
    "C17_copy",
    "C17_procedures",
    "C17_order_refuted"
   ],
   "note": ""
  },
  {
   "property": "C18",
   "status": "proved",
   "theorems": [
    "C18_restored",
    "C18_same_values",
    "C18_lone_endlocal",
    "C18_free",
    "C18_not_saved"
   ],
   "note": ""
  },
  {
   "property": "C19",
   "status": "proved",
   "theorems": [
    "C19_switches",
    "C19_plain",
    "C19_options_refuted"
   ],
   "note": ""
  },
  {
   "property": "C20",
   "status": "proved",
   "theorems": [
    "C20_scoping",
    "C20_restored",
    "C20_exported",
    "C20_global",
    "C20_lowercase_refuted",
    "C20_stale_mark_refuted",
    "C20_setlocal_refuted"
   ],
   "note": ""
  },
  {
   "property": "C21",
   "status": "proved",
   "theorems": [
    "C21_next",
    "C21_next_delims",
    "C21_list",
    "C21_ends",
    "C21_buffer",
    "C21_once_refuted",
    "C21_exact_refuted"
   ],
   "note": ""
  },
  {
   "property": "C22",
   "status": "proved",
   "theorems": [
    "C22_quoted",
    "C22_word",
    "C22_any"
   ],
   "note": ""
  },
  {
   "property": "C23",
   "status": "proved",
   "theorems": [
    "C23_lossless",
    "C23_operators",
    "C23_alike_refuted"
   ],
   "note": ""
  },
  {
   "property": "C24",
   "status": "proved",
   "theorems": [
    "C24_chain",
    "C24_line",
    "C24_if_refuted",
    "C24_pipe_if_refuted",
    "C24_abandon_refuted",
    "C24_for_refuted"
   ],
   "note": "Lines of ordinary commands (not IF, FOR or a block), any number of pipelines, from the parsed line and from the text; commands are an oracle on the history. The refuted theorems show the four deviations."
  },
  {
   "property": "C25",
   "status": "proved",
   "theorems": [
    "C25_redirect",
    "C25_run",
    "C25_nested_refuted"
   ],
   "note": "C25_redirect: the redirections of one command; C25_run: any line that terminates, by induction on the execution. Hypothesis: the three streams are open and distinct at the start."
  },
  {
   "property": "C26",
   "status": "proved",
   "theorems": [
    "C26_steps",
    "C26_too_many",
    "C26_progression",
    "C26_none",
    "C26_forever",
    "C26_overflow",
    "C26_handled"
   ],
   "note": "C26_steps relates the whole command line to `counts` in both directions (same_runs); C26_progression, C26_none, C26_forever and C26_overflow say what `counts` does for each kind of triple. The line holds FOR alone (commands behind FOR: see C24_for_refuted). C26_handled shows that the built-in table meets the hypotheses about the command table."
  },
  {
   "property": "C27",
   "status": "proved",
   "theorems": [
    "C27_words",
    "C27_options",
    "C27_overflow",
    "C27_bad",
    "C27_unassign",
    "C27_even_refuted",
    "C27_leak_refuted"
   ],
   "note": "The options (tokens=, delims=, eol=, skip=, usebackq, any letter case) are parsed and a line split for every option text of the grammar of ForTok_Spec; exceptions proved: the first range has its even numbers raised by one, and wrapped variables are not forgotten. tokens= given twice and numbers above 32767 are outside."
  },
  {
   "property": "C28",
   "status": "proved",
   "theorems": [
    "C28_jump",
    "C28_file",
    "C28_file_missing",
    "C28_missing_undefined",
    "C28_case_refuted",
    "C28_cmdly",
    "C28_cmdly_refuted",
    "C28_goto",
    "C28_goto_bare"
   ],
   "note": "Jump in the running script and in another file, missing labels, and the parsing of GOTO (labels without ^ % ! and quotes). Exceptions proved: C28_missing_undefined (undefined behaviour), C28_case_refuted, C28_cmdly_refuted."
  },
  {
   "property": "C29",
   "status": "proved",
   "theorems": [
    "C29_load",
    "C29_any",
    "C29_bytes"
   ],
   "note": "Composed with C07_read_lines for the bytes of the file; C29_any shows that every text is covered by the specification."
  },
  {
   "property": "C30",
   "status": "proved",
   "theorems": [
    "C30_shift",
    "C30_refused",
    "C30_shifts",
    "C30_call",
    "C30_argv",
    "C30_seven_refuted",
    "C30_far_refuted",
    "C30_surplus_refuted"
   ],
   "note": "Exact as stated, exceptions included (C30_seven_refuted, C30_far_refuted, C30_surplus_refuted). The rest of CALL (options, search of the file, running it) is not modelled."
  },
  {
   "property": "C31",
   "status": "proved",
   "theorems": [
    "C31_level",
    "C31_end",
    "C31_end_refuted",
    "C31_blank_refuted"
   ],
   "note": "EXIT n and a blank behind EXIT /B n are refuted for all n (C31_end_refuted, C31_blank_refuted); the other cases hold. atoi outside the range of int is undefined."
  },
  {
   "property": "C32",
   "status": "proved",
   "theorems": [
    "C32_if",
    "C32_or",
    "C32_compare",
    "C32_object",
    "C32_and_refuted",
    "C32_malformed_refuted"
   ],
   "note": "Proved for all well-formed expressions with the exact condition under which the value is undefined; C32_and_refuted and C32_malformed_refuted show the violations."
  },
  {
   "property": "C33",
   "status": "proved",
   "theorems": [
    "C33_not",
    "C33_compare_refuted"
   ],
   "note": "Exact: NOT negates for keywords and ==, and is ignored otherwise (C33_compare_refuted)."
  },
  {
   "property": "C34",
   "status": "proved",
   "theorems": [
    "C34_split",
    "C34_drive",
    "C34_roundtrip_refuted"
   ],
   "note": ""
  },
  {
   "property": "C35",
   "status": "proved",
   "theorems": [
    "C35_absolute",
    "C35_relative",
    "C35_usual_meaning",
    "C35_failure",
    "C35_stable",
    "C35_refuted"
   ],
   "note": ""
  },
  {
   "property": "C36",
   "status": "proved",
   "theorems": [
    "C36_restored",
    "C36_stack",
    "C36_lifo",
    "C36_empty_refuted"
   ],
   "note": ""
  },
  {
   "property": "C37",
   "status": "proved",
   "theorems": [
    "C37_order"
   ],
   "note": ""
  },
  {
   "property": "C38",
   "status": "proved",
   "theorems": [
    "C38_counts",
    "C38_chunking",
    "C38_stdin",
    "C38_files",
    "C38_sizes",
    "C38_refused",
    "C38_last_refuted",
    "C38_default_refuted"
   ],
   "note": "Exceptions proved: C38_last_refuted, C38_default_refuted. Finding the files of a pattern and reading them are oracles."
  },
  {
   "property": "C39",
   "status": "proved",
   "theorems": [
    "C39_prompt",
    "C39_variable",
    "C39_text",
    "C39_pecho",
    "C39_set",
    "C39_pecho_refuted",
    "C39_broken_refuted"
   ],
   "note": "Exceptions proved: C39_pecho_refuted, C39_broken_refuted. Date, time and current directory are inputs."
  },
  {
   "property": "C40",
   "status": "proved",
   "theorems": [
    "C40_named",
    "C40_ports",
    "C40_untouched",
    "C40_exact_refuted"
   ],
   "note": ""
  },
  {
   "property": "C41",
   "status": "proved",
   "theorems": [
    "C41_StripEndDelims",
    "C41_SkipBlanks"
   ],
   "note": ""
  },
  {
   "property": "C42",
   "status": "proved",
   "theorems": [
    "C42_replace_nocase_refuted",
    "C42_replace_nocase_reads_stale_refuted"
   ],
   "note": ""
  },
  {
   "property": "C44",
   "status": "proved",
   "theorems": [
    "C44_replace_one",
    "C44_replace_right_one",
    "C44_setlocal_refuted"
   ],
   "note": ""
  },
  {
   "property": "C43",
   "status": "proved",
   "theorems": [
    "C43_pairs",
    "C43_expressions",
    "C43_empty_refuted"
   ],
   "note": ""
  },
  {
   "property": "C45",
   "status": "proved",
   "theorems": [
    "C45_check_exact",
    "C45_check_positive",
    "C45_not_void_refuted",
    "C45_hidden_void_refuted"
   ],
   "note": ""
  },
  {
   "property": "C46",
   "status": "proved",
   "theorems": [
    "C46_initial_values",
    "C46_value_refuted"
   ],
   "note": ""
  },
  {
   "property": "C47",
   "status": "proved",
   "theorems": [
    "C47_block"
   ],
   "note": ""
  },
  {
   "property": "C48",
   "status": "proved",
   "theorems": [
    "C48_plain",
    "C48_dynamic",
    "C48_replace",
    "C48_default",
    "C48_undefined",
    "C48_total_refuted"
   ],
   "note": ""
  },
  {
   "property": "C49",
   "status": "proved",
   "theorems": [
    "C49_full_path",
    "C49_idempotent",
    "C49_in_place_refuted"
   ],
   "note": ""
  },
  {
   "property": "C50",
   "status": "proved",
   "theorems": [
    "C50_plain",
    "C50_unquoted",
    "C50_modifiers",
    "C50_undefined",
    "C50_assignments",
    "C50_total_refuted"
   ],
   "note": ""
  },
  {
   "property": "C51",
   "status": "proved",
   "theorems": [
    "C51_pieces",
    "C51_lone",
    "C51_ends",
    "C51_total_refuted"
   ],
   "note": ""
  },
  {
   "property": "C52",
   "status": "proved",
   "theorems": [
    "C52_delayed_off",
    "C52_delayed_on",
    "C52_no_locals",
    "C52_verbatim_refuted"
   ],
   "note": ""
  },
  {
   "property": "C53",
   "status": "proved",
   "theorems": [
    "C53_block",
    "C53_line",
    "C53_begin",
    "C53_flat",
    "C53_total",
    "C53_adjacent_refuted"
   ],
   "note": ""
  },
  {
   "property": "C54",
   "status": "proved",
   "theorems": [
    "C54_redirections",
    "C54_missing",
    "C54_total",
    "C54_line",
    "C54_dup_refuted"
   ],
   "note": ""
  },
  {
   "property": "C55",
   "status": "proved",
   "theorems": [
    "C55_numbers",
    "C55_text",
    "C55_cases",
    "C55_opposite",
    "C55_converse",
    "C55_unknown",
    "C55_equal",
    "C55_equal_quoted",
    "C55_equal_refuted",
    "C55_order_refuted",
    "C55_exact_refuted",
    "C55_nan_refuted",
    "C55_left_refuted"
   ],
   "note": "strtod is a parameter. C55_cases shows that the theorems cover all texts but integers above 2^53, for which C55_exact_refuted gives a counterexample; C55_order_refuted, C55_nan_refuted, C55_left_refuted: other exceptions."
  },
  {
   "property": "C56",
   "status": "proved",
   "theorems": [
    "C56_errorlevel",
    "C56_level_refuted"
   ],
   "note": "The exact behaviour is proved; the documented meaning is refuted (C56_level_refuted)."
  },
  {
   "property": "C57",
   "status": "proved",
   "theorems": [
    "C57_lines",
    "C57_block",
    "C57_handled",
    "C57_blank_refuted"
   ],
   "note": "Run_Model.v models pBat_RunBlock, pBat_CmdBlock, pBat_RunLine; RunBlock_Spec.v says what the lines of a block are (blines) and what running them one after the other means (lines_seq). C57_lines: equivalence in both directions (for all fuels that suffice). C57_block adds the redirections of the block and the restoration of the streams. C57_blank_refuted: a blank between a nested block and the end of its line."
  },
  {
   "property": "C58",
   "status": "proved",
   "theorems": [
    "C58_then",
    "C58_else",
    "C58_both",
    "C58_skip",
    "C58_lines",
    "C58_paren_refuted",
    "C58_rest_refuted"
   ],
   "note": "C58_then/else/both/skip relate the IF line to another line in both directions (same_runs); C58_lines goes down to the lines of the block selected. The condition itself is C55/C56. C58_paren_refuted and C58_rest_refuted record two deviations."
  },
  {
   "property": "C59",
   "status": "proved",
   "theorems": [
    "C59_words",
    "C59_plain",
    "C59_colon_refuted"
   ],
   "note": "C59_words relates the command line to one turn per word in both directions; C59_plain for lists without masks; the files of a mask are an oracle (fio_glob). C59_colon_refuted is the ':' deviation."
  },
  {
   "property": "C60",
   "status": "proved",
   "theorems": [
    "C60_lines",
    "C60_later_file_refuted",
    "C60_recursive_refuted"
   ],
   "note": "C60_lines relates the command line to one turn per line in both directions; contents of files and pipes are oracles that may depend on all that happened before. C60_later_file_refuted and C60_recursive_refuted record deviations."
  },
  {
   "property": "C61",
   "status": "proved",
   "theorems": [
    "C61_group",
    "C61_unclosed",
    "C61_check"
   ],
   "note": "Groups of lines described by the grammar of Block_Spec/RunBlock_Spec; minimality follows since the answer is the group itself."
  },
  {
   "property": "C62",
   "status": "proved",
   "theorems": [
    "C62_runs"
   ],
   "note": "Big-step specification (script_goes): runs that end. What a line does is C25/C57-C60; which label a GOTO looks for is an oracle of the history (C28_goto describes it)."
  },
  {
   "property": "C63",
   "status": "proved",
   "theorems": [
    "C63_reload",
    "C63_unchanged",
    "C63_shorter_refuted",
    "C63_seen_refuted"
   ],
   "note": "Exceptions proved: C63_shorter_refuted, C63_seen_refuted."
  },
  {
   "property": "C64",
   "status": "proved",
   "theorems": [
    "C64_digits",
    "C64_colors",
    "C64_one_refuted",
    "C64_default_refuted"
   ],
   "note": "Exceptions proved: C64_one_refuted, C64_default_refuted. Sequences of the Linux build."
  },
  {
   "property": "C65",
   "status": "proved",
   "theorems": [
    "C65_punctuation",
    "C65_text",
    "C65_state",
    "C65_error",
    "C65_escaped"
   ],
   "note": "The text of the state message (translated) is not modelled."
  },
  {
   "property": "C66",
   "status": "proved",
   "theorems": [
    "C66_assign",
    "C66_exported",
    "C66_list",
    "C66_bare",
    "C66_bare_refuted",
    "C66_prompt",
    "C66_prompt_error"
   ],
   "note": "Removal (empty value) while no procedure runs; C66_bare_refuted is the undefined case. The line editor is the oracle input."
  },
  {
   "property": "C67",
   "status": "proved",
   "theorems": [
    "C67_sequence",
    "C67_integer",
    "C67_compound",
    "C67_float",
    "C67_float_compound",
    "C67_fraction_refuted",
    "C67_errors",
    "C67_syntax_refuted",
    "C67_zero_refuted",
    "C67_shift_refuted",
    "C67_chain",
    "C67_shift_assign_refuted",
    "C67_logical_assign_refuted",
    "C67_words_refuted",
    "C67_precedence_refuted",
    "C67_blank_refuted"
   ],
   "note": "exact statement for integer expressions over an abstract floating point implementation; exceptions as _refuted theorems"
  },
  {
   "property": "C68",
   "status": "proved",
   "theorems": [
    "C68_label",
    "C68_label_missing_refuted",
    "C68_file",
    "C68_extended",
    "C68_program",
    "C68_errors",
    "C68_help_refuted",
    "C68_lost_refuted",
    "C68_self_refuted"
   ],
   "note": "exact statement over an arbitrary behaviour of the called script; exceptions as _refuted theorems; sharing of the script's memory between caller and called script (batch.cpy) is not modelled"
  },
  {
   "property": "C69",
   "status": "proved",
   "theorems": [
    "C69_stdin",
    "C69_file",
    "C69_files",
    "C69_determined",
    "C69_errors",
    "C69_help",
    "C69_unreadable_refuted",
    "C69_option_text_refuted"
   ],
   "note": "exact statement with the search for files as an oracle; which lines an expression describes is C11/C12; exceptions as _refuted theorems"
  },
  {
   "property": "C70",
   "status": "proved",
   "theorems": [
    "C70_expand",
    "C70_template",
    "C70_injection_refuted",
    "C70_define",
    "C70_found",
    "C70_redefine",
    "C70_list",
    "C70_error",
    "C70_help",
    "C70_call",
    "C70_list_blank_refuted"
   ],
   "note": "exact statement; running the text is an oracle; that /F changes the right command needs that no other name is the start of this one (C44); exceptions as _refuted theorems"
  },
  {
   "property": "C71",
   "status": "proved",
   "theorems": [
    "C71_answer",
    "C71_end_refuted"
   ],
   "note": "exact statement; the two reads of unset variables are the outcome Undef, which is distinct"
  },
  {
   "property": "C72",
   "status": "proved",
   "theorems": [
    "C72_copy",
    "C72_append",
    "C72_self_refuted",
    "C72_endless_refuted",
    "C72_transient_refuted",
    "C72_destroyed_refuted"
   ],
   "note": "exact; exceptions as _refuted theorems"
  },
  {
   "property": "C73",
   "status": "proved",
   "theorems": [
    "C73_move",
    "C73_lost_refuted",
    "C73_self_refuted"
   ],
   "note": "exact; exceptions as _refuted theorems"
  },
  {
   "property": "C74",
   "status": "proved",
   "theorems": [
    "C74_into",
    "C74_file",
    "C74_concat",
    "C74_errors",
    "C74_help",
    "C74_move_plus",
    "C74_answer",
    "C74_yes_refuted",
    "C74_two_refuted",
    "C74_plus_asks_refuted",
    "C74_path_refuted",
    "C74_failures"
   ],
   "note": "exact for lines without /R (recursive copies are an oracle); exceptions as _refuted theorems"
  },
  {
   "property": "C75",
   "status": "proved",
   "theorems": [
    "C75_pattern",
    "C75_name",
    "C75_directory",
    "C75_star_name_refuted",
    "C75_plain_end_refuted",
    "C75_pseudo_refuted",
    "C75_star_refuted"
   ],
   "note": "exact; exceptions as _refuted theorems"
  },
  {
   "property": "C76",
   "status": "proved",
   "theorems": [
    "C76_delete",
    "C76_pattern",
    "C76_nothing",
    "C76_prompt_refuted",
    "C76_directory_refuted",
    "C76_readonly_refuted",
    "C76_path_refuted"
   ],
   "note": "exact; exceptions as _refuted theorems; links are not modelled"
  },
  {
   "property": "C77",
   "status": "proved",
   "theorems": [
    "C77_one",
    "C77_several",
    "C77_tree",
    "C77_nothing",
    "C77_status_refuted",
    "C77_files_refuted"
   ],
   "note": "exact; exceptions as _refuted theorems; links are not modelled"
  },
  {
   "property": "C78",
   "status": "proved",
   "theorems": [
    "C78_one",
    "C78_command",
    "C78_no_name_refuted"
   ],
   "note": "exact for paths without . and .. (the model of the file system resolves them by name); exception as _refuted theorem; links and permissions are not modelled"
  },
  {
   "property": "C79",
   "status": "proved",
   "theorems": [
    "C79_rename",
    "C79_errors",
    "C79_replaces_refuted",
    "C79_overflow_refuted"
   ],
   "note": "exact; exceptions as _refuted theorems; links and permissions are not modelled"
  },
  {
   "property": "C80",
   "status": "proved",
   "theorems": [
    "C80_files",
    "C80_file",
    "C80_input",
    "C80_errors",
    "C80_names_refuted",
    "C80_unread_refuted"
   ],
   "note": "exact; exceptions as _refuted theorems; everything written is taken to arrive; links and permissions are not modelled"
  },
  {
   "property": "C81",
   "status": "proved",
   "theorems": [
    "C81_lines",
    "C81_nothing",
    "C81_line_refuted"
   ],
   "note": "what is run is proved, up to the call of pBat_RunCommand; exceptions as _refuted theorem"
  },
  {
   "property": "C82",
   "status": "proved",
   "theorems": [
    "C82_rows",
    "C82_ink",
    "C82_width",
    "C82_blank_refuted",
    "C82_utf8_refuted",
    "C82_escape_refuted",
    "C82_skip_refuted",
    "C82_tab_refuted"
   ],
   "note": "output that is not a console only; exceptions as _refuted theorems"
  },
  {
   "property": "C83",
   "status": "proved",
   "theorems": [
    "C83_files",
    "C83_file",
    "C83_input",
    "C83_errors",
    "C83_unreadable_refuted",
    "C83_path_refuted"
   ],
   "note": "output that is not a console only; exceptions as _refuted theorems"
  },
  {
   "property": "C84",
   "status": "proved",
   "theorems": [
    "C84_candidates",
    "C84_list",
    "C84_tab",
    "C84_case_refuted",
    "C84_exact_refuted",
    "C84_wild_refuted",
    "C84_middle_refuted",
    "C84_width_refuted",
    "C84_quote_refuted"
   ],
   "note": "words without wildcards, in ASCII; exceptions as _refuted theorems"
  },
  {
   "property": "C85",
   "status": "proved",
   "theorems": [
    "C85_edit",
    "C85_ascii",
    "C85_mark_refuted",
    "C85_swap_refuted",
    "C85_nul_refuted",
    "C85_invalid_refuted",
    "C85_eof_refuted"
   ],
   "note": "input that does not fail or come short; the table of combining marks is any set; TAB is C84; exceptions as _refuted theorems"
  },
  {
   "property": "C86",
   "status": "proved",
   "theorems": [
    "C86_history",
    "C86_recall",
    "C86_back",
    "C86_cut_refuted",
    "C86_cancel_refuted",
    "C86_edited_refuted"
   ],
   "note": "exceptions as _refuted theorems"
  },
  {
   "property": "C87",
   "status": "proved",
   "theorems": [
    "C87_told",
    "C87_code",
    "C87_once",
    "C87_ends",
    "C87_alone",
    "C87_blocked_refuted",
    "C87_signal_refuted",
    "C87_script_refuted",
    "C87_zombie_refuted"
   ],
   "note": "calls of the system do not fail but fork, exec and chdir; exceptions as _refuted theorems"
  },
  {
   "property": "C88",
   "status": "proved",
   "theorems": [
    "C88_output",
    "C88_same",
    "C88_prefix",
    "C88_order",
    "C88_no_deadlock",
    "C88_restored",
    "C88_back",
    "C88_unfinished_refuted"
   ],
   "note": "commands are automata that read and write bytes of their own streams; the calls dup, dup2, pipe do not fail for want of descriptors; exception as a _refuted theorem"
  },
  {
   "property": "C89",
   "status": "proved",
   "theorems": [
    "C89_bare",
    "C89_long",
    "C89_none",
    "C89_here",
    "C89_size",
    "C89_size_refuted",
    "C89_root_refuted",
    "C89_device_refuted",
    "C89_wild_refuted"
   ],
   "note": "the dates and the texts of messages are parameters of the model; exceptions as _refuted theorems"
  },
  {
   "property": "C90",
   "status": "proved",
   "theorems": [
    "C90_program",
    "C90_script",
    "C90_builtin",
    "C90_thread",
    "C90_uri",
    "C90_nothing",
    "C90_errors",
    "C90_name_refuted",
    "C90_blank_refuted"
   ],
   "note": "running the program is C87; exceptions as _refuted theorems and the last part of C90_errors; the parameters are those that a second expansion (pBat_GetParamList) leaves as they are"
  },
  {
   "property": "C91",
   "status": "proved",
   "theorems": [
    "C91_script",
    "C91_missing",
    "C91_prompt",
    "C91_command",
    "C91_errors",
    "C91_started_script",
    "C91_started_command",
    "C91_absolute_refuted",
    "C91_started_absolute_refuted",
    "C91_comma_refuted"
   ],
   "note": "pBat_Auto.bat, titles and streams are not modelled; exceptions as _refuted theorems and the last part of C91_errors"
  },
  {
   "property": "C92",
   "status": "proved",
   "theorems": [
    "C92_cd",
    "C92_print",
    "C92_pushd",
    "C92_kept",
    "C92_popd",
    "C92_back",
    "C92_d_refuted",
    "C92_quotes_refuted"
   ],
   "note": "paths up to FILENAME_MAX; exceptions as _refuted theorems"
  },
  {
   "property": "C93",
   "status": "proved",
   "theorems": [
    "C93_copy",
    "C93_isolated",
    "C93_disjoint",
    "C93_waits",
    "C93_setlocal_refuted"
   ],
   "note": "the steps of an instance are loads, stores, allocations and frees through its own variables; that the real code reaches memory in no other way is part of the trusted base; exception as _refuted theorem"
  },
  {
   "property": "C94",
   "status": "proved",
   "theorems": [
    "C94_translated",
    "C94_missing",
    "C94_path",
    "C94_domain",
    "C94_magic_refuted",
    "C94_end_refuted",
    "C94_damaged_refuted",
    "C94_spanish_refuted",
    "C94_locale_refuted"
   ],
   "note": "names of locales below 100, of domains below 100 bytes, files below 2 GB that do not change; exceptions as _refuted theorems"
  },
  {
   "property": "C95",
   "status": "proved",
   "theorems": [
    "C95_waits",
    "C95_key",
    "C95_for_ever",
    "C95_none",
    "C95_rejected",
    "C95_help",
    "C95_count_refuted",
    "C95_second_refuted",
    "C95_nan_refuted"
   ],
   "note": "strtod, the keyboard and the accuracy of nanosleep are outside the model; the time is that asked of nanosleep; exceptions as _refuted theorems; uses the axioms of the real numbers of the standard library"
  },
  {
   "property": "C96",
   "status": "proved",
   "theorems": [
    "C96_program",
    "C96_script",
    "C96_internal",
    "C96_unknown",
    "C96_later",
    "C96_again_refuted",
    "C96_empty_refuted"
   ],
   "note": "what programs and scripts do and return is a parameter; the words must be such that a second expansion leaves them as they are; exceptions as _refuted theorems"
  },
  {
   "property": "C97",
   "status": "proved",
   "theorems": [
    "C97_files",
    "C97_input",
    "C97_missing",
    "C97_short_refuted",
    "C97_pipe_refuted",
    "C97_error_refuted",
    "C97_wide_refuted",
    "C97_kinds_refuted",
    "C97_double_refuted",
    "C97_names_refuted"
   ],
   "note": "x86-64 and glibc's printf for integers and %p; files, read() and printf of floats are parameters; exceptions as _refuted theorems"
  },
  {
   "property": "C98",
   "status": "proved",
   "theorems": [
    "C98_words",
    "C98_once",
    "C98_all",
    "C98_case_refuted",
    "C98_home_refuted"
   ],
   "note": "which files exist, and what dlopen, dlsym and the handler answer, are parameters; exceptions as _refuted theorems"
  },
  {
   "property": "C99",
   "status": "proved",
   "theorems": [
    "C99_blocks",
    "C99_paragraphs",
    "C99_inline",
    "C99_shown",
    "C99_titles",
    "C99_code",
    "C99_words",
    "C99_ends",
    "C99_escape_refuted",
    "C99_titles_refuted",
    "C99_twice_refuted",
    "C99_comments",
    "C99_mark_refuted"
   ],
   "note": "the handler (conversion of encodings) does nothing in the model; the output of pages (Tea_Output.c) is not modelled; exceptions as _refuted theorems"
  },
  {
   "property": "C100",
   "status": "proved",
   "theorems": [
    "C100_title",
    "C100_cls",
    "C100_nothing",
    "C100_ver",
    "C100_pause",
    "C100_help",
    "C100_locale",
    "C100_locale_refuted",
    "C100_pause_refuted",
    "C100_cut_refuted"
   ],
   "note": "lines whose parameters expand without changing the environment (written); console codes and the texts of the help are not modelled; exceptions as _refuted theorems"
  },
  {
   "property": "C101",
   "status": "proved",
   "theorems": [
    "C101_static",
    "C101_forever_refuted",
    "C101_paragraph",
    "C101_exact_refuted",
    "C101_parts_refuted",
    "C101_null_refuted",
    "C101_margins"
   ],
   "note": "one byte per character; the parts of a paragraph are the texts that are shown (marks of emphasis and links are taken as given); exceptions as _refuted theorems"
  },
  {
   "property": "C102",
   "status": "proved",
   "theorems": [
    "C102_escape",
    "C102_document",
    "C102_page",
    "C102_levels",
    "C102_link",
    "C102_quote_refuted",
    "C102_dash_refuted"
   ],
   "note": "body of the page; the head (options, title, files of /H /M /F) is not modelled; documents are read by the model of C99; exceptions as _refuted theorems"
  },
  {
   "property": "C103",
   "status": "proved",
   "theorems": [
    "C103_words",
    "C103_key",
    "C103_offset",
    "C103_name_refuted",
    "C103_case_refuted",
    "C103_wrap_refuted"
   ],
   "note": "Linux build; console, keyboard, mouse and the assignment of numbers are unknown functions or events; exceptions as _refuted theorems"
  },
  {
   "property": "C104",
   "status": "proved",
   "theorems": [
    "C104_text",
    "C104_node",
    "C104_paragraph",
    "C104_backslash_refuted",
    "C104_title_refuted",
    "C104_dash_refuted"
   ],
   "note": "nodes, titles and the beginning of paragraphs; the lines are broken as in C101; exceptions as _refuted theorems"
  },
  {
   "property": "C105",
   "status": "proved",
   "theorems": [
    "C105_colours",
    "C105_lines",
    "C105_forever_refuted",
    "C105_margins"
   ],
   "note": "paragraphs; titles and code are those of C101 between two sequences; a character is one byte; exception as _refuted theorem"
  },
  {
   "property": "C106",
   "status": "proved",
   "theorems": [
    "C106_report",
    "C106_reason_refuted",
    "C106_english",
    "C106_beyond_refuted",
    "C106_kind_refuted"
   ],
   "note": "strerror is a parameter; that isatty sets errno to ENOTTY and that a number cast to a pointer is read back by printf are assumptions of the model; exceptions as _refuted theorems"
  }
 ]
}