{
 "claims": [
  {
   "property": "C01",
   "status": "proved",
   "theorems": [
    "C01_plan_round_trip",
    "C01_text_is_read_back"
   ],
   "note": "For every plan the text format can carry (plan_clean, a structural description in SpecPlan.v) the formatter reports nothing and the parser returns the plan itself."
  },
  {
   "property": "C02",
   "status": "proved",
   "theorems": [
    "C02_type_round_trip",
    "C02_type_no_errors",
    "C02_types_distinct",
    "C02_read_types_round_trip",
    "C02_unwritable_refuted"
   ],
   "note": "For type_ok types (everything the parser can produce with usable declared names); decimal, varchar, fixedchar, map, struct, variations and keyword-prefixed names do not come back."
  },
  {
   "property": "C03",
   "status": "proved",
   "theorems": [
    "C03_expression_round_trip",
    "C03_measure_round_trip",
    "C03_literal_round_trip",
    "C03_expressions_distinct",
    "C03_expression_quiet"
   ],
   "note": "For the fragment expr_ok; outside it refuted: integral floats, nullable strings, function options, enum arguments, empty conditionals, nested fields (C03_*_refuted)."
  },
  {
   "property": "C04",
   "status": "proved",
   "theorems": [
    "C04_name_round_trip",
    "C04_name_round_trip_only_if",
    "C04_names_distinct"
   ],
   "note": "Round trip for exactly the names whose escapes are invertible (name_ok)."
  },
  {
   "property": "C05",
   "status": "proved",
   "theorems": [
    "C05_string_round_trip",
    "C05_string_other_changes",
    "C05_quoted_text_never_panics"
   ],
   "note": "Strings with characters that escape_debug writes as \\0 or \\u{..} do not come back; the theorem is an equivalence."
  },
  {
   "property": "C06",
   "status": "proved",
   "theorems": [
    "C06_integer_round_trip",
    "C06_narrow_integers",
    "C06_narrow_refuted"
   ],
   "note": "Exact round trip for every value the fields hold; texts ascribed to i8/i16/i32 are accepted beyond the range and stored modulo 2^32."
  },
  {
   "property": "C07",
   "status": "proved",
   "theorems": [
    "C07_date_round_trip",
    "C07_dates_distinct",
    "C07_calendar",
    "C07_out_of_range_panics"
   ],
   "note": "Over the supported range of NaiveDate; the calendar is pinned by the next-day theorem; days outside the range crash the formatter."
  },
  {
   "property": "C08",
   "status": "proved",
   "theorems": [
    "C08_time_round_trip",
    "C08_timestamp_round_trip",
    "C08_time_reported",
    "C08_timestamp_reported",
    "C08_pico_warns",
    "C08_no_other_warning",
    "C08_pico_refuted",
    "C08_leap_second_refuted"
   ],
   "note": "chrono's formatting and parsing are modelled from its documentation. Precision 12 does not come back; a leap second is read as a value outside the day."
  },
  {
   "property": "C09",
   "status": "proved",
   "theorems": [
    "C09_interval_round_trip",
    "C09_interval_normalized",
    "C09_unit_mismatch",
    "C09_interval_reported",
    "C09_old_form_refuted"
   ],
   "note": "The deprecated microseconds form comes back as precision 6."
  },
  {
   "property": "C10",
   "status": "proved",
   "theorems": [
    "C10_extensions_round_trip",
    "C10_read_tables_writable",
    "C10_read_write_read",
    "C31_C10_preamble",
    "C10_urn_with_space_refuted"
   ],
   "note": "all sorted tables with u32 anchors, space-free one-line URNs and grammatical names; every table the parser produces is of this kind"
  },
  {
   "property": "C11",
   "status": "proved",
   "theorems": [
    "C11_first_declaration_wins",
    "C11_errors_iff_not_clean"
   ],
   "note": ""
  },
  {
   "property": "C12",
   "status": "proved",
   "theorems": [
    "C12_function_reference_round_trip",
    "C12_never_refuted"
   ],
   "note": "For anchors shown when required or always; refuted for Never."
  },
  {
   "property": "C13",
   "status": "proved",
   "theorems": [
    "C13_resolution_unambiguous",
    "C13_anchor_decides"
   ],
   "note": ""
  },
  {
   "property": "C14",
   "status": "proved",
   "theorems": [
    "C14_section_order",
    "C14_text_before_headers"
   ],
   "note": "For any grammar of plan lines."
  },
  {
   "property": "C15",
   "status": "proved",
   "theorems": [
    "C15_tree_round_trip",
    "C15_accepted_depths",
    "C15_text_round_trip"
   ],
   "note": "Tree builder is inverse to flattening (iff); accepted depth sequences characterised exactly; also at text level."
  },
  {
   "property": "C16",
   "status": "proved",
   "theorems": [
    "C16_no_line_lost"
   ],
   "note": "For any grammar of plan lines; a line with its continuation lines counts as one."
  },
  {
   "property": "C17",
   "status": "proved",
   "theorems": [
    "C17_addendum_owner",
    "C17_addenda_of_relation",
    "C17_addenda_kept"
   ],
   "note": "Attachment in the tree, and for every accepted text each relation holds exactly the details of its addendum lines, in order (one enhancement at most, by the type of the relation)."
  },
  {
   "property": "C18",
   "status": "proved",
   "theorems": [
    "C18_chunks_lose_nothing",
    "C18_parser_policy",
    "C18_every_text_is_chunked"
   ],
   "note": "Any sequence of merges the cursor interface allows."
  },
  {
   "property": "C19",
   "status": "proved",
   "theorems": [
    "C19_output_mapping",
    "C19_read_mapping"
   ],
   "note": "For inputs of at most 2^31 columns (indices are i32)."
  },
  {
   "property": "C20",
   "status": "proved",
   "theorems": [
    "C20_project_mapping"
   ],
   "note": "For at most 2^31 columns."
  },
  {
   "property": "C21",
   "status": "proved",
   "theorems": [
    "C21_grouping_sets",
    "C21_output_mapping"
   ],
   "note": "For at most 2^31 columns."
  },
  {
   "property": "C22",
   "status": "proved",
   "theorems": [
    "C22_child_counts",
    "C22_inputs_kept"
   ],
   "note": "Every relation of an accepted plan has the number of inputs its kind demands, and every node of the indentation tree keeps exactly its child nodes as inputs."
  },
  {
   "property": "C23",
   "status": "partial",
   "theorems": [
    "C23_column_counts_partial",
    "C23_column_counts_refuted"
   ],
   "note": "False for direct semi, anti, single and mark joins (the parser counts both inputs); proved for all other trees."
  },
  {
   "property": "C24",
   "status": "proved",
   "theorems": [
    "C24_lookup_by_name",
    "C24_register_atomic"
   ],
   "note": "All registration histories; example ex_accepts."
  },
  {
   "property": "C25",
   "status": "proved",
   "theorems": [
    "C25_decode_consistent",
    "C25_parse_then_decode"
   ],
   "note": "All registration histories and payloads."
  },
  {
   "property": "C26",
   "status": "proved",
   "theorems": [
    "C26_no_argument_ignored"
   ],
   "note": "Handlers are access programs (any interleaving of accesses)."
  },
  {
   "property": "C27",
   "status": "proved",
   "theorems": [
    "C27_tokens_reported",
    "C27_no_silent_token"
   ],
   "note": "Every placeholder written stands for an error of its own among those reported; in which order they are reported is not modelled."
  },
  {
   "property": "C28",
   "status": "partial",
   "theorems": [
    "C28_parse_crashes_partial",
    "C28_crash_sites",
    "C28_parse_total_refuted"
   ],
   "note": "Totality is false: the reader panics on some texts. Proved instead: every panic of parse carries one of eleven listed labels or comes from an extension handler, each listed label is reached by some text (exact list, for a registry without handlers), and a refutation of totality. Exactly which texts panic with which label is C64."
  },
  {
   "property": "C29",
   "status": "partial",
   "theorems": [
    "C29_format_crashes_partial",
    "C29_crash_found",
    "C29_no_crash",
    "C29_no_crash_default",
    "C29_outside_crashes",
    "C29_format_crashes_refuted"
   ],
   "note": "False as stated: a date literal outside chrono's calendar crashes (C29_outside_crashes, for every such day). Proved: the only crashes are those dates, occurring as literals in the plan or in what a handler returns, and crashes inside a handler (C29_crash_found); a plan whose dates are all in the calendar is formatted without crash (C29_no_crash). C66 says exactly which plans crash."
  },
  {
   "property": "C30",
   "status": "partial",
   "theorems": [
    "C30_fully_understood_refuted",
    "C30_rest_ignored",
    "C30_text_rest_ignored",
    "C30_virtual_complete"
   ],
   "note": "False as claimed, and refuted on a whole text. Proved: for virtual tables nothing but spaces may follow the closing bracket; for every other accepted line the reader never looks past its closing bracket, so any text or continuation lines after it are ignored, in a line and in a whole plan text."
  },
  {
   "property": "C31",
   "status": "proved",
   "theorems": [
    "C31_version_round_trip",
    "C31_C10_preamble",
    "C31_producer_with_newline_refuted"
   ],
   "note": "all u32 numbers; strings come back trimmed; a producer with a line break does not come back"
  },
  {
   "property": "C32",
   "status": "partial",
   "theorems": [
    "C32_parse_layout",
    "C32_layout",
    "C32_blank_line_in_group_refuted",
    "C32_blank_line_in_table_refuted"
   ],
   "note": "Proved for all texts and all changes outside groups of continuation lines. A blank line inside such a group does matter (refuted with witnesses); layouts inside virtual tables are the subject of C38."
  },
  {
   "property": "C33",
   "status": "proved",
   "theorems": [
    "C33_fetch_bounds",
    "C33_fetch_names"
   ],
   "note": "Bounds for whole texts, names for every accepted line."
  },
  {
   "property": "C34",
   "status": "proved",
   "theorems": [
    "C34_precision_bounds"
   ],
   "note": ""
  },
  {
   "property": "C35",
   "status": "partial",
   "theorems": [
    "C35_modes_agree_partial",
    "C35_modes_agree_refuted"
   ],
   "note": "False as stated: the verbose options write a fetch limit with its type, which the parser rejects (refuted with a witness). Proved for all plans carried by the verbose options."
  },
  {
   "property": "C36",
   "status": "proved",
   "theorems": [
    "C36_parsed_plans_stable",
    "C36_parsed_kept_writable",
    "C36_formatting_is_stable",
    "C36_parsed_writable",
    "C36_default_version_refuted",
    "C36_columns_refuted",
    "C36_string_escape_refuted",
    "C36_name_escape_refuted",
    "C36_leap_second_refuted",
    "C36_type_name_refuted",
    "C36_project_order_refuted",
    "C36_grouping_cast_refuted",
    "C36_empty_sort_refuted",
    "C36_verbose_fetch_refuted",
    "C36_narrow_join_refuted"
   ],
   "note": "A parsed plan is stable under the conditions of SpecStable.plan_kept, which only name what the parser does not ensure itself. The refutations show texts that parse but whose plans do not come back, one for each kind of condition."
  },
  {
   "property": "C37",
   "status": "partial",
   "theorems": [
    "C37_parse_error_line",
    "C37_relation_error",
    "C37_error_line",
    "C37_initial_line_refuted",
    "C37_first_section_refuted"
   ],
   "note": "Proved for all rejected texts, including errors found while relations are built. In front of the first section the indentation is reported instead of the line (refuted with a witness). C65 says exactly which line is reported."
  },
  {
   "property": "C38",
   "status": "proved",
   "theorems": [
    "C38_virtual_layouts"
   ],
   "note": "Any two layouts of a table, with LF or CRLF, at any place of any text parse alike."
  },
  {
   "property": "C39",
   "status": "proved",
   "theorems": [
    "C39_join_columns"
   ],
   "note": "Join widths as documented in GRAMMAR.md l.1172-1179."
  },
  {
   "property": "C40",
   "status": "proved",
   "theorems": [
    "C40_pool_files",
    "C40_no_duplicates",
    "C40_failures",
    "C40_json_read"
   ],
   "note": "The pool is the core files followed by the first extra file of each new name; building fails exactly if a set does not decode or the pool is refused. Decoding and the pool's own checks are parameters."
  },
  {
   "property": "C41",
   "status": "proved",
   "theorems": [
    "C41_detected_format",
    "C41_named_format",
    "C41_frame",
    "C41_text_written",
    "C41_success_means_complete",
    "C41_text_read",
    "C41_validate"
   ],
   "note": "UTF-8 is modelled; JSON, YAML, protobuf and lower-casing are parameters; paths are Unix paths and name distinct files."
  },
  {
   "property": "C42",
   "status": "partial",
   "theorems": [
    "C42_input_kept",
    "C42_missing_input",
    "C42_in_place",
    "C42_in_place_refuted",
    "C42_failure_keeps_output_refuted"
   ],
   "note": "Kept: the input when it is another file, and everything when the input is missing. False: the output file is emptied before the input is read, so a failed conversion empties it and validating in place always replaces the plan by the empty one and reports success."
  },
  {
   "property": "C43",
   "status": "partial",
   "theorems": [
    "C43_passed_over",
    "C43_parsed_is_visible",
    "C43_clean_plans_told_apart",
    "C43_silent_loss_refuted",
    "C43_missing_input_refuted"
   ],
   "note": "False as stated: C43_silent_loss_refuted and C43_missing_input_refuted give plans that are formatted without any error and whose filter, measure filter, nested field, phase, hints or missing input are lost. Proved instead: text and errors depend on nothing but visible_plan (all the fields passed over, listed in SpecVisible.v), parsing never fills in such a field, and clean plans with the same text are equal."
  },
  {
   "property": "C44",
   "status": "partial",
   "theorems": [
    "C44_registered",
    "C44_messages_kept",
    "C44_hint_arguments",
    "C44_plan_hint_arguments",
    "C44_blob_arguments",
    "C44_written",
    "C44_message_survives",
    "C44_hint_survives",
    "C44_writable",
    "C44_varints",
    "C44_unknown_strategy_refuted",
    "C44_bytes_refuted"
   ],
   "note": "The exact acceptance condition of each handler, the text it writes, and the return of every message are proved over a model of the protobuf wire format. Refuted parts: an unknown strategy number is written as Unspecified (and comes back so: C44_hint_survives says exactly what comes back), and non-canonical bytes are re-encoded."
  },
  {
   "property": "C45",
   "status": "partial",
   "theorems": [
    "C45_deprecated_groupings",
    "C45_first_set_empty_refuted"
   ],
   "note": "Proved for all plans when the first set is not empty. Refuted when it is: all expressions of the other sets are dropped in silence."
  },
  {
   "property": "C46",
   "status": "partial",
   "theorems": [
    "C46_join_written",
    "C46_set_written",
    "C46_sort_written",
    "C46_read",
    "C46_clustered_refuted"
   ],
   "note": "Writing and reading proved against the protobuf enumerations. Refuted part: the sort direction Clustered is written but not in the grammar."
  },
  {
   "property": "C47",
   "status": "partial",
   "theorems": [
    "C47_named_arguments",
    "C47_duplicates_refuted"
   ],
   "note": "Exactly what reaches the handler is proved; that nothing is lost is refuted by repeated names."
  },
  {
   "property": "C48",
   "status": "proved",
   "theorems": [
    "C48_decoding",
    "C48_encoding",
    "C48_unambiguous",
    "C48_unknown_fields",
    "C48_hint_bytes",
    "C48_plan_hint_bytes",
    "C48_blob_bytes"
   ],
   "note": "The wire format is specified in SpecWire.v from the protobuf documentation; prost's decoder is modelled from memory (its source is not in the sandbox)."
  },
  {
   "property": "C49",
   "status": "proved",
   "theorems": [
    "C49_extension_names"
   ],
   "note": "HashMap iteration order is irrelevant: the result is determined by its set of names."
  },
  {
   "property": "C50",
   "status": "proved",
   "theorems": [
    "C50_schema",
    "C50_columns_back",
    "C50_schema_back",
    "C50_schema_columns"
   ],
   "note": ""
  },
  {
   "property": "C51",
   "status": "proved",
   "theorems": [
    "C51_grammar_read",
    "C51_one_answer",
    "C51_lines",
    "C51_declarations",
    "C51_durations",
    "C51_parts"
   ],
   "note": "Grammar text read by a model of pest's notation; readers equal the grammar's rules on every input."
  },
  {
   "property": "C52",
   "status": "proved",
   "theorems": [
    "C52_expressions",
    "C52_scalars",
    "C52_references"
   ],
   "note": "for every text the argument grammar accepts"
  },
  {
   "property": "C53",
   "status": "partial",
   "theorems": [
    "C53_indent",
    "C53_threshold",
    "C53_rows",
    "C53_binaries",
    "C53_literal_types",
    "C53_null_types",
    "C53_anchors",
    "C53_emit_refuted"
   ],
   "note": "show_emit does not show the mapping: two plans with different mappings have the same text (C53_emit_refuted)"
  },
  {
   "property": "C54",
   "status": "proved",
   "theorems": [
    "C54_types",
    "C54_literals",
    "C54_expressions",
    "C54_arguments",
    "C54_lines",
    "C54_trees",
    "C54_plan_trees",
    "C54_one_meaning",
    "C54_white_space"
   ],
   "note": "Texts of floating point numbers are read by the parameter Floats; calendar and rounding of chrono are specified in SpecMeaning.v."
  },
  {
   "property": "C55",
   "status": "proved",
   "theorems": [
    "C55_texts",
    "C55_one_plan",
    "C55_no_plan",
    "C55_written_texts",
    "C55_declaration_order"
   ],
   "note": "text_means (SpecText.v) is a relation between texts and plans, defined without the readers; parse computes exactly it"
  },
  {
   "property": "C56",
   "status": "proved",
   "theorems": [
    "C56_types",
    "C56_literals",
    "C56_expressions",
    "C56_arguments",
    "C56_measures",
    "C56_names",
    "C56_references",
    "C56_complaints",
    "C56_one_text"
   ],
   "note": "Exact specification of the notation of types, literals, expressions and aggregate functions; Display of floating point numbers is a parameter."
  },
  {
   "property": "C57",
   "status": "proved",
   "theorems": [
    "C57_relations",
    "C57_plan_relations",
    "C57_plans",
    "C57_complaints",
    "C57_one_text",
    "C57_depth"
   ],
   "note": "Exact agreement of the writers of relations and plans with a separate definition of the layout; complaints occur exactly for plans without a text."
  },
  {
   "property": "C58",
   "status": "proved",
   "theorems": [
    "C58_registrations_read",
    "C58_registrations_written",
    "C58_registration_order",
    "C58_declarations_read",
    "C58_declarations_written",
    "C58_declaration_order_written"
   ],
   "note": "By monotonicity of the specifications of meaning and layout in the table and the registry; the condition on base names is shown to be needed."
  },
  {
   "property": "C59",
   "status": "proved",
   "theorems": [
    "C59_marks",
    "C59_seen",
    "C59_expressions",
    "C59_alike",
    "C59_relations"
   ],
   "note": "Errors are compared as multisets, because the model reports those of unsupported relations in another place of the list than the code."
  },
  {
   "property": "C60",
   "status": "proved",
   "theorems": [
    "C60_counted",
    "C60_every_line",
    "C60_factored",
    "C60_calls",
    "C60_lists",
    "C60_polynomial_refuted",
    "C60_written"
   ],
   "note": "A finding: pest does not remember results, and expression tries if_then before function_call, type tries list_type before user_defined_type."
  },
  {
   "property": "C61",
   "status": "proved",
   "theorems": [
    "C61_answers",
    "C61_depth",
    "C61_work",
    "C61_casts",
    "C61_constant_refuted",
    "C61_written"
   ],
   "note": "every rule answers on every text; depth at most 8(n+1), work at most 76^(n+1), and no constant bounds the depth"
  },
  {
   "property": "C62",
   "status": "proved",
   "theorems": [
    "C62_parsed_complete",
    "C62_complete_complaints",
    "C62_parsed_complaints",
    "C62_plain_complaints",
    "C62_each_met"
   ],
   "note": "Completeness of parsed plans, the possible complaints with their causes, and a parsed text for each."
  },
  {
   "property": "C63",
   "status": "proved",
   "theorems": [
    "C63_blocks",
    "C63_single",
    "C63_order",
    "C63_inputs",
    "C63_kept"
   ],
   "note": "Blocks at the level of texts; inputs at the level of trees of lines (C15 gives the tree of a text). C63_kept: what is put in place stands in the plan."
  },
  {
   "property": "C64",
   "status": "proved",
   "theorems": [
    "C64_texts",
    "C64_types",
    "C64_expressions",
    "C64_one_outcome",
    "C64_filters"
   ],
   "note": "text_crashes (SpecCrashes.v) says when reading crashes, in terms of the meanings of SpecMeaning.v and SpecText.v and without the readers; stack overflow is not modelled"
  },
  {
   "property": "C65",
   "status": "proved",
   "theorems": [
    "C65_texts",
    "C65_one_outcome",
    "C65_lines_before_relations"
   ],
   "note": "exact line and kind of complaint for every refused text"
  },
  {
   "property": "C66",
   "status": "proved",
   "theorems": [
    "C66_crashes",
    "C66_no_crash",
    "C66_options",
    "C66_show_emit"
   ],
   "note": "exact in both directions; the model lists every crash in what is written, the program stops at the first one"
  },
  {
   "property": "C67",
   "status": "proved",
   "theorems": [
    "C67_errors",
    "C67_no_errors",
    "C67_shown",
    "C67_options",
    "C67_show_emit",
    "C67_lookups",
    "C67_declarations",
    "C67_declared"
   ],
   "note": "exact; wording, order and number of the errors are not modelled"
  },
  {
   "property": "C68",
   "status": "proved",
   "theorems": [
    "C68_handlers",
    "C68_no_messages",
    "C68_parse"
   ],
   "note": "for all registries, options, plans and texts"
  }
 ]
}
