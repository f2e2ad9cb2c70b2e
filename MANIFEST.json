{
 "claims": [
  {
   "property": "C01",
   "status": "proved",
   "theorems": [
    "C01_parsing_always_returns"
   ],
   "note": ""
  },
  {
   "property": "C02",
   "status": "proved",
   "theorems": [
    "C02_whole_file",
    "C02_blank_file_rejected"
   ],
   "note": ""
  },
  {
   "property": "C03",
   "status": "proved",
   "theorems": [
    "C03_leading_blanks"
   ],
   "note": ""
  },
  {
   "property": "C04",
   "status": "proved",
   "theorems": [
    "C04_grammar_soundness",
    "C04_expressions",
    "C04_types"
   ],
   "note": ""
  },
  {
   "property": "C05",
   "status": "proved",
   "theorems": [
    "C05_well_formed",
    "C05_binop_operator"
   ],
   "note": ""
  },
  {
   "property": "C06",
   "status": "proved",
   "theorems": [
    "C06_round_trip",
    "C06_range"
   ],
   "note": ""
  },
  {
   "property": "C07",
   "status": "proved",
   "theorems": [
    "C07_reprint",
    "C07_normal_form"
   ],
   "note": ""
  },
  {
   "property": "C08",
   "status": "proved",
   "theorems": [
    "C08_lower_names"
   ],
   "note": ""
  },
  {
   "property": "C09",
   "status": "proved",
   "theorems": [
    "C09_upper_names",
    "C09_module_names"
   ],
   "note": ""
  },
  {
   "property": "C10",
   "status": "proved",
   "theorems": [
    "C10_operators",
    "C10_symbols"
   ],
   "note": ""
  },
  {
   "property": "C11",
   "status": "proved",
   "theorems": [
    "C11_integers",
    "C11_floats"
   ],
   "note": ""
  },
  {
   "property": "C12",
   "status": "proved",
   "theorems": [
    "C12_strings"
   ],
   "note": ""
  },
  {
   "property": "C13",
   "status": "proved",
   "theorems": [
    "C13_characters"
   ],
   "note": ""
  },
  {
   "property": "C14",
   "status": "proved",
   "theorems": [
    "C14_comments"
   ],
   "note": ""
  },
  {
   "property": "C15",
   "status": "proved",
   "theorems": [
    "C15_layout",
    "C15_run_exists_unique"
   ],
   "note": ""
  },
  {
   "property": "C16",
   "status": "proved",
   "theorems": [
    "C16_not_indented",
    "C16_indented"
   ],
   "note": ""
  },
  {
   "property": "C17",
   "status": "proved",
   "theorems": [
    "C17_left_nested",
    "C17_exact"
   ],
   "note": ""
  },
  {
   "property": "C18",
   "status": "proved",
   "theorems": [
    "C18_right_nested",
    "C18_exact"
   ],
   "note": ""
  },
  {
   "property": "C19",
   "status": "proved",
   "theorems": [
    "C19_right_nested"
   ],
   "note": ""
  },
  {
   "property": "C20",
   "status": "proved",
   "theorems": [
    "C20_parentheses",
    "C20_padded",
    "C20_type",
    "C20_function_type"
   ],
   "note": ""
  },
  {
   "property": "C21",
   "status": "proved",
   "theorems": [
    "C21_infix"
   ],
   "note": ""
  },
  {
   "property": "C22",
   "status": "proved",
   "theorems": [
    "C22_exports",
    "C22_module",
    "C22_port_module",
    "C22_effect_module",
    "C22_import"
   ],
   "note": ""
  },
  {
   "property": "C23",
   "status": "proved",
   "theorems": [
    "C23_run",
    "C23_names"
   ],
   "note": ""
  },
  {
   "property": "C24",
   "status": "proved",
   "theorems": [
    "C24_directory",
    "C24_file",
    "C24_quiet",
    "C24_extension"
   ],
   "note": ""
  },
  {
   "property": "C25",
   "status": "proved",
   "theorems": [
    "C25_attached",
    "C25_any_names",
    "C25_refuted"
   ],
   "note": ""
  },
  {
   "property": "C26",
   "status": "proved",
   "theorems": [
    "C26_not_layout",
    "C26_rejected",
    "C26_refuted"
   ],
   "note": ""
  },
  {
   "property": "C27",
   "status": "proved",
   "theorems": [
    "C27_let_entries"
   ],
   "note": ""
  },
  {
   "property": "C28",
   "status": "proved",
   "theorems": [
    "C28_first_character"
   ],
   "note": ""
  },
  {
   "property": "C29",
   "status": "proved",
   "theorems": [
    "C29_expression_depth",
    "C29_type_depth"
   ],
   "note": ""
  },
  {
   "property": "C30",
   "status": "proved",
   "theorems": [
    "C30_progress"
   ],
   "note": ""
  },
  {
   "property": "C31",
   "status": "proved",
   "theorems": [
    "C31_rejected",
    "C31_accepted",
    "C31_layout_needed",
    "C31_example"
   ],
   "note": ""
  },
  {
   "property": "C32",
   "status": "proved",
   "theorems": [
    "C32_type_variables"
   ],
   "note": ""
  },
  {
   "property": "C33",
   "status": "proved",
   "theorems": [
    "C33_completeness",
    "C33_expressions",
    "C33_types",
    "C33_statements",
    "C33_unambiguous"
   ],
   "note": ""
  },
  {
   "property": "C34",
   "status": "proved",
   "theorems": [
    "C34_utf8"
   ],
   "note": ""
  },
  {
   "property": "C35",
   "status": "proved",
   "theorems": [
    "C35_final_line_feed",
    "C35_trailing",
    "C35_accepted"
   ],
   "note": ""
  },
  {
   "property": "C36",
   "status": "proved",
   "theorems": [
    "C36_joining_refuted"
   ],
   "note": ""
  },
  {
   "property": "C37",
   "status": "proved",
   "theorems": [
    "C37_refines",
    "C37_origin",
    "C37_clean",
    "C37_polluted"
   ],
   "note": ""
  },
  {
   "property": "C38",
   "status": "proved",
   "theorems": [
    "C38_tuples",
    "C38_types",
    "C38_not_polynomial"
   ],
   "note": ""
  },
  {
   "property": "C39",
   "status": "proved",
   "theorems": [
    "C39_refines",
    "C39_accepted",
    "C39_error"
   ],
   "note": ""
  },
  {
   "property": "C40",
   "status": "proved",
   "theorems": [
    "C40_size"
   ],
   "note": ""
  },
  {
   "property": "C41",
   "status": "proved",
   "theorems": [
    "C41_joined",
    "C41_printed"
   ],
   "note": ""
  },
  {
   "property": "C42",
   "status": "proved",
   "theorems": [
    "C42_nesting",
    "C42_balanced",
    "C42_alphabet"
   ],
   "note": ""
  },
  {
   "property": "C43",
   "status": "proved",
   "theorems": [
    "C43_tree",
    "C43_dump",
    "C43_check",
    "C43_quiet",
    "C43_printable"
   ],
   "note": ""
  },
  {
   "property": "C44",
   "status": "proved",
   "theorems": [
    "C44_bound",
    "C44_tight"
   ],
   "note": ""
  },
  {
   "property": "C45",
   "status": "proved",
   "theorems": [
    "C45_bound",
    "C45_ends",
    "C45_unbounded"
   ],
   "note": ""
  },
  {
   "property": "C46",
   "status": "proved",
   "theorems": [
    "C46_every_file",
    "C46_quiet",
    "C46_unreadable",
    "C46_only",
    "C46_mounted"
   ],
   "note": ""
  },
  {
   "property": "C47",
   "status": "proved",
   "theorems": [
    "C47_replace",
    "C47_anywhere"
   ],
   "note": ""
  },
  {
   "property": "C48",
   "status": "proved",
   "theorems": [
    "C48_if",
    "C48_lambda"
   ],
   "note": ""
  },
  {
   "property": "C49",
   "status": "proved",
   "theorems": [
    "C49_case",
    "C49_offside"
   ],
   "note": ""
  },
  {
   "property": "C50",
   "status": "proved",
   "theorems": [
    "C50_let",
    "C50_binding",
    "C50_offside"
   ],
   "note": ""
  },
  {
   "property": "C51",
   "status": "proved",
   "theorems": [
    "C51_signature",
    "C51_definition",
    "C51_function",
    "C51_statement",
    "C51_next_line",
    "C51_rejected"
   ],
   "note": ""
  },
  {
   "property": "C52",
   "status": "proved",
   "theorems": [
    "C52_alias",
    "C52_type",
    "C52_port_type",
    "C52_port",
    "C52_names_refuted"
   ],
   "note": ""
  },
  {
   "property": "C53",
   "status": "proved",
   "theorems": [
    "C53_term",
    "C53_list",
    "C53_parentheses",
    "C53_blanks_make_tuples",
    "C53_record",
    "C53_update_needs_blank"
   ],
   "note": ""
  },
  {
   "property": "C54",
   "status": "proved",
   "theorems": [
    "C54_type",
    "C54_argument",
    "C54_annotation",
    "C54_record",
    "C54_parentheses"
   ],
   "note": ""
  },
  {
   "property": "C55",
   "status": "proved",
   "theorems": [
    "C55_parser_satisfies_the_rules",
    "C55_rules_determine_the_parser",
    "C55_unambiguous"
   ],
   "note": ""
  },
  {
   "property": "C56",
   "status": "proved",
   "theorems": [
    "C56_files",
    "C56_expressions",
    "C56_types",
    "C56_every_text_has_lines",
    "C56_lines",
    "C56_one_line"
   ],
   "note": ""
  },
  {
   "property": "C57",
   "status": "proved",
   "theorems": [
    "C57_lets",
    "C57_not_polynomial"
   ],
   "note": ""
  },
  {
   "property": "C58",
   "status": "proved",
   "theorems": [
    "C58_cut",
    "C58_join",
    "C58_any_order",
    "C58_head"
   ],
   "note": ""
  },
  {
   "property": "C59",
   "status": "proved",
   "theorems": [
    "C59_files",
    "C59_expressions",
    "C59_types",
    "C59_exchange",
    "C59_alike"
   ],
   "note": ""
  },
  {
   "property": "C60",
   "status": "proved",
   "theorems": [
    "C60_polynomial",
    "C60_one_polynomial"
   ],
   "note": ""
  },
  {
   "property": "C61",
   "status": "proved",
   "theorems": [
    "C61_together",
    "C61_any_order",
    "C61_edit",
    "C61_head"
   ],
   "note": ""
  },
  {
   "property": "C62",
   "status": "proved",
   "theorems": [
    "C62_comments",
    "C62_rejected",
    "C62_program"
   ],
   "note": ""
  },
  {
   "property": "C63",
   "status": "proved",
   "theorems": [
    "C63_layout",
    "C63_rejected",
    "C63_program"
   ],
   "note": ""
  },
  {
   "property": "C64",
   "status": "proved",
   "theorems": [
    "C64_local",
    "C64_rejected",
    "C64_corrected",
    "C64_unrepaired"
   ],
   "note": ""
  },
  {
   "property": "C65",
   "status": "proved",
   "theorems": [
    "C65_literals",
    "C65_rejected",
    "C65_shape"
   ],
   "note": ""
  },
  {
   "property": "C66",
   "status": "proved",
   "theorems": [
    "C66_removed",
    "C66_local",
    "C66_file"
   ],
   "note": ""
  },
  {
   "property": "C67",
   "status": "proved",
   "theorems": [
    "C67_operators",
    "C67_rejected",
    "C67_shape"
   ],
   "note": ""
  },
  {
   "property": "C68",
   "status": "proved",
   "theorems": [
    "C68_term",
    "C68_type",
    "C68_alone",
    "C68_type_alone",
    "C68_term_instance",
    "C68_type_instance",
    "C68_rejected_instance",
    "C68_operator_needed",
    "C68_comment_needed",
    "C68_closed_needed"
   ],
   "note": ""
  },
  {
   "property": "C69",
   "status": "proved",
   "theorems": [
    "C69_column",
    "C69_anywhere",
    "C69_type_anywhere",
    "C69_instance",
    "C69_line_feed_needed"
   ],
   "note": ""
  },
  {
   "property": "C70",
   "status": "proved",
   "theorems": [
    "C70_lists",
    "C70_rejected",
    "C70_shape"
   ],
   "note": ""
  },
  {
   "property": "C71",
   "status": "proved",
   "theorems": [
    "C71_expression",
    "C71_type",
    "C71_whole",
    "C71_parentheses",
    "C71_list",
    "C71_inside",
    "C71_definition",
    "C71_instance",
    "C71_type_instance",
    "C71_inside_instance",
    "C71_complete_needed",
    "C71_bracket_needed"
   ],
   "note": ""
  },
  {
   "property": "C72",
   "status": "proved",
   "theorems": [
    "C72_phrases",
    "C72_rejected",
    "C72_line",
    "C72_tuples"
   ],
   "note": ""
  },
  {
   "property": "C73",
   "status": "proved",
   "theorems": [
    "C73_same",
    "C73_doubled"
   ],
   "note": ""
  },
  {
   "property": "C74",
   "status": "proved",
   "theorems": [
    "C74_operation",
    "C74_argument",
    "C74_touching",
    "C74_half",
    "C74_rejected",
    "C74_operation_instance",
    "C74_argument_instance",
    "C74_rejected_instance"
   ],
   "note": ""
  },
  {
   "property": "C75",
   "status": "proved",
   "theorems": [
    "C75_phrases",
    "C75_rejected",
    "C75_line",
    "C75_records",
    "C75_same"
   ],
   "note": ""
  },
  {
   "property": "C76",
   "status": "proved",
   "theorems": [
    "C76_statements",
    "C76_expressions",
    "C76_terms",
    "C76_types",
    "C76_targets",
    "C76_two_readings"
   ],
   "note": ""
  },
  {
   "property": "C77",
   "status": "proved",
   "theorems": [
    "C77_files",
    "C77_expressions",
    "C77_types",
    "C77_text",
    "C77_same_tree",
    "C77_words"
   ],
   "note": ""
  },
  {
   "property": "C78",
   "status": "proved",
   "theorems": [
    "C78_check",
    "C78_unused",
    "C78_dump"
   ],
   "note": ""
  },
  {
   "property": "C79",
   "status": "proved",
   "theorems": [
    "C79_words",
    "C79_numerals",
    "C79_underscores"
   ],
   "note": ""
  },
  {
   "property": "C80",
   "status": "proved",
   "theorems": [
    "C80_counts",
    "C80_nesting"
   ],
   "note": ""
  },
  {
   "property": "C81",
   "status": "proved",
   "theorems": [
    "C81_table",
    "C81_word",
    "C81_close",
    "C81_operator",
    "C81_open",
    "C81_block_comments",
    "C81_exact"
   ],
   "note": ""
  },
  {
   "property": "C82",
   "status": "proved",
   "theorems": [
    "C82_neighbours",
    "C82_next",
    "C82_one_line"
   ],
   "note": ""
  },
  {
   "property": "C83",
   "status": "proved",
   "theorems": [
    "C83_accepted",
    "C83_error",
    "C83_stays"
   ],
   "note": ""
  },
  {
   "property": "C84",
   "status": "proved",
   "theorems": [
    "C84_statement",
    "C84_windows",
    "C84_lines"
   ],
   "note": ""
  },
  {
   "property": "C85",
   "status": "proved",
   "theorems": [
    "C85_statement",
    "C85_file",
    "C85_declaration"
   ],
   "note": ""
  },
  {
   "property": "C86",
   "status": "proved",
   "theorems": [
    "C86_statement",
    "C86_file",
    "C86_keyword",
    "C86_sign"
   ],
   "note": ""
  },
  {
   "property": "C87",
   "status": "proved",
   "theorems": [
    "C87_first_word",
    "C87_first_sign",
    "C87_reserved",
    "C87_definition",
    "C87_file"
   ],
   "note": ""
  },
  {
   "property": "C88",
   "status": "proved",
   "theorems": [
    "C88_expression_begins",
    "C88_expression_ends",
    "C88_type_begins",
    "C88_type_ends",
    "C88_statement_begins",
    "C88_definition_ends"
   ],
   "note": ""
  }
 ]
}
