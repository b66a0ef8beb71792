{
 "claims": [
  {
   "property": "C01",
   "status": "proved",
   "theorems": [
    "C01_reader_answers",
    "C01_reader_hands_out_source"
   ],
   "note": "every answer of every history of lookahead/next calls is the expected source character"
  },
  {
   "property": "C02",
   "status": "proved",
   "theorems": [
    "C02_next_terminates",
    "C02_progress",
    "C02_eof_is_final"
   ],
   "note": ""
  },
  {
   "property": "C03",
   "status": "proved",
   "theorems": [
    "C03_offsets",
    "C03_slice",
    "C03_order"
   ],
   "note": "layout relation plus its slice and order corollaries"
  },
  {
   "property": "C04",
   "status": "proved",
   "theorems": [
    "C04_token_lines",
    "C04_error_lines"
   ],
   "note": ""
  },
  {
   "property": "C05",
   "status": "proved",
   "theorems": [
    "C05_trivia_is_irrelevant"
   ],
   "note": ""
  },
  {
   "property": "C06",
   "status": "proved",
   "theorems": [
    "C06_longest_match",
    "C06_shift_assign_refuted"
   ],
   "note": "the unrestricted claim fails for >>= (refuted theorem)"
  },
  {
   "property": "C07",
   "status": "proved",
   "theorems": [
    "C07_round_trip",
    "C07_from_spelling",
    "C07_failure"
   ],
   "note": ""
  },
  {
   "property": "C08",
   "status": "proved",
   "theorems": [
    "C08_words",
    "C08_kinds"
   ],
   "note": "assumes ucd_sane: the ucd crate takes no white space, line terminator or ASCII non-letter for an identifier start"
  },
  {
   "property": "C09",
   "status": "proved",
   "theorems": [
    "C09_quoted_text",
    "C09_verbatim"
   ],
   "note": "assumes ucd_sane"
  },
  {
   "property": "C10",
   "status": "proved",
   "theorems": [
    "C10_decimal",
    "C10_radix",
    "C10_sound",
    "C10_zero_exponent_refuted"
   ],
   "note": "assumes ucd_sane; 0e5 refutes the unrestricted claim"
  },
  {
   "property": "C11",
   "status": "proved",
   "theorems": [
    "C11_template_pieces",
    "C11_matching_brace"
   ],
   "note": ""
  },
  {
   "property": "C12",
   "status": "proved",
   "theorems": [
    "C12_regexp"
   ],
   "note": ""
  },
  {
   "property": "C13",
   "status": "proved",
   "theorems": [
    "C13_panics_confined"
   ],
   "note": ""
  },
  {
   "property": "C38",
   "status": "proved",
   "theorems": [
    "C38_token_attributes"
   ],
   "note": ""
  },
  {
   "property": "C14",
   "status": "proved",
   "theorems": [
    "C14_script_terminates",
    "C14_module_terminates"
   ],
   "note": "native stack exhaustion is outside the model"
  },
  {
   "property": "C15",
   "status": "proved",
   "theorems": [
    "C15_script_reads_everything",
    "C15_module_reads_everything"
   ],
   "note": ""
  },
  {
   "property": "C16",
   "status": "proved",
   "theorems": [
    "C16_script_root",
    "C16_module_root"
   ],
   "note": ""
  },
  {
   "property": "C26",
   "status": "proved",
   "theorems": [
    "C26_expressions_keep_context",
    "C26_statements_keep_context"
   ],
   "note": ""
  },
  {
   "property": "C27",
   "status": "proved",
   "theorems": [
    "C27_semicolon_insertion",
    "C27_advance"
   ],
   "note": ""
  },
  {
   "property": "C28",
   "status": "proved",
   "theorems": [
    "C28_script_panics",
    "C28_module_panics"
   ],
   "note": "every listed panic has a computed witness"
  },
  {
   "property": "C17",
   "status": "proved",
   "theorems": [
    "C17_return_in_function"
   ],
   "note": ""
  },
  {
   "property": "C18",
   "status": "proved",
   "theorems": [
    "C18_continue_in_loop",
    "C18_break_in_loop_or_switch",
    "C18_same_function_refuted"
   ],
   "note": "the loop may be outside the function (refuted theorem)"
  },
  {
   "property": "C19",
   "status": "proved",
   "theorems": [
    "C19_no_with",
    "C19_no_labelled_function",
    "C19_module_is_strict"
   ],
   "note": ""
  },
  {
   "property": "C20",
   "status": "proved",
   "theorems": [
    "C20_assignment",
    "C20_update",
    "C20_for_in",
    "C20_for_of",
    "C20_array_element",
    "C20_property",
    "C20_pattern_expression",
    "C20_shorthand_refuted"
   ],
   "note": "shorthand properties are not checked by the code (refuted theorem)"
  },
  {
   "property": "C21",
   "status": "proved",
   "theorems": [
    "C21_operands",
    "C21_conditional_test",
    "C21_unary_operand",
    "C21_modulo_refuted",
    "C21_arrow_refuted"
   ],
   "note": "two deviations from ECMAScript, shown as refuted theorems"
  },
  {
   "property": "C22",
   "status": "proved",
   "theorems": [
    "C22_rest_last",
    "C22_no_rest_in_array_assignment"
   ],
   "note": ""
  },
  {
   "property": "C23",
   "status": "proved",
   "theorems": [
    "C23_try"
   ],
   "note": ""
  },
  {
   "property": "C24",
   "status": "proved",
   "theorems": [
    "C24_one_default"
   ],
   "note": ""
  },
  {
   "property": "C25",
   "status": "proved",
   "theorems": [
    "C25_initialised"
   ],
   "note": ""
  },
  {
   "property": "C29",
   "status": "proved",
   "theorems": [
    "C29_vocabulary",
    "C29_no_static_method"
   ],
   "note": ""
  },
  {
   "property": "C31",
   "status": "proved",
   "theorems": [
    "C31_template",
    "C31_tagged"
   ],
   "note": ""
  },
  {
   "property": "C32",
   "status": "proved",
   "theorems": [
    "C32_power"
   ],
   "note": ""
  },
  {
   "property": "C34",
   "status": "proved",
   "theorems": [
    "C34_spans",
    "C34_error_line",
    "C34_order_refuted"
   ],
   "note": "start after end is possible (refuted theorem)"
  },
  {
   "property": "C35",
   "status": "proved",
   "theorems": [
    "C35_object_property",
    "C35_method",
    "C35_pattern_property",
    "C35_getter_refuted"
   ],
   "note": ""
  },
  {
   "property": "C36",
   "status": "proved",
   "theorems": [
    "C36_top_level",
    "C36_script",
    "C36_module",
    "C36_root_only"
   ],
   "note": ""
  },
  {
   "property": "C39",
   "status": "proved",
   "theorems": [
    "C39_positions",
    "C39_all_positions"
   ],
   "note": ""
  },
  {
   "property": "C40",
   "status": "proved",
   "theorems": [
    "C40_operators"
   ],
   "note": ""
  },
  {
   "property": "C41",
   "status": "proved",
   "theorems": [
    "C41_yield",
    "C41_await"
   ],
   "note": ""
  },
  {
   "property": "C42",
   "status": "proved",
   "theorems": [
    "C42_names",
    "C42_properties"
   ],
   "note": ""
  },
  {
   "property": "C30",
   "status": "proved",
   "theorems": [
    "C30_objects",
    "C30_positions",
    "C30_complete",
    "C30_form",
    "C30_alias",
    "C30_table_total",
    "C30_script",
    "C30_module",
    "C30_boolean_refuted",
    "C30_property_positions_refuted"
   ],
   "note": "serde and serde_json are represented by the serialised form they are specified to produce"
  },
  {
   "property": "C43",
   "status": "proved",
   "theorems": [
    "C43_script",
    "C43_module",
    "C43_answers"
   ],
   "note": "for every escaping table of the Rust standard library"
  },
  {
   "property": "C46",
   "status": "proved",
   "theorems": [
    "C46_display",
    "C46_debug",
    "C46_quoted",
    "C46_display_position_refuted"
   ],
   "note": "Display text does not contain the position (refuted theorem)"
  },
  {
   "property": "C44",
   "status": "proved",
   "theorems": [
    "C44_script",
    "C44_module"
   ],
   "note": "the grammar is SpecSpell.v; places where the code departs from the language are marked defect there"
  },
  {
   "property": "C33",
   "status": "proved",
   "theorems": [
    "C33_names",
    "C33_rejects",
    "C33_accepts",
    "C33_parameters",
    "C33_parameters_rejected",
    "C33_parameters_accepted",
    "C33_default_refuted",
    "C33_literal_default_refuted",
    "C33_member_refuted",
    "C33_array_default_refuted"
   ],
   "note": "in debug builds an empty array literal among the parameters panics instead (P_PatternUnderflow); the defaults of shorthand properties and of destructured parameters are treated as the code does, marked defect in SpecNames.v and shown by the _refuted theorems"
  },
  {
   "property": "C37",
   "status": "proved",
   "theorems": [
    "C37_round_trip",
    "C37_round_trip_module",
    "C37_only_parens",
    "C37_no_parens"
   ],
   "note": "assumes the ucd tables are sane (a space does not continue an identifier)"
  },
  {
   "property": "C45",
   "status": "proved",
   "theorems": [
    "C45_script",
    "C45_module",
    "C45_one_meaning",
    "C45_postfix_refuted",
    "C45_slash_refuted",
    "C45_return_refuted",
    "C45_switch_refuted",
    "C45_export_list_refuted",
    "C45_export_as_refuted",
    "C45_export_from_refuted",
    "C45_bare_import_refuted"
   ],
   "note": "the fragment is SpecGrammar.v; it covers classes, generators, async functions, binding patterns, destructuring assignment, arrow parameter patterns, regular expressions, (tagged) templates, imports and exports; it leaves out the places where the code rejects correct programs or gives them a wrong tree (eight of them are the _refuted theorems)"
  },
  {
   "property": "C47",
   "status": "proved",
   "theorems": [
    "C47_module_is_script",
    "C47_same_json",
    "C47_rejected_script",
    "C47_converse_refuted"
   ],
   "note": "the converse is false, as the language demands (with statements)"
  },
  {
   "property": "C48",
   "status": "proved",
   "theorems": [
    "C48_script",
    "C48_module",
    "C48_script_converse",
    "C48_module_converse",
    "C48_empty_refuted"
   ],
   "note": "the empty source is the one exception, in builds with overflow checks"
  },
  {
   "property": "C49",
   "status": "proved",
   "theorems": [
    "C49_script",
    "C49_module",
    "C49_joined_refuted",
    "C49_breaks_refuted"
   ],
   "note": "lines and columns kept; what may follow a token text is SpecRelay.after (a separator or the same first character as before); the number of line breaks in a gap matters because of a defect of the look-ahead (C49_breaks_refuted)"
  },
  {
   "property": "C50",
   "status": "proved",
   "theorems": [
    "C50_errors"
   ],
   "note": "SpecBlame.explains lists for every kind of error what it may be reported at; lines are exact unless a token async, get or set precedes (C50_look_ahead shows the defect)"
  },
  {
   "property": "C51",
   "status": "proved",
   "theorems": [
    "C51_spans"
   ],
   "note": "C51_too_long shows the two defects of spans"
  },
  {
   "property": "C52",
   "status": "proved",
   "theorems": [
    "C52_tokens",
    "C52_errors",
    "C52_length"
   ],
   "note": "columns restart at every token (defect, C52_not_in_line)"
  },
  {
   "property": "C53",
   "status": "proved",
   "theorems": [
    "C53_script",
    "C53_module"
   ],
   "note": "the same grammar as C44 (SpecSpell.v) with claims about spans; which parts have one is seen there; C53_compound shows that compound parts have none"
  },
  {
   "property": "C54",
   "status": "proved",
   "theorems": [
    "C54_script",
    "C54_module",
    "C54_script_converse",
    "C54_module_converse",
    "C54_script_panic",
    "C54_module_panic"
   ],
   "note": "the converse and the panic part exclude the empty source in checked builds, which panics (C48_empty_refuted); which panic it is is not claimed to be the same"
  },
  {
   "property": "C55",
   "status": "proved",
   "theorems": [
    "C55_script",
    "C55_module"
   ],
   "note": "the error at a token is reported only after the token behind it was read, so that token belongs to those that matter; witnesses for the three ways to stop"
  },
  {
   "property": "C56",
   "status": "proved",
   "theorems": [
    "C56_script",
    "C56_module",
    "C56_tested_script",
    "C56_tested_module",
    "C56_release_script",
    "C56_release_module",
    "C56_differ_refuted"
   ],
   "note": "SpecBuild.overflow lists the three overflow panics; C56_differ_refuted shows that each occurs and that the other build accepts the source"
  },
  {
   "property": "C57",
   "status": "proved",
   "theorems": [
    "C57_script",
    "C57_module",
    "C57_ascii_script",
    "C57_ascii_module",
    "C57_disagree_refuted"
   ],
   "note": "the two tables are assumed right about ASCII (SpecUcd.ascii_right)"
  },
  {
   "property": "C58",
   "status": "proved",
   "theorems": [
    "C58_script",
    "C58_module",
    "C58_only_parens",
    "C58_no_parens",
    "C58_unambiguous"
   ],
   "note": "the abstract syntax leaves out generators, templates, regular expressions, destructuring patterns, getters/setters/methods in objects, import/export; identifier, operator and placement conditions are SpecPrint.proper; assumes the ucd tables are sane and that a space does not continue a name"
  },
  {
   "property": "C59",
   "status": "proved",
   "theorems": [
    "C59_size",
    "C59_depth",
    "C59_all"
   ],
   "note": "parts are those of SpecTree (nodes, declarators, properties, elements, patterns ...); text lengths (names, literal values) are not counted"
  },
  {
   "property": "C60",
   "status": "proved",
   "theorems": [
    "C60_script",
    "C60_module",
    "C60_script_error",
    "C60_module_error",
    "C60_special_refuted"
   ],
   "note": "the cut into tokens is stated for each renaming function; assumes ucd_sane (as C08 does); columns and offsets of the renamed tree are not stated; identifiers with escapes are rejected by the scanner anyway; non-identifier tokens keep their texts"
  },
  {
   "property": "C61",
   "status": "proved",
   "theorems": [
    "C61_script",
    "C61_module",
    "C61_different",
    "C61_untold",
    "C61_boolean_refuted",
    "C61_for_refuted"
   ],
   "note": "for the programs of C58 (no generators, templates, regular expressions, destructuring, imports and exports); the two exceptions are refuted by examples and, by C61_untold, the only ones"
  },
  {
   "property": "C62",
   "status": "proved",
   "theorems": [
    "C62_module",
    "C62_only_parens",
    "C62_no_parens",
    "C62_unambiguous"
   ],
   "note": "statements and expressions as in C58; a list of exported names only at the end, since the parser accepts it only before a line break or the end"
  },
  {
   "property": "C63",
   "status": "proved",
   "theorems": [
    "C63_module",
    "C63_different",
    "C63_untold",
    "C63_default_refuted"
   ],
   "note": "for the modules of C62"
  },
  {
   "property": "C64",
   "status": "proved",
   "theorems": [
    "C64_script",
    "C64_module",
    "C64_printed_script",
    "C64_printed_module",
    "C64_boolean_refuted"
   ],
   "note": "for the programs of C58 and the modules of C62; statements that begin with true or false (told as strings) are left out"
  }
 ]
}