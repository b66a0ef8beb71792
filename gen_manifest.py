import json
C=[]
def c(i,status,theorems,note): C.append(dict(property=i,status=status,theorems=theorems.split(),note=note))
c("C01","proved","C01_reader_answers C01_reader_hands_out_source","every answer of every history of lookahead/next calls is the expected source character")
c("C02","proved","C02_next_terminates C02_progress C02_eof_is_final","")
c("C03","proved","C03_offsets C03_slice C03_order","layout relation plus its slice and order corollaries")
c("C04","proved","C04_token_lines C04_error_lines","")
c("C05","proved","C05_trivia_is_irrelevant","")
c("C06","proved","C06_longest_match C06_shift_assign_refuted","the unrestricted claim fails for >>= (refuted theorem)")
c("C07","proved","C07_round_trip C07_from_spelling C07_failure","")
c("C08","proved","C08_words C08_kinds","assumes ucd_sane: the ucd crate takes no white space, line terminator or ASCII non-letter for an identifier start")
c("C09","proved","C09_quoted_text C09_verbatim","assumes ucd_sane")
c("C10","proved","C10_decimal C10_radix C10_sound C10_zero_exponent_refuted","assumes ucd_sane; 0e5 refutes the unrestricted claim")
c("C11","proved","C11_template_pieces C11_matching_brace","")
c("C12","proved","C12_regexp","")
c("C13","proved","C13_panics_confined","")
c("C38","proved","C38_token_attributes","")
c("C14","proved","C14_script_terminates C14_module_terminates","native stack exhaustion is outside the model")
c("C15","proved","C15_script_reads_everything C15_module_reads_everything","")
c("C16","proved","C16_script_root C16_module_root","")
c("C26","proved","C26_expressions_keep_context C26_statements_keep_context","")
c("C27","proved","C27_semicolon_insertion C27_advance","")
c("C28","proved","C28_script_panics C28_module_panics","every listed panic has a computed witness")
c("C17","proved","C17_return_in_function","")
c("C18","proved","C18_continue_in_loop C18_break_in_loop_or_switch C18_same_function_refuted","the loop may be outside the function (refuted theorem)")
c("C19","proved","C19_no_with C19_no_labelled_function C19_module_is_strict","")
c("C20","proved","C20_assignment C20_update C20_for_in C20_for_of C20_array_element C20_property C20_pattern_expression C20_shorthand_refuted","shorthand properties are not checked by the code (refuted theorem)")
c("C21","proved","C21_operands C21_conditional_test C21_unary_operand C21_modulo_refuted C21_arrow_refuted","two deviations from ECMAScript, shown as refuted theorems")
c("C22","proved","C22_rest_last C22_no_rest_in_array_assignment","")
c("C23","proved","C23_try","")
c("C24","proved","C24_one_default","")
c("C25","proved","C25_initialised","")
c("C29","proved","C29_vocabulary C29_no_static_method","")
c("C31","proved","C31_template C31_tagged","")
c("C32","proved","C32_power","")
c("C34","proved","C34_spans C34_error_line C34_order_refuted","start after end is possible (refuted theorem)")
c("C35","proved","C35_object_property C35_method C35_pattern_property C35_getter_refuted","")
c("C36","proved","C36_top_level C36_script C36_module C36_root_only","")
c("C39","proved","C39_positions C39_all_positions","")
c("C40","proved","C40_operators","")
c("C41","proved","C41_yield C41_await","")
c("C42","proved","C42_names C42_properties","")
c("C30","proved","C30_objects C30_positions C30_complete C30_form C30_alias C30_table_total C30_script C30_module C30_boolean_refuted C30_property_positions_refuted","serde and serde_json are represented by the serialised form they are specified to produce")
c("C43","proved","C43_script C43_module C43_answers","for every escaping table of the Rust standard library")
c("C46","proved","C46_display C46_debug C46_quoted C46_display_position_refuted","Display text does not contain the position (refuted theorem)")
c("C44","proved","C44_script C44_module","the grammar is SpecSpell.v; places where the code departs from the language are marked defect there")
c("C33","proved","C33_names C33_rejects C33_accepts C33_parameters C33_parameters_rejected C33_parameters_accepted C33_default_refuted C33_literal_default_refuted C33_member_refuted C33_array_default_refuted","in debug builds an empty array literal among the parameters panics instead (P_PatternUnderflow); the defaults of shorthand properties and of destructured parameters are treated as the code does, marked defect in SpecNames.v and shown by the _refuted theorems")
c("C37","proved","C37_round_trip C37_round_trip_module C37_only_parens C37_no_parens","assumes the ucd tables are sane (a space does not continue an identifier)")
c("C45","proved","C45_script C45_module C45_one_meaning C45_postfix_refuted C45_slash_refuted C45_return_refuted C45_switch_refuted C45_export_list_refuted C45_export_as_refuted C45_export_from_refuted C45_bare_import_refuted","the fragment is SpecGrammar.v; it covers classes, generators, async functions, binding patterns, destructuring assignment, arrow parameter patterns, regular expressions, (tagged) templates, imports and exports; it leaves out the places where the code rejects correct programs or gives them a wrong tree (eight of them are the _refuted theorems)")
c("C47","proved","C47_module_is_script C47_same_json C47_rejected_script C47_converse_refuted","the converse is false, as the language demands (with statements)")
c("C48","proved","C48_script C48_module C48_script_converse C48_module_converse C48_empty_refuted","the empty source is the one exception, in builds with overflow checks")
c("C49","proved","C49_script C49_module C49_joined_refuted C49_breaks_refuted","lines and columns kept; what may follow a token text is SpecRelay.after (a separator or the same first character as before); the number of line breaks in a gap matters because of a defect of the look-ahead (C49_breaks_refuted)")
c("C50","proved","C50_errors","SpecBlame.explains lists for every kind of error what it may be reported at; lines are exact unless a token async, get or set precedes (C50_look_ahead shows the defect)")
c("C51","proved","C51_spans","C51_too_long shows the two defects of spans")
c("C52","proved","C52_tokens C52_errors C52_length","columns restart at every token (defect, C52_not_in_line)")
c("C53","proved","C53_script C53_module","the same grammar as C44 (SpecSpell.v) with claims about spans; which parts have one is seen there; C53_compound shows that compound parts have none")
c("C54","proved","C54_script C54_module C54_script_converse C54_module_converse C54_script_panic C54_module_panic","the converse and the panic part exclude the empty source in checked builds, which panics (C48_empty_refuted); which panic it is is not claimed to be the same")
c("C55","proved","C55_script C55_module","the error at a token is reported only after the token behind it was read, so that token belongs to those that matter; witnesses for the three ways to stop")
c("C56","proved","C56_script C56_module C56_tested_script C56_tested_module C56_release_script C56_release_module C56_differ_refuted","SpecBuild.overflow lists the three overflow panics; C56_differ_refuted shows that each occurs and that the other build accepts the source")
c("C57","proved","C57_script C57_module C57_ascii_script C57_ascii_module C57_disagree_refuted","the two tables are assumed right about ASCII (SpecUcd.ascii_right)")
c("C58","proved","C58_script C58_module C58_only_parens C58_no_parens C58_unambiguous","the abstract syntax leaves out generators, templates, regular expressions, destructuring patterns, getters/setters/methods in objects, import/export; identifier, operator and placement conditions are SpecPrint.proper; assumes the ucd tables are sane and that a space does not continue a name")
c("C59","proved","C59_size C59_depth C59_all","parts are those of SpecTree (nodes, declarators, properties, elements, patterns ...); text lengths (names, literal values) are not counted")
c("C60","proved","C60_script C60_module C60_script_error C60_module_error C60_special_refuted","the cut into tokens is stated for each renaming function; assumes ucd_sane (as C08 does); columns and offsets of the renamed tree are not stated; identifiers with escapes are rejected by the scanner anyway; non-identifier tokens keep their texts")
c("C61","proved","C61_script C61_module C61_different C61_untold C61_boolean_refuted C61_for_refuted","for the programs of C58 (no generators, templates, regular expressions, destructuring, imports and exports); the two exceptions are refuted by examples and, by C61_untold, the only ones")
c("C62","proved","C62_module C62_only_parens C62_no_parens C62_unambiguous","statements and expressions as in C58; a list of exported names only at the end, since the parser accepts it only before a line break or the end")
c("C63","proved","C63_module C63_different C63_untold C63_default_refuted","for the modules of C62")
c("C64","proved","C64_script C64_module C64_printed_script C64_printed_module C64_boolean_refuted","for the programs of C58 and the modules of C62; statements that begin with true or false (told as strings) are left out")
json.dump({"claims":C},open("MANIFEST.json","w"),indent=1)
