{
 "claims": [
  {
   "property": "C01",
   "status": "proved",
   "theorems": [
    "C01_string_identity",
    "C01_file_identity",
    "C01_simple_text_accepted"
   ],
   "note": "Identity on backtick-free text for both entry points; the only failure is a lexer error."
  },
  {
   "property": "C02",
   "status": "partial",
   "theorems": [
    "C02_substitution_law",
    "C02_substitution_partial",
    "C02_substitution_refuted",
    "C02_end_to_end_refuted",
    "C02_constructible"
   ],
   "note": "The code violates the property: a parameter directly followed by ( [ or { is not substituted (macro_def_verilog.cpp:78-88). C02_substitution_law is the exact law of the code for all bodies; it agrees with the standard when no parameter is followed by an opening bracket. Distinct identifier parameter names are assumed."
  },
  {
   "property": "C03",
   "status": "proved",
   "theorems": [
    "C03_argument_binding",
    "C03_values_unique"
   ],
   "note": "Acceptance criterion, values and error case, for every macro and call."
  },
  {
   "property": "C04",
   "status": "proved",
   "theorems": [
    "C04_expansion_in_range",
    "C04_constructor_safe"
   ],
   "note": "All element accesses of definition and expansion are modelled with an explicit failure outcome."
  },
  {
   "property": "C05",
   "status": "proved",
   "theorems": [
    "C05_terminates_str",
    "C05_terminates_file",
    "C05_macro_limit",
    "C05_include_limit"
   ],
   "note": "Every run ends within fuel computed from the input size and limits; the nesting limits raise ParseException."
  },
  {
   "property": "C06",
   "status": "partial",
   "theorems": [
    "C06_first_true_partial",
    "C06_code_law",
    "C06_ifndef_elsif_refuted"
   ],
   "note": "Violated: every elsif of an ifndef is negated too. C06_code_law is the exact law of the code for all chains; it is the standard for ifdef chains."
  },
  {
   "property": "C07",
   "status": "partial",
   "theorems": [
    "C07_define_partial",
    "C07_defines_partial",
    "C07_undef_partial",
    "C07_redefinition_refuted"
   ],
   "note": "Violated: redefinition keeps the old definition. The laws give the effect of every sequence of definitions."
  },
  {
   "property": "C08",
   "status": "partial",
   "theorems": [
    "C08_undef_safe_partial",
    "C08_undef_exact",
    "C08_undef_refuted"
   ],
   "note": "Violated: undef of a macro defined by a source reads through the erased iterator. C08_undef_exact: exactly those cases."
  },
  {
   "property": "C09",
   "status": "proved",
   "theorems": [
    "C09_persistence_str",
    "C09_persistence_file",
    "C09_sequence"
   ],
   "note": ""
  },
  {
   "property": "C10",
   "status": "proved",
   "theorems": [
    "C10_accounting",
    "C10_run_str",
    "C10_run_file"
   ],
   "note": ""
  },
  {
   "property": "C100",
   "status": "proved",
   "theorems": [
    "C100_again",
    "C100_kept",
    "C100_context",
    "C100_preprocess",
    "C100_macros",
    "C100_split"
   ],
   "note": "For any parsers and visitors that are functions of their text: the containers are made anew for each file. Verilog sources are read as utf-8. A call with nothing to parse returns an empty result, see C21. After undefined behaviour nothing is claimed of the program, although the theorems also cover the state of the model then."
  },
  {
   "property": "C11",
   "status": "partial",
   "theorems": [
    "C11_relation_after_line",
    "C11_relation_after_file_partial",
    "C11_begin_refuted",
    "C11_map_line_partial",
    "C11_map_file_partial",
    "C11_include_refuted"
   ],
   "note": "The relation holds after every line re-synchronisation; it does not survive a file change with a start line, and the map is wrong after an include."
  },
  {
   "property": "C12",
   "status": "proved",
   "theorems": [
    "C12_lookup",
    "C12_lookup_unique",
    "C12_missing",
    "C12_found",
    "C12_restored",
    "C12_restored_top"
   ],
   "note": ""
  },
  {
   "property": "C13",
   "status": "proved",
   "theorems": [
    "C13_undefined_call",
    "C13_undefined_include",
    "C13_expanded_is_defined"
   ],
   "note": ""
  },
  {
   "property": "C14",
   "status": "partial",
   "theorems": [
    "C14_call_partial",
    "C14_input_partial",
    "C14_every_text_partial",
    "C14_backslash_refuted",
    "C14_comment_refuted"
   ],
   "note": "All argument texts with matching brackets and quotes, any depth, without comments and without strings ending in a backslash. Violated: a quote after an escaped backslash does not end the string; a comma in a comment may split."
  },
  {
   "property": "C15",
   "status": "proved",
   "theorems": [
    "C15_pasting",
    "C15_verilog",
    "C15_quotes",
    "C15_plain"
   ],
   "note": "Quoting is stated for expansions whose rescan finds no further call; calls found in the rescan are expanded first by the same function."
  },
  {
   "property": "C16",
   "status": "proved",
   "theorems": [
    "C16_trim",
    "C16_rtrim",
    "C16_ws",
    "C16_replace",
    "C16_replace_in_place",
    "C16_replace_absent",
    "C16_empty_pattern_diverges"
   ],
   "note": ""
  },
  {
   "property": "C17",
   "status": "proved",
   "theorems": [
    "C17_valid_utf8",
    "C17_only",
    "C17_injective",
    "C17_ascii"
   ],
   "note": ""
  },
  {
   "property": "C18",
   "status": "partial",
   "theorems": [
    "C18_encodings_partial",
    "C18_utf16_refuted"
   ],
   "note": "Violated: a utf-16 source is reinterpreted as a u16string of as many units as it has bytes."
  },
  {
   "property": "C19",
   "status": "proved",
   "theorems": [
    "C19_vhdl",
    "C19_verilog",
    "C19_logger"
   ],
   "note": "The generated parsers and the visitors are universally quantified functions."
  },
  {
   "property": "C20",
   "status": "partial",
   "theorems": [
    "C20_last_entry_partial",
    "C20_earlier_refuted",
    "C20_front_end_refuted"
   ],
   "note": "Violated: only the last entry of the map is consulted, and the Verilog front end never installs the map."
  },
  {
   "property": "C21",
   "status": "partial",
   "theorems": [
    "C21_order",
    "C21_missing",
    "C21_unsupported",
    "C21_python_partial",
    "C21_empty_refuted"
   ],
   "note": "Violated only for an empty file list or an empty string, which return an empty context."
  },
  {
   "property": "C22",
   "status": "partial",
   "theorems": [
    "C22_sized",
    "C22_unsized",
    "C22_decimal",
    "C22_value",
    "C22_not_merged",
    "C22_space_refuted",
    "C22_fill_refuted",
    "C22_size_refuted"
   ],
   "note": "Proved for every literal without white space and with a size in the range of int; violated for the others."
  },
  {
   "property": "C23",
   "status": "partial",
   "theorems": [
    "C23_signedness_lost",
    "C23_signed_refuted"
   ],
   "note": "Violated by every based literal."
  },
  {
   "property": "C24",
   "status": "partial",
   "theorems": [
    "C24_bin_hex_partial",
    "C24_oct_partial",
    "C24_oct_width_refuted",
    "C24_decimal_refuted",
    "C24_signed_refuted",
    "C24_length_refuted"
   ],
   "note": "Exact behaviour for every literal without underscore in the length."
  },
  {
   "property": "C25",
   "status": "partial",
   "theorems": [
    "C25_decimal_partial",
    "C25_large_refuted",
    "C25_underscore_refuted",
    "C25_based_refuted"
   ],
   "note": "Violated by underscores, large values and all based literals."
  },
  {
   "property": "C26",
   "status": "proved",
   "theorems": [
    "C26_unescaped",
    "C26_injective"
   ],
   "note": ""
  },
  {
   "property": "C27",
   "status": "partial",
   "theorems": [
    "C27_meaning_partial",
    "C27_not_merged_partial",
    "C27_assignment_partial",
    "C27_assignment_operators",
    "C27_call_refuted",
    "C27_trailing_argument_refuted",
    "C27_cast_refuted",
    "C27_equivalence_refuted",
    "C27_mintypmax_refuted",
    "C27_lvalue_member_refuted",
    "C27_method_refuted",
    "C27_null_parameter_refuted",
    "C27_assertion_refuted"
   ],
   "note": "For every expression of the supported fragment (all operators but <->, selects, ranges, concatenations, replications, calls, parametrised paths, assignment patterns, ++/--, conditional) and every interpretation of the operations the AST has the meaning of the source. Outside: expressions the converter itself merges or cannot convert; the _refuted theorems show pairs with equal AST. The tree is the parse tree; the grouping done by the generated parser is not modelled here."
  },
  {
   "property": "C28",
   "status": "partial",
   "theorems": [
    "C28_meaning_partial",
    "C28_not_merged_partial",
    "C28_qualified_refuted",
    "C28_condition_refuted",
    "C28_signature_refuted",
    "C28_inertial_refuted",
    "C28_record_refuted",
    "C28_operand_refuted",
    "C28_xnor_refuted"
   ],
   "note": "For every expression of the supported fragment and every interpretation of the operations the AST has the meaning of the source. Outside of the fragment: the expressions of the _refuted theorems, external names, based literals with a fraction. The tree is the parse tree; the grouping done by the generated parser is not modelled."
  },
  {
   "property": "C29",
   "status": "partial",
   "theorems": [
    "C29_names",
    "C29_names_distinct",
    "C29_vhdl_binary",
    "C29_vhdl_unary",
    "C29_vhdl_unary_kind_partial",
    "C29_sv_unary",
    "C29_sv_unary_kind",
    "C29_sv_binary_partial",
    "C29_sv_step",
    "C29_sv_assignment",
    "C29_symbols_partial",
    "C29_vhdl_xnor_refuted",
    "C29_sv_equivalence_refuted",
    "C29_symbols_refuted"
   ],
   "note": "Proved for all operators; violated by <-> and -> (one kind), by the VHDL reduction xnor (the kind of the binary operator) and by the name of the symbol T_SUBTYPE, whose lookup throws."
  },
  {
   "property": "C30",
   "status": "partial",
   "theorems": [
    "C30_equal_partial",
    "C30_independent_partial",
    "C30_leaf_partial",
    "C30_position_refuted",
    "C30_attribute_refuted",
    "C30_enum_refuted",
    "C30_class_refuted"
   ],
   "note": "Copies have the same structure and share no object, for every expression without null operands, valueless attributes on leaves, base types of enumerations and class definitions. Violated: positions and attributes of operators, arrays and symbols are lost, the base type of an enumeration is lost, an attribute without value is dereferenced, a struct cannot be copied."
  },
  {
   "property": "C31",
   "status": "partial",
   "theorems": [
    "C31_behaviour_partial",
    "C31_flattened",
    "C31_label_refuted",
    "C31_attributes_refuted",
    "C31_unique_refuted",
    "C31_conjunction_refuted"
   ],
   "note": "Chains of any length: same behaviour for every interpretation, conditions and branches in order, all comments joined. Violated: label and attributes of an if after else are lost, unique/priority is lost, &&& conditions are lost."
  },
  {
   "property": "C32",
   "status": "partial",
   "theorems": [
    "C32_behaviour_partial",
    "C32_two_defaults",
    "C32_inside_refuted",
    "C32_matches_refuted",
    "C32_items_dropped_refuted"
   ],
   "note": "First match, labels of all items in order, default anywhere, two defaults rejected. Violated by case inside and case matches: all items are dropped."
  },
  {
   "property": "C33",
   "status": "partial",
   "theorems": [
    "C33_behaviour_partial",
    "C33_do_while_refuted",
    "C33_foreach_refuted"
   ],
   "note": "forever, repeat, while, for and foreach with all variables behave like the source for every iteration bound. Violated: do-while becomes while; an omitted foreach variable shifts the others."
  },
  {
   "property": "C34",
   "status": "partial",
   "theorems": [
    "C34_behaviour_partial",
    "C34_fork_refuted",
    "C34_fork_order_refuted"
   ],
   "note": "The wait precedes the statement, except when the statement is a fork: then the wait becomes a branch of the fork."
  },
  {
   "property": "C35",
   "status": "partial",
   "theorems": [
    "C35_concurrent_partial",
    "C35_sequential_partial",
    "C35_first_true",
    "C35_variable_refuted",
    "C35_force_refuted",
    "C35_unaffected_refuted"
   ],
   "note": "Signal assignments, concurrent and sequential, any number of alternatives, with or without final else, waveforms of one element without after. Violated: conditional variable assignments and conditional force lose all alternatives, unaffected becomes a placeholder."
  },
  {
   "property": "C36",
   "status": "partial",
   "theorems": [
    "C36_concurrent_partial",
    "C36_target",
    "C36_others_first_refuted",
    "C36_sequential_refuted",
    "C36_variable_refuted",
    "C36_matching_refuted"
   ],
   "note": "Concurrent selected assignments, others last. Violated: sequential selected signal assignments give a null pointer, selected variable assignments assign the selector."
  },
  {
   "property": "C37",
   "status": "partial",
   "theorems": [
    "C37_single_partial",
    "C37_choices_refuted"
   ],
   "note": "Violated: all choices but the first are dropped, for every aggregate."
  },
  {
   "property": "C38",
   "status": "partial",
   "theorems": [
    "C38_wait_partial",
    "C38_assert_partial",
    "C38_after_refuted",
    "C38_delay_mechanism_refuted",
    "C38_elements_refuted",
    "C38_severity_refuted",
    "C38_wait_refuted",
    "C38_until_refuted",
    "C38_force_refuted"
   ],
   "note": "Waits and assertions are kept apart if a time without until has a unit and severity comes with report. Violated otherwise, and by all delays."
  },
  {
   "property": "C39",
   "status": "partial",
   "theorems": [
    "C39_inheritance_partial",
    "C39_leaking_dimension_refuted",
    "C39_var_refuted",
    "C39_interface_refuted",
    "C39_extern_refuted"
   ],
   "note": "Every list of ports with directions, types, dimensions and values: each port equals the port with the inherited direction and type written down. Violated by dimensions after a name whose type has no range (they leak into later ports), by var, by interface ports and by the first port of an extern module."
  },
  {
   "property": "C40",
   "status": "partial",
   "theorems": [
    "C40_ports_partial",
    "C40_named_port_refuted",
    "C40_concatenation_refuted",
    "C40_sign_refuted",
    "C40_select_refuted",
    "C40_value_conflict"
   ],
   "note": "Every header with distinct names and every body of typed declarations. Violated by ports with a name of their own, concatenations, part selects in the header and by a sign given in the port declaration only."
  },
  {
   "property": "C41",
   "status": "partial",
   "theorems": [
    "C41_parameters_partial",
    "C41_plain_list_law",
    "C41_mixed_list_refuted",
    "C41_dimensions_refuted"
   ],
   "note": "Every list of parameter declarations; after a plain list of assignments further declarations are dropped; dimensions of parameters are dropped."
  },
  {
   "property": "C42",
   "status": "partial",
   "theorems": [
    "C42_instances_partial",
    "C42_each_instance",
    "C42_shorthand_refuted",
    "C42_escaped_module_refuted"
   ],
   "note": "All instances complete and in order for every interpretation of the expressions. Violated by .name (converted like the unconnected .name()) and by escaped module names."
  },
  {
   "property": "C43",
   "status": "partial",
   "theorems": [
    "C43_gates_partial",
    "C43_outputs_law",
    "C43_outputs_refuted",
    "C43_other_gates_refuted",
    "C43_array_refuted",
    "C43_name_refuted"
   ],
   "note": "n-input gates: all; buf and not: one output. Violated by several outputs (exact law proved), by all other kinds of gates, by arrays of gates."
  },
  {
   "property": "C44",
   "status": "partial",
   "theorems": [
    "C44_flattened",
    "C44_events_partial",
    "C44_edge_refuted",
    "C44_iff_refuted",
    "C44_repeat_refuted"
   ],
   "note": "All nestings are flattened in order with their edges. Violated: edge x is merged with x, iff conditions and repeat (n) are lost."
  },
  {
   "property": "C45",
   "status": "partial",
   "theorems": [
    "C45_variables",
    "C45_nets_partial",
    "C45_special_nets_refuted",
    "C45_port_declarations_partial",
    "C45_leaking_dimension_refuted",
    "C45_vhdl_declarations",
    "C45_vhdl_interfaces",
    "C45_vhdl_names"
   ],
   "note": "Verilog variables and all VHDL declarations and interface lists: all; Verilog nets and port declarations: see the hypotheses."
  },
  {
   "property": "C46",
   "status": "partial",
   "theorems": [
    "C46_vhdl_path",
    "C46_vhdl_each",
    "C46_context_refuted",
    "C46_sv_single_partial",
    "C46_sv_several_refuted",
    "C46_sv_header_refuted"
   ],
   "note": "VHDL use clauses: all. Violated by SystemVerilog: all items of one import declaration become one import object with all their parts; imports in module headers are dropped; VHDL context references are skipped."
  },
  {
   "property": "C47",
   "status": "partial",
   "theorems": [
    "C47_sv_law",
    "C47_vhdl_law",
    "C47_tight_partial",
    "C47_blank_kept_refuted",
    "C47_letter_lost_refuted",
    "C47_block_refuted",
    "C47_lines_refuted"
   ],
   "note": "Exact law for all comments; it equals the claim for comments without a blank in their first two characters. Violated: the blank test is one character off, block markers stay, VHDL lines run together."
  },
  {
   "property": "C48",
   "status": "partial",
   "theorems": [
    "C48_dictionary_partial",
    "C48_body_law",
    "C48_pop_refuted",
    "C48_alias_refuted",
    "C48_deleted_refuted",
    "C48_setdefault_refuted",
    "C48_first_parameter_refuted",
    "C48_parameter_refuted",
    "C48_unterminated_refuted",
    "C48_copy_iter_refuted"
   ],
   "note": "All histories that avoid pop of a present name, setdefault with text, use after del and parameters without default. Violated by these; the first parameter is missing from the text read back."
  },
  {
   "property": "C49",
   "status": "partial",
   "theorems": [
    "C49_shown_partial",
    "C49_one_value",
    "C49_distinct_partial",
    "C49_open_refuted",
    "C49_zero_width_refuted",
    "C49_nul_refuted",
    "C49_missing_refuted"
   ],
   "note": "All values but OPEN, width 0, text with NUL or without UTF-8, and missing operands. Violated: OPEN and NULL are both None; width 0 and text behind NUL are lost."
  },
  {
   "property": "C50",
   "status": "partial",
   "theorems": [
    "C50_str_partial",
    "C50_file_partial",
    "C50_lexer",
    "C50_memory_safety_refuted"
   ],
   "note": "The only undefined behaviours reachable are undef of a macro defined by a source (C08) and one assertion of the lexer; both are reachable, every other input is safe."
  },
  {
   "property": "C51",
   "status": "partial",
   "theorems": [
    "C51_included_text_partial",
    "C51_separated_refuted",
    "C51_conditional_refuted"
   ],
   "note": "Violated when the included file does not end with a newline."
  },
  {
   "property": "C52",
   "status": "partial",
   "theorems": [
    "C52_line_partial",
    "C52_line_in_macro",
    "C52_file_partial",
    "C52_file_refuted",
    "C52_undefineall_refuted",
    "C52_line_directive_refuted"
   ],
   "note": "Exact laws of both macros; violated after include, line and undefineall."
  },
  {
   "property": "C53",
   "status": "partial",
   "theorems": [
    "C53_comment_partial",
    "C53_body_tokens",
    "C53_comment_refuted",
    "C53_behind_string_refuted",
    "C53_quote_refuted"
   ],
   "note": "Holds for all sources of PpSrcSpec.v (non-empty one-line bodies, a blank before the comment, no quote or backslash in it). Violated by comments behind empty definitions, directly behind a string, and by comments with a double quote."
  },
  {
   "property": "C54",
   "status": "partial",
   "theorems": [
    "C54_crlf_partial",
    "C54_crlf_refuted"
   ],
   "note": "Holds for all sources of PpSrcSpec.v: the outputs differ only in CR characters, if no macro use extends over several lines. Violated by continued definitions."
  },
  {
   "property": "C55",
   "status": "partial",
   "theorems": [
    "C55_text_partial",
    "C55_body_partial",
    "C55_text_refuted",
    "C55_body_refuted",
    "C55_slashes_refuted"
   ],
   "note": "Holds for any text without directives and for literals that are macro bodies, unless a literal ends with a backslash. Violated by escaped backslashes before the closing quote, and by slashes in strings written with `\". Literals in macro arguments are covered by C14 only."
  },
  {
   "property": "C56",
   "status": "partial",
   "theorems": [
    "C56_text_partial",
    "C56_white_space_refuted"
   ],
   "note": "Violated: the white space is part of the name."
  },
  {
   "property": "C57",
   "status": "partial",
   "theorems": [
    "C57_ascii_partial",
    "C57_injective_partial",
    "C57_utf8_refuted"
   ],
   "note": "Violated by every character that takes two bytes in UTF-8."
  },
  {
   "property": "C58",
   "status": "proved",
   "theorems": [
    "C58_verbatim",
    "C58_injective"
   ],
   "note": ""
  },
  {
   "property": "C59",
   "status": "partial",
   "theorems": [
    "C59_statement_partial",
    "C59_not_merged_partial",
    "C59_unsupported_refuted"
   ],
   "note": "Every statement of the supported fragment, any nesting, any interpretation and iteration bound. Outside: what P_C31-P_C34, P_C44 and C59_unsupported_refuted refute, expressions outside of the fragment of C27, escaped identifiers as block labels, time literals as delays."
  },
  {
   "property": "C60",
   "status": "partial",
   "theorems": [
    "C60_always_partial",
    "C60_initial_partial",
    "C60_always_refuted",
    "C60_initial_fork_refuted"
   ],
   "note": "always with @ or #, always_ff with @ or #, always_comb and always_latch without, initial without a fork at the top. Violated: always with any other statement is not made a process; for initial fork the final wait becomes a branch."
  },
  {
   "property": "C61",
   "status": "partial",
   "theorems": [
    "C61_statement_partial",
    "C61_not_merged_partial",
    "C61_end_label",
    "C61_matching_case_refuted",
    "C61_true_refuted",
    "C61_two_others"
   ],
   "note": "Every statement of the supported fragment, any nesting, any interpretation and iteration bound. Outside: what P_C35, P_C36, P_C38 and the refuted theorems here name, and expressions outside of the fragment of C28."
  },
  {
   "property": "C62",
   "status": "partial",
   "theorems": [
    "C62_process_partial",
    "C62_sensitivity_kept",
    "C62_null_statement_refuted"
   ],
   "note": "Declarations are taken as the objects made of them. Labels and postponed are outside: postponed is dropped."
  },
  {
   "property": "C63",
   "status": "partial",
   "theorems": [
    "C63_component_partial",
    "C63_entity_partial",
    "C63_generic_refuted",
    "C63_bus_refuted",
    "C63_dropped_refuted",
    "C63_entity_statements_refuted"
   ],
   "note": "All lists in which generics have the keyword constant. Violated: a generic without the keyword is a signal in the AST; bus, files, types, subprograms and packages of interface lists and the statements of entities are dropped."
  },
  {
   "property": "C64",
   "status": "partial",
   "theorems": [
    "C64_instance_partial",
    "C64_unit_refuted"
   ],
   "note": "All association lists. Violated: the name of the architecture and the kind of the unit are dropped."
  },
  {
   "property": "C65",
   "status": "partial",
   "theorems": [
    "C65_elaboration_partial",
    "C65_alternative_label_refuted",
    "C65_else_label_refuted",
    "C65_case_label_refuted",
    "C65_no_default",
    "C65_block_refuted"
   ],
   "note": "All nestings and interpretations, alternatives without labels of their own. Violated by labels of alternatives and by guards, generics and ports of blocks."
  },
  {
   "property": "C66",
   "status": "partial",
   "theorems": [
    "C66_types_partial",
    "C66_floating_refuted",
    "C66_access_refuted"
   ],
   "note": "Enumerations, numbers, physical types, arrays, records, subtypes. Violated: integer and floating types have one AST, access, file and protected types are placeholders."
  },
  {
   "property": "C67",
   "status": "partial",
   "theorems": [
    "C67_declaration_partial",
    "C67_body_partial",
    "C67_parameter_class_refuted",
    "C67_null_parameters"
   ],
   "note": "Subprograms whose parameters have keywords. Violated: a parameter without keyword is a signal in the AST."
  },
  {
   "property": "C68",
   "status": "proved",
   "theorems": [
    "C68_hierarchy",
    "C68_units",
    "C68_removed"
   ],
   "note": "For VHDL."
  },
  {
   "property": "C69",
   "status": "partial",
   "theorems": [
    "C69_definition_partial",
    "C69_statement_partial",
    "C69_one_definition",
    "C69_one_statement",
    "C69_call_label_refuted",
    "C69_return_null_refuted",
    "C69_do_refuted",
    "C69_assign_refuted",
    "C69_null_body_refuted"
   ],
   "note": "All statements whose texts are UTF-8, without null objects, do-while loops and headers on calls. Violated by these."
  },
  {
   "property": "C70",
   "status": "partial",
   "theorems": [
    "C70_arguments_partial",
    "C70_items_partial",
    "C70_declaration_partial",
    "C70_body_partial",
    "C70_head",
    "C70_direction_refuted",
    "C70_inherited_type_refuted",
    "C70_var_refuted",
    "C70_default_refuted",
    "C70_order_refuted",
    "C70_scope_refuted"
   ],
   "note": "Arguments in parentheses: all lists of inputs that repeat their type. Arguments in the body: all lists where the argument comes before its type. Violated: the direction in parentheses is always input, a type is not taken over from the argument before, var and default values get lost."
  },
  {
   "property": "C71",
   "status": "partial",
   "theorems": [
    "C71_elaboration_partial",
    "C71_case_refuted",
    "C71_parameter_refuted",
    "C71_end_refuted",
    "C71_region_refuted"
   ],
   "note": "All nestings without parameters in generate blocks, for every interpretation of conditions, labels and steps. Violated: an alternative of a case with several objects or none ends the process; parameters and unsupported items are lost; the name after end becomes a second label."
  },
  {
   "property": "C72",
   "status": "partial",
   "theorems": [
    "C72_region_partial",
    "C72_bare_refuted",
    "C72_inner_refuted",
    "C72_process_refuted"
   ],
   "note": "Exact law: only objects directly between generate and endgenerate are marked. Violated: other generate constructs are never marked, and processes in a region are."
  },
  {
   "property": "C73",
   "status": "partial",
   "theorems": [
    "C73_object_partial",
    "C73_file_partial",
    "C73_one_object",
    "C73_statement",
    "C73_open_refuted",
    "C73_instance_doc_refuted",
    "C73_one_fails_all_refuted",
    "C73_direction_refuted",
    "C73_member_refuted"
   ],
   "note": "All ASTs whose texts are UTF-8, without the exceptions of C49 and C69. Violated: open and null are one object, the documentation of instances is lost, one object that fails makes the whole file fail."
  },
  {
   "property": "C74",
   "status": "partial",
   "theorems": [
    "C74_file_partial",
    "C74_declarations_partial",
    "C74_units_refuted",
    "C74_entity_statements_refuted",
    "C74_signal_kind_refuted",
    "C74_postponed_refuted",
    "C74_package_generics_refuted",
    "C74_alias_signature_refuted",
    "C74_dropped_refuted"
   ],
   "note": "Files that convert and stay in the fragment for which the meaning is defined. Violated: configurations, contexts, package instances, entity statements, register and bus, postponed, package generics, alias signatures and several kinds of declarations vanish."
  },
  {
   "property": "C75",
   "status": "partial",
   "theorems": [
    "C75_types_partial",
    "C75_variables_partial",
    "C75_nets_partial",
    "C75_genvars_partial",
    "C75_port_declarations_partial",
    "C75_ports_partial",
    "C75_parameters_partial",
    "C75_net_kind_refuted",
    "C75_net_data_type_refuted",
    "C75_user_type_refuted",
    "C75_packed_refuted",
    "C75_packed_second_refuted",
    "C75_any_key_refuted",
    "C75_enum_struct_refuted",
    "C75_virtual_refuted",
    "C75_width_only_refuted"
   ],
   "note": "Declarations in the fragment kept by the conversion (decidable predicates in SvTypeSpec.v), for every meaning of expressions. Violated: the kind of nets without width or with a data type, names of user-defined types of variables, packed against unpacked dimensions, [*] against [], enumerations and structures, virtual interfaces, var [..] and parameter [..]."
  },
  {
   "property": "C76",
   "status": "partial",
   "theorems": [
    "C76_file_partial",
    "C76_skipped_refuted",
    "C76_skipped_item_refuted",
    "C76_lifetime_refuted",
    "C76_local_refuted",
    "C76_extern_refuted",
    "C76_empty_port_refuted",
    "C76_sign_refuted",
    "C76_port_attributes_refuted",
    "C76_port_doc_refuted",
    "C76_process_doc_refuted"
   ],
   "note": "Files that convert and stay in the fragment for which the meaning is defined, for every interpretation. Violated: packages, interfaces, programs, primitives and specify blocks vanish; lifetime and imports of the header are dropped; parameters of the body that are local stay ordinary parameters; extern ports without direction have none; empty ports are dropped; the sign of a port declaration and its attributes are lost; documentation is doubled."
  },
  {
   "property": "C77",
   "status": "partial",
   "theorems": [
    "C77_seen",
    "C77_same_object",
    "C77_vhdl_partial",
    "C77_character_refuted",
    "C77_select_refuted"
   ],
   "note": "Files whose identifiers and strings are UTF-8 without NUL, whose numbers and character literals are ASCII, and without selected signal assignments in processes and subprograms. Violated by both: a character literal outside ASCII is cut to its first byte, a selected signal assignment becomes a null pointer; each makes the whole file fail."
  },
  {
   "property": "C78",
   "status": "partial",
   "theorems": [
    "C78_source_partial",
    "C78_file_partial"
   ],
   "note": "Sources of the grammar in PpSrcSpec.v, from lexing to output, with no bound on size or nesting. Macros with and without parameters, arguments with macro uses, joining of names. Not covered: default values of parameters, a parameter directly before an opening bracket (C02), arguments to a macro without parameters, `\" and undef, redefinition, include, continued definitions, strings with a backslash before the closing quote."
  },
  {
   "property": "C79",
   "status": "partial",
   "theorems": [
    "C79_grouping_partial",
    "C79_unambiguous",
    "C79_terminates",
    "C79_stronger_first_partial",
    "C79_parentheses",
    "C79_meaning_partial",
    "C79_three_ands_refuted"
   ],
   "note": "From the tokens to the AST, for expressions of names, literals, unary and binary operators, the conditional operator, concatenation, replication, selects, ranges, member access and calls; the parser accepts exactly these. Violated: a conditional operator after &&& is taken into the right operand of &&&. Not covered: inside, matches, tagged, increment, assignment in parentheses, casts, system functions, patterns, named arguments, attributes."
  },
  {
   "property": "C80",
   "status": "partial",
   "theorems": [
    "C80_grouping_partial",
    "C80_readings_agree",
    "C80_unambiguous",
    "C80_meaning_partial",
    "C80_stronger_first_partial",
    "C80_sign_partial",
    "C80_illegal_accepted_refuted"
   ],
   "note": "From the tokens to the AST, for every expression that clause 9.1 allows and that is made of names (with attributes, selections, slices, calls), literals, physical literals, all operators, aggregates and qualified expressions: it is parsed into the tree it is written from, and this tree is unique. The last part of the property is false: the grammar accepts forbidden texts such as a and b or c, a < b < c and a * - b (refuted). Not modelled: external names, signatures, allocators, inertial actuals, subtypes with constraints, formals with a conversion; how ANTLR turns left recursion into loops and takes the first of several possible alternatives is trusted."
  },
  {
   "property": "C81",
   "status": "partial",
   "theorems": [
    "C81_tokens_partial",
    "C81_unambiguous_partial",
    "C81_layout_partial",
    "C81_meaning_partial",
    "C81_nothing_lost",
    "C81_refuted"
   ],
   "note": "For every text that consists of lexical elements, white space and comments of clause 15 and in which every apostrophe can be told apart by the three characters behind it: the lexer gives the tokens of these elements, layout does not matter, and with C80 the text of a legal expression becomes an AST with its meaning. For any text at all nothing but layout is lost, and reserved words and identifiers are told apart. The full property is false (refuted): the list of two literals opening parenthesis and a, the one letter attribute in x'a'b, vertical tabs and form feeds, and quotes in extended identifiers are read in another way or refused. Characters outside of ASCII in tokens are not modelled; longest match and first rule of ANTLR are trusted."
  },
  {
   "property": "C82",
   "status": "partial",
   "theorems": [
    "C82_tokens_partial",
    "C82_unambiguous_partial",
    "C82_layout_partial",
    "C82_meaning_partial",
    "C82_nothing_lost",
    "C82_refuted"
   ],
   "note": "For every version and every text that consists of lexical elements, white space and comments of clause 5, in which neighbouring operators do not look like one of SystemVerilog, strings use the escapes that the lexer lists, the words that versions treat differently are avoided and no primitive table begins: the lexer gives the tokens of these elements, layout does not matter, and with C79 the text of a proper expression becomes an AST with its meaning. For any text at all (tables included) nothing but layout is lost, and identifiers are no reserved words except for those differing ones. The full property is false (refuted): a--b of Verilog 2005 is read with the operator --, a string with an unknown escape is refused, include, incdir and library are no reserved words in 2001 and 2005, the words of configurations are reserved in 1364-2001-noconfig."
  },
  {
   "property": "C83",
   "status": "partial",
   "theorems": [
    "C83_statements",
    "C83_grammar_partial",
    "C83_unambiguous",
    "C83_terminates",
    "C83_else",
    "C83_behaviour_partial",
    "C83_always_partial",
    "C83_initial_partial",
    "C83_end_name_refuted",
    "C83_no_name_refuted"
   ],
   "note": "Every statement of the modelled part of clause A.6 is read as this statement, and apart from the names behind the ends of blocks and the operator &&& exactly these token sequences are accepted; reading ends and has no undefined behaviour. With C59, C60 and C82 the text of a statement, an always or an initial construct becomes an AST that behaves like it. Refuted: a name behind end that is not the name of the block (9.3.4 forbids it) is accepted and lost. Not in the parser model: declarations and attributes in blocks, foreach, wait, disable, event triggers, procedural assign and force, assertions, case inside and matches, an event that begins with a parenthesis, type casts; calls and expressions are those of C79."
  },
  {
   "property": "C84",
   "status": "partial",
   "theorems": [
    "C84_statements_partial",
    "C84_process_partial",
    "C84_concurrent_partial",
    "C84_unambiguous",
    "C84_behaviour_partial",
    "C84_process_behaviour_partial",
    "C84_concurrent_behaviour_partial",
    "C84_end_label_refuted",
    "C84_matching_case_refuted"
   ],
   "note": "Every statement, process and concurrent assignment of the modelled part of the standard is read as itself (up to the tree ANTLR prefers for names in ranges, which does not change what it means), no two statements share their tokens, and with C61, C62 and C81 the text becomes an AST that behaves like the source. Refuted: another label behind end loop or end if is accepted, and case? may be closed by end case. Not in the parser model: delay mechanisms, guarded, force and release, sequential selected assignments, postponed, declarations of processes, constrained subtypes as loop ranges; that nothing else is accepted is not proved."
  },
  {
   "property": "C85",
   "status": "partial",
   "theorems": [
    "C85_files",
    "C85_any_end_name",
    "C85_grammar_partial",
    "C85_terminates",
    "C85_unambiguous",
    "C85_text",
    "C85_layout",
    "C85_meaning_partial",
    "C85_instance",
    "C85_end_name_refuted",
    "C85_instance_refuted"
   ],
   "note": "Every file of the modelled part of the standard is read as itself, no two files share their tokens, and with C76 and C82 the text becomes an AST whose modules mean what the text means. Refuted: another name behind endmodule is accepted, and an instance with one or two ordered parameter values and two or more connections, the first one assignable, is taken for a primitive and silently dropped; all other instances are read (C85_instance). Not in the parser model: subroutines, typedefs, user defined types, attributes, interface ports, gates and primitives, packages, programs, classes. That nothing else is accepted is proved for sources without &&& whose tree does not have a name in the brackets of a variable (read as a type) or a dropped instance (C85_grammar_partial); every source is accepted or rejected (C85_terminates)."
  },
  {
   "property": "C86",
   "status": "partial",
   "theorems": [
    "C86_files_partial",
    "C86_meaning_partial",
    "C86_macros_partial"
   ],
   "note": "The chain of entry point, preprocessor (C78), lexer (C82), parser (C83, C85) and visitors (C76) for sources in the modelled part of the language: the returned list is the old objects and then the modules of all files in order, they mean what the sources mean, and sources of the same modules give the same objects. Missing: constructs that are not in the models of these parts, macros given by the user before (see C99), other encodings than utf-8."
  },
  {
   "property": "C87",
   "status": "partial",
   "theorems": [
    "C87_files_partial",
    "C87_unambiguous",
    "C87_meaning_partial",
    "C87_end_name_refuted",
    "C87_call_refuted",
    "C87_body_end_refuted",
    "C87_alternative_refuted"
   ],
   "note": "Proved for all files of the modelled grammar: read as written, no ambiguity, and from text to an AST with the meaning of C74. The code violates the property in four ways, each shown for all names: entity a is end b; is accepted; a labelled concurrent procedure call is read as a component instance; the body of a for or if generate statement with an end of its own is rejected; an alternative of a case generate statement with begin but without end is rejected. Missing: configurations, contexts, package instances, generics of packages and subprograms, statements of entities, guards, generics and ports of blocks, physical, access, file and protected types, attributes, files, groups, postponed statements."
  },
  {
   "property": "C88",
   "status": "partial",
   "theorems": [
    "C88_files_partial",
    "C88_meaning_partial",
    "C88_layout_partial"
   ],
   "note": "The chain of entry point, encoding conversion (C17), lexer (C81), parser (C84, C87) and visitors (C74) for sources in the modelled part of the language. Missing: constructs that are not in the models of these parts, tokens outside of ASCII, utf-16 (broken, C18); the meaning is stated without hierarchyOnly."
  },
  {
   "property": "C89",
   "status": "proved",
   "theorems": [
    "C89_converted",
    "C89_files",
    "C89_string",
    "C89_dead_branch_refuted"
   ],
   "note": "For the sources of C88 without its assumption that the conversion succeeds. A meaning of the elaborated design alone is not enough: C89_dead_branch_refuted, a number above 2147483647 in a generate branch that is not taken is undefined behaviour."
  },
  {
   "property": "C90",
   "status": "proved",
   "theorems": [
    "C90_files",
    "C90_string",
    "C90_earlier",
    "C90_exception"
   ],
   "note": "For the sources of C88 in which every part has a meaning (C89). The tokens of a source are shown to be texts that Python can store (VhdlPrintProofs.v), so the assumptions of C77 about texts are not needed. What of the AST reaches Python is seen_obj of C77."
  },
  {
   "property": "C91",
   "status": "partial",
   "theorems": [
    "C91_converted",
    "C91_text",
    "C91_files",
    "C91_string",
    "C91_case_item_refuted",
    "C91_dead_branch_refuted"
   ],
   "note": "For the files of C85/C86 in which every part has a meaning and every alternative of a case-generate is one item. Refuted without these two conditions: case (s) default: wire a, b; endcase has a meaning and an assertion fails (C91_case_item_refuted); what goes wrong in a branch that is not taken goes wrong for the file (C91_dead_branch_refuted)."
  },
  {
   "property": "C92",
   "status": "partial",
   "theorems": [
    "C92_files",
    "C92_string",
    "C92_earlier",
    "C92_text_of",
    "C92_extern_refuted"
   ],
   "note": "For the files of C91 with strings in UTF-8 and without NUL. Refuted for extern modules: when the first ANSI port has no direction of its own, the parse ends and the conversion to Python throws (C92_extern_refuted)."
  },
  {
   "property": "C93",
   "status": "partial",
   "theorems": [
    "C93_files_partial",
    "C93_string_partial",
    "C93_one_meaning",
    "C93_null_refuted"
   ],
   "note": "For the files of C92 whose AST Python keeps (seen_obj is the identity on it, C73). Refuted in general: wire a = null; and wire a; mean different things and Python shows the same objects (C93_null_refuted)."
  },
  {
   "property": "C94",
   "status": "partial",
   "theorems": [
    "C94_files_partial",
    "C94_string_partial",
    "C94_one_meaning",
    "C94_label_refuted"
   ],
   "note": "For sources whose AST Python keeps (seen_obj is the identity on it, C73). Refuted in general: l : assert c; and assert c; differ in their label and Python shows the same objects (C94_label_refuted)."
  },
  {
   "property": "C95",
   "status": "partial",
   "theorems": [
    "C95_typedef_partial",
    "C95_forward",
    "C95_plain_refuted",
    "C95_unpacked_refuted",
    "C95_unpacked_differ",
    "C95_aggregate_refuted",
    "C95_nettype_refuted"
   ],
   "note": "For types with at most one packed dimension and without [*] (kept_typedef). Refuted in general: typedef name; dereferences a null pointer, typedef logic [3:0] t; and typedef logic t [3:0]; give the same definition, so do enumerations and structures (members are not converted), and nettype declarations are dropped. Members of enumerations and structures are not part of the model."
  },
  {
   "property": "C96",
   "status": "partial",
   "theorems": [
    "C96_vhdl",
    "C96_verilog_partial",
    "C96_one_line",
    "C96_name",
    "C96_string_refuted",
    "C96_number_refuted",
    "C96_terminal_refuted",
    "C96_macro_refuted"
   ],
   "note": "Which element an object is made from is modelled for the literals and names of Verilog only; for the others the theorems hold for every run of tokens. VHDL: for all texts. Verilog: exact law, the last token must not contain a line end before its last character. Refuted in general: strings with a continued line; numbers with a base, reals and unbased literals have no position at all (dynamic_cast of a rule to TerminalNode); names made of keywords get the position of the whole statement; positions count in the preprocessed text, not in the file. Counting of lines and columns by the ANTLR runtime is modelled after its documentation; one character per byte."
  },
  {
   "property": "C97",
   "status": "partial",
   "theorems": [
    "C97_vhdl_ends",
    "C97_verilog_ends",
    "C97_files_come_back",
    "C97_text_comes_back",
    "C97_vhdl_files",
    "C97_vhdl_text",
    "C97_verilog_files",
    "C97_verilog_text",
    "C97_verilog_nothing_else_partial"
   ],
   "note": "Proved for all texts, as far as the parsers and converters are modelled (C80-C88). Missing: undefined behaviour inside the conversion of a unit counts as an exception here (C89, C91 and C95 say where there is any); that a VHDL tree is written in the text is proved from the tree to the text only (C87)."
  },
  {
   "property": "C98",
   "status": "partial",
   "theorems": [
    "C98_vhdl",
    "C98_vhdl_text",
    "C98_verilog_same",
    "C98_verilog_refuted"
   ],
   "note": "VHDL: proved from the files to the objects; what is left out is said by C68 (processes and other statements of architectures are kept). Verilog: refuted, the flag is handed down to all visitors but has no effect on the result."
  },
  {
   "property": "C99",
   "status": "partial",
   "theorems": [
    "C99_update",
    "C99_history",
    "C99_preprocessed_partial",
    "C99_files_partial",
    "C99_text_partial",
    "C99_python_partial"
   ],
   "note": "From the operations in Python to the objects of parse and parse_str, for every history that C48 covers, with parameters and their default values. Strings in the texts are closed (otherwise undefined behaviour, C48); the sources are those of C78 and C86. Missing: sources outside of the grammars of C78 and C85."
  }
 ]
}