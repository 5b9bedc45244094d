{"claims": [
 {"property": "C01", "status": "proved", "theorems": ["C01_reader_transparent", "C01_reader_refines_peek", "C01_reader_refines_next"], "note": ""},
 {"property": "C02", "status": "proved", "theorems": ["C01_reader_transparent"], "note": "position part of the same theorem"},
 {"property": "C03", "status": "proved", "theorems": ["C03_tokens_tile", "C04_newline_flag"], "note": ""},
 {"property": "C04", "status": "proved", "theorems": ["C04_newline_flag"], "note": ""},
 {"property": "C05", "status": "proved", "theorems": ["C05_terminates", "C05_consumes", "C05_eof_at_end", "C05_eof_stable"], "note": ""},
 {"property": "C06", "status": "proved", "theorems": ["C06_push_back", "C06_peek_then_read", "C06_read_then_unread"], "note": ""},
 {"property": "C07", "status": "proved", "theorems": ["C07_buffer_never_overflows"], "note": "All four entry points, every input: neither the buffer-full nor the lookahead panic is reachable."},
 {"property": "C08", "status": "proved", "theorems": ["C08_string_source_verbatim"], "note": ""},
 {"property": "C09", "status": "proved", "theorems": ["C09_string_value_cooked"], "note": ""},
 {"property": "C10", "status": "proved", "theorems": ["C10_number_lossless"], "note": ""},
 {"property": "C11", "status": "proved", "theorems": ["C11_integer_exact", "C11_no_panic"], "note": ""},
 {"property": "C12", "status": "partial", "theorems": ["C12_correctly_rounded_refuted", "C12_doubles_exact_partial", "C12_last_digit_partial"], "note": "REFUTED: false of the code (0x200000000000011). Proved: literals of any radix whose value is a double evaluate to it; and a literal whose value without its last digit is a double evaluates to the nearest double, so only rounding at more than one digit goes wrong; C73 covers decimals."},
 {"property": "C13", "status": "proved", "theorems": ["C13_word_tokens", "C13_tokenize"], "note": ""},
 {"property": "C14", "status": "proved", "theorems": ["C14_name_text", "C14_name_injective", "C14_name_canonical", "C14_atoms", "C14_reserved", "C14_disjoint"], "note": ""},
 {"property": "C15", "status": "partial", "theorems": ["C15_spelling_refuted", "C15_same_spelling_partial", "C15_exactly_when"], "note": "REFUTED: an escaped contextual word gets a different name. Proved: equal names if, and only if, both or neither spelling has an escape, or the text is no contextual word."},
 {"property": "C16", "status": "proved", "theorems": ["C16_longest_match"], "note": ""},
 {"property": "C17", "status": "proved", "theorems": ["C17_regexp_verbatim"], "note": ""},
 {"property": "C18", "status": "partial", "theorems": ["C18_no_panic_refuted", "C18_overflow_refuted", "C19_panics_confined"], "note": "REFUTED: four witnesses; C19 is the exact list of panics"},
 {"property": "C19", "status": "proved", "theorems": ["C19_panics_confined"], "note": ""},
 {"property": "C20", "status": "partial", "theorems": ["C20_whitespace_refuted", "C20_whitespace_exact"], "note": "REFUTED: U+2007 and U+2008 are missing; the exact set is proved"},
 {"property": "C21", "status": "proved", "theorems": ["C21_trivia_insignificant", "C21_layout_insignificant", "C21_space_separates", "C21_three_characters_decide"], "note": "One token and whole texts; also when a lexeme stays one after a change of what follows."},
 {"property": "C22", "status": "proved", "theorems": ["C22_C23_operators_grouped"], "note": ""},
 {"property": "C23", "status": "proved", "theorems": ["C22_C23_operators_grouped", "C23_grouping_unique", "C23_levels"], "note": ""},
 {"property": "C24", "status": "proved", "theorems": ["C24_target_lossless"], "note": ""},
 {"property": "C25", "status": "proved", "theorems": ["C25_pattern_lossless", "C25_patterns_exact"], "note": ""},
 {"property": "C26", "status": "partial", "theorems": ["C26_rest_refuted", "C26_located_rest_refused", "C26_unlocated_rest"], "note": "REFUTED: a spread that carries a location is always refused, hence every parsed one; proved for trees without locations"},
 {"property": "C27", "status": "proved", "theorems": ["C27_terminates", "C27_returns"], "note": "Steps are counted in a copy of the parser (Cost.v) that CostErase.v proves to have the same outcomes: at most 201*length+230. Recursion depth and iterations of each loop are at most 2*length+10 (C27_returns)."},
 {"property": "C28", "status": "proved", "theorems": ["C28_script_panics", "C28_module_panics", "C28_program_panics"], "note": "lexer_panics spells out when the lexer panics (also C06)."},
 {"property": "C29", "status": "partial", "theorems": ["C29_import_export_refuted", "C29_module_panics", "C29_program_refuses", "C29_never_returned"], "note": "REFUTED for every import and export, not only for a witness: behind any directives and items module panics, program panics or fails, and no returned tree has one (texts as in C72)."},
 {"property": "C30", "status": "partial", "theorems": ["C30_rest_ignored_refuted", "C30_rest_ignored", "C30_script_stops_partial"], "note": "REFUTED: input after an unmatched } is ignored. C30_rest_ignored: behind every accepted script (no slash but in comments and strings, no label nested in itself) one may add a new line, a } and any text whatever, and script and strict return the same tree. Proved: script and strict stop only at the end or before }, case or default; module and program only at the end (C31)."},
 {"property": "C31", "status": "proved", "theorems": ["C31_module_whole", "C31_program_whole"], "note": "The items derive exactly the tokens before EOF, and EOF is at the end of the input."},
 {"property": "C32", "status": "proved", "theorems": ["C32_deciding_later", "C32_every_program"], "note": "Same tree or same error for script(), strict() and module() of every program returned."},
 {"property": "C33", "status": "proved", "theorems": ["C33_strict_only_rejects", "C33_module_only_rejects"], "note": "Also the same locations and directives."},
 {"property": "C34", "status": "proved", "theorems": ["C34_strict_trees"], "note": "For strict and module; escaped spellings excluded as the property says (see C35)."},
 {"property": "C35", "status": "partial", "theorems": ["C35_use_strict_refuted", "C35_never_recognised"], "note": "REFUTED: the directive has no effect. C35_never_recognised: for no directive of any returned tree is the compared text use strict, because it has its quotes."},
 {"property": "C36", "status": "proved", "theorems": ["C36_jumps"], "note": "For all entry points; the surroundings of a node are computed by SpecPlace.enter."},
 {"property": "C37", "status": "partial", "theorems": ["C37_label_scope_refuted", "C62_outer_label_forgotten"], "note": "REFUTED: an inner label of the same name removes the outer one; C62_outer_label_forgotten: in every text of that form, whatever the label, the inner statement and the rest. For trees whose nested labels differ, C72 gives exact acceptance."},
 {"property": "C38", "status": "proved", "theorems": ["C38_switch_and_try"], "note": "For all entry points."},
 {"property": "C39", "status": "proved", "theorems": ["C39_semicolons"], "note": "For all entry points; the statement is derived from the tokens just before its semicolon."},
 {"property": "C40", "status": "partial", "theorems": ["C40_final_newline_partial", "C40_script_partial", "C40_strict_partial", "C40_program_partial", "C40_module_partial", "C40_final_newline_refuted", "C40_more_comments_partial", "C40_final_newline_comments_partial"], "note": "REFUTED as stated: while(1) break at end of input. Proved: any line terminators behind an accepted text change neither verdict nor tree; and the verdicts agree in both directions for every text whose last token is not break, continue or return. Hypotheses as in C72: no slash but in comments and strings, no label nested in itself."},
 {"property": "C41", "status": "proved", "theorems": ["C41_every_node_is_tracked"], "note": "Trees of script, strict, module and of the methods of every program returned."},
 {"property": "C42", "status": "proved", "theorems": ["C42_locations_are_well_formed"], "note": "Also that the positions carry the right lines and columns."},
 {"property": "C43", "status": "partial", "theorems": ["C43_enclosing_refuted", "C43_statement_refuted", "C43_missing_kinds_refuted", "C43_enclosing_partial", "C43_enclosing_elsewhere_partial"], "note": "REFUTED as stated: conditional expressions do not enclose their tests; an expression statement starts behind its second token. C43_enclosing_partial proves, for every parsed tree, that nodes of all other kinds start no later and end no earlier than the nodes directly below them; C43_missing_kinds_refuted shows that each of the seven exempted kinds (conditional, postfix and prefix increment and decrement, expression statement, one-name declarator) does violate the property"},
 {"property": "C44", "status": "proved", "theorems": ["C44_script", "C44_strict", "C31_module_whole", "C31_program_whole"], "note": "Grammar relation SpecGrammar.G, independent of the parser's functions."},
 {"property": "C45", "status": "proved", "theorems": ["C45_untrack_erases", "C45_untrack_nothing_else", "C45_untrack_idempotent", "C45_untrack_canonical"], "note": ""},
 {"property": "C46", "status": "proved", "theorems": ["C46_location_lens"], "note": ""},
 {"property": "C47", "status": "proved", "theorems": ["C47_comparison_exact", "C47_reflexive", "C47_symmetric", "C47_transitive", "C47_untracked", "C47_parsed_trees_equal_themselves"], "note": "Comparison of any two nodes, including locations; also that no parsed tree contains a NaN literal."},
 {"property": "C48", "status": "proved", "theorems": ["C48_binop_text", "C48_logop_text", "C48_assop_text", "C48_unop_text", "C48_op_text", "C48_token_operators", "C48_token_binop_complete"], "note": ""},
 {"property": "C49", "status": "proved", "theorems": ["C49_conversion_inverts_encoding", "C49_accepts_exactly", "C49_range_exact"], "note": "ESTree's encoding is a relation in SpecEstree; every expressible tree without destructuring assignments has one, and conversion inverts it. What the crate accepts beyond ESTree is stated exactly too."},
 {"property": "C50", "status": "proved", "theorems": ["C50_conversion_total_and_untracked", "C50_never_panics"], "note": "The fuel is the document's depth. The Deserialize wrapper around serde is not modelled."},
 {"property": "C51", "status": "proved", "theorems": ["C51_prologue_split", "C51_directives_exact", "C51_split_unique"], "note": ""},
 {"property": "C52", "status": "proved", "theorems": ["C52_field_extraction_exact", "C52_field_reading_exact"], "note": "get_i64, get_u64 and get_f64 go through serde_json's conversions and are not modelled."},
 {"property": "C53", "status": "proved", "theorems": ["C53_tags_round_trip", "C53_tags_are_the_node_types"], "note": ""},
 {"property": "C54", "status": "partial", "theorems": ["C54_lone_surrogate_refuted", "C54_altered_only_there", "C54_unaltered_partial"], "note": "REFUTED: '\\uD800' becomes '?'. Lone surrogates are the only escapes altered: proved for every string literal. C09 states exactly what happens"},
 {"property": "C55", "status": "partial", "theorems": ["C55_identifier_escape_refuted", "C55_only_escapes_partial"], "note": "REFUTED: a\\u0020b is one identifier. Only escapes do it: proved that every other character of an identifier is one that may stand there"},
 {"property": "C56", "status": "partial", "theorems": ["C56_string_division_refuted", "C56_never_a_division", "C56_refused_on_one_line"], "note": "REFUTED, and not only on a witness: for every text that begins with a string literal and a division operator no entry point parses the operator. If it stands on the same line all four refuse the text; if it begins a new line a returned tree has the string as its first directive. C72 gives exact acceptance for texts without a slash."},
 {"property": "C57", "status": "proved", "theorems": ["C57_context_restored"], "note": "In every state, reachable or not. Labels are not flags: a shadowed label is lost (see DESIGN)."},
 {"property": "C58", "status": "partial", "theorems": ["C58_regexp_one_line_refuted", "C58_only_in_classes_partial", "C17_regexp_verbatim"], "note": "REFUTED: classes may contain line terminators, and proved for every regular expression that nothing else may; C17 states what is guaranteed"},
 {"property": "C59", "status": "proved", "theorems": ["C59_leaves_are_their_tokens"], "note": "By induction over the grammar relation; the tokens are those of SpecLexer.tiles."},
 {"property": "C60", "status": "partial", "theorems": ["C60_nested_new_refuted", "C60_access_outside"], "note": "REFUTED: new new a().b is parsed as (new (new a())).b. C60_access_outside: every text new new f(..).x; is accepted by all entry points with the access outside both news, which is never ECMAScript's tree."},
 {"property": "C61", "status": "partial", "theorems": ["C61_for_in_object_refuted", "C61_for_in_comma_refused"], "note": "REFUTED: for (a in b, c) {} is rejected. C61_for_in_comma_refused: so is every text in which, behind directives and items, a for-in loop with any head has a comma behind the assignment expression that follows in; all entry points report that comma. Objects that are assignment expressions are accepted (C67)."},
 {"property": "C62", "status": "partial", "theorems": ["C62_duplicate_labels_refuted", "C62_outer_label_forgotten"], "note": "REFUTED: repeated labels are accepted, and the inner one removes the outer one. C62_outer_label_forgotten: whenever, behind directives and items, n: { n: c is followed by break n, for any label n and any statement c without a label of its own, all entry points fail with InvalidLabel for that last n."},
 {"property": "C63", "status": "partial", "theorems": ["C63_destructuring_refuted", "C63_destructuring_always_refused", "C63_loop_patterns_always_refused", "C63_unknown_types_refused"], "note": "REFUTED, and for every document: one with a destructuring assignment or loop at any depth is refused."},
 {"property": "C64", "status": "partial", "theorems": ["C64_computed_keys_refuted", "C64_computed_never_read"], "note": "REFUTED, and for every document: the field computed of a property is never read, so documents that differ there only are converted alike."},
 {"property": "C65", "status": "proved", "theorems": ["C65_other_fields_ignored"], "note": "Errors are not compared, only trees."},
 {"property": "C66", "status": "proved", "theorems": ["C66_reads_exactly_the_grammar", "C66_unambiguous", "C66_errors_are_justified"], "note": "Completeness is LexComp, LexComp2, LexExact; soundness is C03."},
 {"property": "C67", "status": "proved", "theorems": ["C67_script", "C67_strict", "C67_module", "C67_program", "C67_errors_are_justified"], "note": "By induction over the derivation (CompTop.found). The side conditions are those of GX true."},
 {"property": "C68", "status": "partial", "theorems": ["C68_for_let_division_refuted", "C68_for_let_division_never"], "note": "REFUTED: the slash is lexed as a regular expression, and the lexer may panic. C68_for_let_division_never shows that it fails for every text that begins in this way, whatever follows."},
 {"property": "C69", "status": "proved", "theorems": ["C69_unambiguous"], "note": "For the derivations of GX true."},
 {"property": "C70", "status": "proved", "theorems": ["C70_tokens_decide", "C70_same_tokens_same_result", "C70_layout_insignificant"], "note": "By a two-run simulation of every method of the parser (LayProofs) that follows the flags recorded by Cost."},
 {"property": "C71", "status": "proved", "theorems": ["C71_errors_are_honest", "C71_panics_are_honest", "C71_deferred_checks_are_honest"], "note": "The token is one delivered under some sequence of operator flags. That an error is returned only for texts without a derivation is C67."},
 {"property": "C72", "status": "proved", "theorems": ["C72_found", "C72_script_exact", "C72_strict_exact", "C72_module_exact", "C72_program_exact", "C72_script_comments", "C72_strict_comments", "C72_program_comments", "C72_module_comments"], "note": "The side conditions are on the text (no slash, or, in the ..._comments theorems, none but in comments and strings) and the tree (nested labels differ), and each is needed: C56, C62, C68."},
 {"property": "C73", "status": "proved", "theorems": ["C73_decimals_are_nearest", "C73_all_decimals"], "note": "nearest is stated over the rationals in SpecNumber; the parsing of decimals by the standard library is modelled by exact rounding (F64.v)."},
 {"property": "C74", "status": "proved", "theorems": ["C74_untrack_every_field", "C74_untrack_bounds", "C74_tracking_accepts", "C74_tracking_place"], "note": "The macros are functions from declarations to match arms; the arms have a semantics in Derive.v. A tuple without fields counts as refused (overflow check)."},
 {"property": "C75", "status": "proved", "theorems": ["C75_trees_are_values", "C75_values_differ", "C75_declarations_accepted", "C75_untrack", "C75_tracking"], "note": "node_untrack, node_loc and node_set_loc are the functions that C45 and C46 are about."},
 {"property": "C76", "status": "proved", "theorems": ["C76_errors_describe_faults", "C76_refused_iff_faulty", "C76_encodings_are_faultless"], "note": "The faults are specified in SpecBlame.v, role by role, without reference to the conversion."},
 {"property": "C77", "status": "proved", "theorems": ["C77_parts_set_the_location", "C77_operators", "C77_assignments"], "note": "SpecLoc.starts_with_first and ends_with_last list the kinds of nodes; the kinds left out have a token of their own there, are measured by the place of the lexer, or are those for which C43 is refuted."},
 {"property": "C78", "status": "proved", "theorems": ["C78_delimiters"], "note": "SpecLoc.opening and closing list the tokens."},
 {"property": "C79", "status": "proved", "theorems": ["C79_position_text", "C79_positions_identify_places", "C79_locations_identify_spans"], "note": "Line numbers are unbounded in the model (u32 in the code)."},
 {"property": "C80", "status": "proved", "theorems": ["C80_descriptions_tell_kinds", "C80_display_and_cause"], "note": "SpecMessage.alike lists the kinds."},
 {"property": "C81", "status": "proved", "theorems": ["C81_messages_tell_errors", "C81_message_form"], "note": "The quoted form of characters (std) is a parameter assumed to be injective."},
 {"property": "C82", "status": "proved", "theorems": ["C82_messages_tell_errors", "C82_messages_name_faults"], "note": "Rests on C76: the errors that can occur are those SpecBlame describes. The quoted form of strings (std) is a parameter assumed to be injective."},
 {"property": "C83", "status": "partial", "theorems": ["C83_same_answers", "C83_peek_and_skip_fail_alike", "C83_reading_on", "C83_panics_confined", "C83_ends_partial", "C83_illegal_character_stays", "C83_reaching_the_end_refuted"], "note": "REFUTED as stated: the error about an illegal character uses up nothing, so every further request gives it again and the end is never reached (C83_illegal_character_stays, C83_reaching_the_end_refuted). Proved: everything else, and that the end or an illegal character is reached in time (C83_ends_partial)."},
 {"property": "C84", "status": "proved", "theorems": ["C84_same_below_limit", "C84_exact_below_limit", "C84_wraps_without_checks", "C84_panics_with_checks"], "note": "Machine.v is the reader with u32 additions, in the order of the code."},
 {"property": "C85", "status": "proved", "theorems": ["C85_scripts_join", "C85_modules_join", "C85_texts_join", "C85_module_texts_join"], "note": "SpecJoin says when a text ends with its line and when another starts afresh; the second text is given behind the blanked first one, so that even its positions are those it has in the whole. C85_texts_join and C85_module_texts_join take the second text alone when it begins with a line terminator."}
]}
