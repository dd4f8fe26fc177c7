{
 "claims": [
  {
   "property": "C01",
   "status": "proved",
   "theorems": [
    "C01_tokenize_total_lossless",
    "C01_size_bound_sharp"
   ],
   "note": "Model: Lexer.v, Accept.v."
  },
  {
   "property": "C02",
   "status": "proved",
   "theorems": [
    "C02_operator_exact_and_longest",
    "C02_operator_text_is_operator"
   ],
   "note": "Maximal munch over the 28 spellings and the comment/long-string openers."
  },
  {
   "property": "C03",
   "status": "proved",
   "theorems": [
    "C03_keywords_and_identifiers"
   ],
   "note": ""
  },
  {
   "property": "C04",
   "status": "proved",
   "theorems": [
    "C04_whitespace",
    "C04_comment",
    "C04_number"
   ],
   "note": ""
  },
  {
   "property": "C05",
   "status": "proved",
   "theorems": [
    "C05_lexical_errors"
   ],
   "note": "The short-string clause is: an error exactly when the token is not `closed` (LexSpec.v)."
  },
  {
   "property": "C06",
   "status": "partial",
   "theorems": [
    "C06_exactly",
    "C06_short_strings_partial",
    "C06_refuted",
    "C06_refuted_newline"
   ],
   "note": "The full statement is false of the code: \"\\\\\" (a final escaped backslash) and backslash-newline are refuted by theorem. C06_exactly says exactly which literals are read right: those without newline or NUL that do not end in an escaped backslash."
  },
  {
   "property": "C07",
   "status": "partial",
   "theorems": [
    "C07_exactly",
    "C07_long_strings_partial",
    "C07_refuted"
   ],
   "note": "False of the code in general (refuted by theorem); C07_exactly says exactly which are read right."
  },
  {
   "property": "C08",
   "status": "partial",
   "theorems": [
    "C08_exactly",
    "C08_long_comment_partial",
    "C08_refuted"
   ],
   "note": "False of the code: text after ]] on the same line is swallowed into the comment (refuted by theorem). C08_exactly says exactly when a long comment is right."
  },
  {
   "property": "C09",
   "status": "partial",
   "theorems": [
    "C09_exactly",
    "C09_numerals_partial",
    "C09_refuted"
   ],
   "note": "False of the code for .5, 0X, e+ forms (refuted by theorem). C09_exactly: a text is one number token if and only if it is a numeral of this lexer's own grammar; proved right for the other Lua numerals."
  },
  {
   "property": "C10",
   "status": "proved",
   "theorems": [
    "C10_resume",
    "C10_spaced_lexemes"
   ],
   "note": ""
  },
  {
   "property": "C11",
   "status": "proved",
   "theorems": [
    "C11_parse_total",
    "C11_parse_text_total"
   ],
   "note": "Texts shorter than 2^32-1 bytes; call-stack depth is not modelled."
  },
  {
   "property": "C12",
   "status": "proved",
   "theorems": [
    "C12_lossless"
   ],
   "note": ""
  },
  {
   "property": "C13",
   "status": "proved",
   "theorems": [
    "C13_leaves_are_tokens"
   ],
   "note": ""
  },
  {
   "property": "C14",
   "status": "proved",
   "theorems": [
    "C14_root_shape"
   ],
   "note": ""
  },
  {
   "property": "C15",
   "status": "proved",
   "theorems": [
    "C15_error_ranges"
   ],
   "note": ""
  },
  {
   "property": "C16",
   "status": "proved",
   "theorems": [
    "C16_error_nodes_match",
    "C16_no_error_no_node"
   ],
   "note": ""
  },
  {
   "property": "C17",
   "status": "proved",
   "theorems": [
    "C17_layout_independence"
   ],
   "note": ""
  },
  {
   "property": "C18",
   "status": "partial",
   "theorems": [
    "C18_lua_table_partial",
    "C18_own_table",
    "C18_exactly",
    "C18_refuted"
   ],
   "note": "False of the code: a + b - c comes back as a + (b - c). Proved with Lua's parentheses for every tree in which no operator is applied to a looser one of the same Lua precedence, and for every tree with the parentheses the implementation's own table requires."
  },
  {
   "property": "C19",
   "status": "partial",
   "theorems": [
    "C19_left_partial",
    "C19_grouping",
    "C19_refuted"
   ],
   "note": "False of the code (a + b - c, a * b % c, a < b == c). Proved exactly which pairs group to the left and that the others group to the right."
  },
  {
   "property": "C20",
   "status": "partial",
   "theorems": [
    "C20_programs_parse_partial",
    "C20_no_errors_partial",
    "C20_text_partial",
    "C20_written_program_partial",
    "C20_own_reading",
    "C20_exactly",
    "C20_unambiguous",
    "C20_refuted"
   ],
   "note": "False of the code for three kinds of Lua programs: operators of one level (C19), a generic for with several expressions (C21), a statement ending in a table or function followed by a parenthesis. Proved for all other programs, and for all programs as the implementation reads them."
  },
  {
   "property": "C21",
   "status": "partial",
   "theorems": [
    "C21_one_expression_partial",
    "C21_exactly",
    "C21_refuted"
   ],
   "note": "False of the code: one expression only; with more the parser always reports an error (C21_exactly)."
  },
  {
   "property": "C22",
   "status": "proved",
   "theorems": [
    "C22_well_nested_calls",
    "C22_calls_follow_grammar"
   ],
   "note": ""
  },
  {
   "property": "C23",
   "status": "proved",
   "theorems": [
    "C23_no_error_means_derivation"
   ],
   "note": "The grammar is GrammarSpec.v; it contains two productions laxer than Lua, marked there."
  },
  {
   "property": "C24",
   "status": "proved",
   "theorems": [
    "C24_short_string",
    "C24_long_string",
    "C24_unchecked",
    "C24_segmentation_exists",
    "C24_errors_in_document_order",
    "C24_every_string",
    "C24_string_forms",
    "C24_diagnostics_exactly",
    "C24_errors_unique"
   ],
   "note": "C24_every_string and C24_string_forms cover every string token, closed or not. Closed short strings and closed long strings of any level; unclosed short strings and other literals get no escape error."
  },
  {
   "property": "C25",
   "status": "partial",
   "theorems": [
    "C25_supported_escapes_partial",
    "C25_exactly",
    "C25_refuted"
   ],
   "note": "C25_exactly: of the strings Lua allows, those are reported that hold a decimal escape or an escaped newline, and no others. False of the code: decimal escapes and backslash-newline are reported. Proved for all other Lua escapes."
  },
  {
   "property": "C26",
   "status": "partial",
   "theorems": [
    "C26_expression_statements_partial",
    "C26_exactly",
    "C26_accepted_exactly",
    "C24_diagnostics_exactly",
    "C26_refuted"
   ],
   "note": "C26_exactly lists the errors of every expression statement. False of the code: `f(), (x)` is accepted (the Expr cast omits ParenExpr). Proved exactly when no child is a ParenExpr or Error node."
  },
  {
   "property": "C27",
   "status": "partial",
   "theorems": [
    "C27_assignment_targets_partial",
    "C27_exactly",
    "C24_diagnostics_exactly",
    "C27_refuted"
   ],
   "note": "C27_exactly lists the errors of every assignment. False of the code: `(a) = 1` is accepted. Proved exactly when no target is a ParenExpr or Error node."
  },
  {
   "property": "C28",
   "status": "partial",
   "theorems": [
    "C28_validation_ranges_partial",
    "C28_exactly",
    "C28_refuted"
   ],
   "note": "C28_exactly: an error passes the end exactly when the text ends in a half-open bracket string whose last segment is a bad escape. False of the code (x = [=\\q gives a range one past the end); proved when the lexer reports no error, and within one byte always."
  },
  {
   "property": "C29",
   "status": "partial",
   "theorems": [
    "C29_block_stmts_partial",
    "C29_infix_operands_partial",
    "C29_infix_exact",
    "C29_refuted_do",
    "C29_refuted_infix"
   ],
   "note": "False of the code: the Stmt cast omits DoStmt and the Expr cast omits ParenExpr. Proved that these are the only omissions, and exactly which operand each accessor returns for every infix node of every file."
  },
  {
   "property": "C30",
   "status": "partial",
   "theorems": [
    "C30_name_text",
    "C30_name_ref_text_partial",
    "C30_name_ref_text_no_errors",
    "C30_exactly",
    "C30_refuted"
   ],
   "note": "C30_exactly: it panics exactly on empty nodes. Name: proved. NameRef: proved exactly for non-empty nodes and for files without parser errors; `goto` without a name is refuted by theorem."
  },
  {
   "property": "C31",
   "status": "partial",
   "theorems": [
    "C31_pointer_resolves_partial",
    "C31_typed_pointer_resolves_partial",
    "C31_pointers_distinct",
    "C31_exact",
    "C31_refuted"
   ],
   "note": "False of the code: the pointer to the empty block of `function f()end` resolves to another node or panics. Proved for every node whose range is not empty; and for files without errors exactly: a pointer fails iff its node is an empty block whose previous sibling is a parameter list with nothing between."
  },
  {
   "property": "C32",
   "status": "partial",
   "theorems": [
    "C32_traversal",
    "C32_items_not_empty",
    "C32_ids_partial",
    "C32_block_ids_partial",
    "C32_refuted"
   ],
   "note": "False of the code: the query passes the root to from_source, whose assertion needs a parent, so it panics for every file without errors. Proved: the traversal, and that for any other node the map is built and its ids are right."
  },
  {
   "property": "C33",
   "status": "partial",
   "theorems": [
    "C33_refuted",
    "C33_bodies_panic",
    "C33_local_partial",
    "C33_items_partial",
    "C33_functions_refuted",
    "C33_no_params_refuted"
   ],
   "note": "False of the code: the item tree is always empty (or the query panics), function statements are never lowered, nor local functions without parameters. Proved exactly that, and that lowering any list of statements gives the names, parameters and ids of the others, in order."
  },
  {
   "property": "C34",
   "status": "partial",
   "theorems": [
    "C34_token_path",
    "C34_text_partial",
    "C34_refuted",
    "C34_refuted_panic"
   ],
   "note": "False of the code: the block path drops what follows an extra `end`, and panics if the new block text starts with trivia. Proved: the token path is exact, and all that can be lost is one piece of text that starts with a keyword closing a block."
  },
  {
   "property": "C35",
   "status": "partial",
   "theorems": [
    "C35_token_edit",
    "C35_token_edit_tree",
    "C35_block_edit_tree",
    "C35_clean_tree",
    "C35_clean_exact",
    "C35_same_kinds_same_shape",
    "C35_full",
    "C35_block_edit_loses_text",
    "C35_refuted_tree",
    "C35_refuted_errors"
   ],
   "note": "False of the code (edits inside a token can leave two tokens in one leaf, a block edit can lose text, validation is not run again). Proved exactly when it holds: for a file without errors and a reparse that reports none, the result is the full parse iff the leaves of its tree are the tokens of the new text and the new text has no errors; the errors missed are then validation errors only. Files that already have errors are covered for the token path only."
  },
  {
   "property": "C36",
   "status": "partial",
   "theorems": [
    "C36_merge_partial",
    "C36_shrink_panics",
    "C36_shrink_without_later_errors",
    "C36_reparse_errors",
    "C36_refuted"
   ],
   "note": "False of the code: an edit that shrinks the text panics if an old error lies after the range. Proved that this is the only failure, that the merge is right otherwise, and exactly which errors the result of a reparse carries."
  },
  {
   "property": "C37",
   "status": "proved",
   "theorems": [
    "C37_apply",
    "C37_right_to_left",
    "C37_constructors"
   ],
   "note": ""
  },
  {
   "property": "C38",
   "status": "proved",
   "theorems": [
    "C38_apply_to_offset",
    "C38_same_character",
    "C38_invalidates",
    "C38_offset"
   ],
   "note": ""
  },
  {
   "property": "C39",
   "status": "proved",
   "theorems": [
    "C39_builder",
    "C39_builder_stable",
    "C39_union",
    "C39_union_commutes"
   ],
   "note": ""
  },
  {
   "property": "C40",
   "status": "proved",
   "theorems": [
    "C40_new_total",
    "C40_line_col",
    "C40_offset_of_line_col",
    "C40_line_col_of_offset"
   ],
   "note": ""
  },
  {
   "property": "C41",
   "status": "proved",
   "theorems": [
    "C41_to_utf16",
    "C41_to_utf8"
   ],
   "note": ""
  },
  {
   "property": "C42",
   "status": "proved",
   "theorems": [
    "C42_position",
    "C42_offset",
    "C42_offset_exact"
   ],
   "note": "C42_offset_exact: the byte every position leads to, valid or not."
  },
  {
   "property": "C43",
   "status": "proved",
   "theorems": [
    "C43_sequential",
    "C43_batch",
    "C43_batch_exact",
    "C43_exact",
    "C43_order_needed"
   ],
   "note": "C43_exact: a batch succeeds exactly when each change in turn can be made. Ranges whose positions denote places of the text; for arbitrary positions, batch = one by one when the lines of each range are in order."
  },
  {
   "property": "C44",
   "status": "proved",
   "theorems": [
    "C44_total",
    "C44_partition_point"
   ],
   "note": ""
  },
  {
   "property": "C45",
   "status": "proved",
   "theorems": [
    "C45_map",
    "C45_iter",
    "C45_len"
   ],
   "note": "Fewer than 2^32-1 calls (the interner asserts on the id)."
  },
  {
   "property": "C46",
   "status": "proved",
   "theorems": [
    "C46_ids"
   ],
   "note": ""
  },
  {
   "property": "C47",
   "status": "proved",
   "theorems": [
    "C47_log",
    "C47_has_changes",
    "C47_record"
   ],
   "note": ""
  },
  {
   "property": "C48",
   "status": "proved",
   "theorems": [
    "C48_open_documents"
   ],
   "note": ""
  },
  {
   "property": "C49",
   "status": "proved",
   "theorems": [
    "C49_database",
    "C49_invalid_utf8"
   ],
   "note": "Contents that are not UTF-8 have the empty text in the database."
  },
  {
   "property": "C50",
   "status": "partial",
   "theorems": [
    "C50_no_panic_partial",
    "C50_exactly",
    "C50_refuted_loader",
    "C50_refuted_library",
    "C50_refuted_messages"
   ],
   "note": "False of the code: a file reported and then reported missing in one loader turn, a relative library path, an unknown response id or undecodable notification parameters panic. Proved that clients and loaders that do none of these never make the server panic, and (C50_exactly) that a history makes it panic exactly when one of five kinds of event occurs in it."
  },
  {
   "property": "C51",
   "status": "proved",
   "theorems": [
    "C51_exactly_once",
    "C51_answers_due",
    "C51_immediate",
    "C51_at_most_once"
   ],
   "note": ""
  },
  {
   "property": "C52",
   "status": "partial",
   "theorems": [
    "C52_published_partial",
    "C52_never_closed",
    "C52_never_stale",
    "C52_shown_exactly",
    "C52_exactly",
    "C52_refuted"
   ],
   "note": "False of the code: a document that was closed and reopened with the same diagnostics shows none. Proved that this is the only failure, that what is published is never stale, exactly what is shown for every path after every history, and exactly when a reopened document shows none."
  },
  {
   "property": "C53",
   "status": "partial",
   "theorems": [
    "C53_close_partial",
    "C53_exactly",
    "C53_analysed",
    "C53_refuted"
   ],
   "note": "False of the code: didClose does not restore the contents on disk. C53_exactly: the server analyses the last contents reported since the close, and the client's last text as long as none were; C53_analysed says for every file which contents are analysed."
  },
  {
   "property": "C54",
   "status": "proved",
   "theorems": [
    "C54_first_128",
    "C54_position_total",
    "C54_published"
   ],
   "note": ""
  },
  {
   "property": "C55",
   "status": "proved",
   "theorems": [
    "C55_new_contains",
    "C55_union_contains",
    "C55_empty_contains",
    "C55_fits_u128"
   ],
   "note": ""
  },
  {
   "property": "C56",
   "status": "proved",
   "theorems": [
    "C56_round_trip",
    "C56_distinct",
    "C56_only_valid"
   ],
   "note": ""
  },
  {
   "property": "C57",
   "status": "proved",
   "theorems": [
    "C57_false_changes_nothing",
    "C57_only_consumes",
    "C57_one_char",
    "C57_while",
    "C57_until",
    "C57_while_count",
    "C57_repeat",
    "C57_seq",
    "C57_refuted_eof",
    "C57_refuted_while"
   ],
   "note": "The two refuted theorems show why the NUL and nested-While restrictions in the statement are needed."
  },
  {
   "property": "C58",
   "status": "proved",
   "theorems": [
    "C58_later_binds_tighter",
    "C58_associativity",
    "C58_powers_in_range",
    "C58_undeclared",
    "C58_total"
   ],
   "note": ""
  },
  {
   "property": "C59",
   "status": "proved",
   "theorems": [
    "C59_normalize",
    "C59_idempotent"
   ],
   "note": "Unix paths; Windows prefixes are not modelled."
  },
  {
   "property": "C60",
   "status": "proved",
   "theorems": [
    "C60_collection"
   ],
   "note": "Lists are compared as the code compares them: source, severity, range, message."
  },
  {
   "property": "C61",
   "status": "proved",
   "theorems": [
    "C61_files_loaded",
    "C61_only",
    "C61_last_read",
    "C61_lua_files"
   ],
   "note": "Model of the combined system of server and loader thread with a disk that may change at every step."
  },
  {
   "property": "C62",
   "status": "proved",
   "theorems": [
    "C62_configurations",
    "C62_defined",
    "C62_absolute"
   ],
   "note": ""
  },
  {
   "property": "C63",
   "status": "proved",
   "theorems": [
    "C63_reports",
    "C63_progress",
    "C63_bounded"
   ],
   "note": ""
  },
  {
   "property": "C64",
   "status": "partial",
   "theorems": [
    "C64_only_opened",
    "C64_close_partial",
    "C64_exactly",
    "C64_refuted"
   ],
   "note": "False of the code: open, close, then the task computed before the close publishes its diagnostics. Proved: only opened documents get diagnostics, none after a close when no task was pending, and exactly when a closed document shows diagnostics, and which."
  },
  {
   "property": "C65",
   "status": "partial",
   "theorems": [
    "C65_exactly",
    "C65_initial_never",
    "C65_refuted"
   ],
   "note": "False of the code: a configuration equal to the initial one is never loaded. Proved exactly: the libraries of the options are loaded if and only if the client's settings change to others and then back."
  },
  {
   "property": "C66",
   "status": "partial",
   "theorems": [
    "C66_call_stat",
    "C66_assign",
    "C66_local",
    "C66_local_init",
    "C66_local_function",
    "C66_function",
    "C66_while",
    "C66_repeat",
    "C66_do",
    "C66_for",
    "C66_numeric_for",
    "C66_generic_for",
    "C66_return0",
    "C66_return",
    "C66_break",
    "C66_goto",
    "C66_label",
    "C66_label_delim",
    "C66_else",
    "C66_name_ref",
    "C66_name",
    "C66_paren",
    "C66_function_expr",
    "C66_prefix",
    "C66_infix",
    "C66_call",
    "C66_method_call",
    "C66_index",
    "C66_index_part",
    "C66_dot",
    "C66_no_args",
    "C66_arg_list",
    "C66_positional",
    "C66_key_value",
    "C66_table_sep",
    "C66_function_method",
    "C66_function_static",
    "C66_source_file",
    "C66_if",
    "C66_else_if",
    "C66_literal",
    "C66_call_args",
    "C66_params",
    "C66_names",
    "C66_path",
    "C66_exprs",
    "C66_stmts",
    "C66_table",
    "C66_program_partial",
    "C66_refuted"
   ],
   "note": "For every construct of Lua the result of each accessor is given exactly, for all programs. False of the code for the accessors listed in C66_refuted (parenthesized expressions are not expressions to the accessors, ForStmt::content, FunctionDefStmt::function_def_content, TableExpr::table_contents, KeyValue::key, ReturnStmt::expr, GenericFor::expr, ArgList::args and FunctionStatic::dot_token find nothing, LabelStmt::finish returns the first delimiter, do-blocks are missing from Block::stmts)."
  },
  {
   "property": "C67",
   "status": "proved",
   "theorems": [
    "C67_tree",
    "C67_errors",
    "C67_after_semicolon"
   ],
   "note": "Valid means valid in the implementation's own reading (block_ok impl), which C20 relates to Lua."
  },
  {
   "property": "C68",
   "status": "proved",
   "theorems": [
    "C68_reading",
    "C68_any_expression",
    "C68_unambiguous"
   ],
   "note": "The vocabulary is LuaSyntax.v (syntax of programs) and LuaDialect.v (the implementation's table of powers)."
  },
  {
   "property": "C69",
   "status": "proved",
   "theorems": [
    "C69_kinds_decide"
   ],
   "note": "Both the tree and the parser's errors."
  },
  {
   "property": "C70",
   "status": "proved",
   "theorems": [
    "C70_some_token",
    "C70_no_choice",
    "C70_tokenize",
    "C70_errors_need_no_context"
   ],
   "note": "The rules are the inductive relation token_rule of LexRules.v, written without reference to the lexer."
  },
  {
   "property": "C71",
   "status": "proved",
   "theorems": [
    "C71_editor_shows",
    "C71_errors_are_pieces",
    "C71_brackets_complete",
    "C71_valid_program_is_clean"
   ],
   "note": "brackets_complete holds whenever the lexer reports no error (C71_brackets_complete); without it the escape errors of such a token are shifted by one byte (C28_refuted)."
  },
  {
   "property": "C72",
   "status": "proved",
   "theorems": [
    "C72_grouping"
   ],
   "note": "Every text, also with errors. The table of powers and the grouping rules are Grouping.v, written over trees only. C18_exactly, C20_exactly and C21_exactly use it to show that the partial theorems of C18, C20 and C21 cover exactly the cases in which the code is right."
  },
  {
   "property": "C73",
   "status": "proved",
   "theorems": [
    "C73_exact_language",
    "C73_unambiguous",
    "C73_rejected"
   ],
   "note": "Both directions: soundness is C23 and C72, completeness is the induction of TreeComplete.v over all derivations. The grammar is GrammarSpec.v with strict = true; where it differs from Lua's is the subject of C18 to C21 and C68."
  },
  {
   "property": "C74",
   "status": "proved",
   "theorems": [
    "C74_clean_exactly",
    "C74_tree"
   ],
   "note": "Lexical rules: LexRules.v; grammar and grouping: GrammarSpec.v, Grouping.v; the rules about parts of nodes: node_clean in PropsClean.v with ValidSpec.v. The rules are the implementation's; C20, C24 to C27 say where Lua's differ."
  },
  {
   "property": "C75",
   "status": "proved",
   "theorems": [
    "C75_tree",
    "C75_diagnostics",
    "C75_depth_grows"
   ],
   "note": "nodes and depth count the nodes of the green tree. C75_depth_grows exhibits a family without errors for every n that fits in 4 GiB. Stack use of the Rust process is not modelled: the depth bound only says how deep the parser recursion is at most, not that the stack suffices."
  },
  {
   "property": "C76",
   "status": "proved",
   "theorems": [
    "C76_fields_exactly",
    "C76_trailing_part_lost",
    "C76_trailing_list_first_only",
    "C76_lists_complete",
    "C76_fails_exactly",
    "C76_types",
    "C76_accessors_generated",
    "C76_kinds_generated",
    "C76_casts_generated",
    "C76_macros_generated",
    "C76_unreachable_kinds",
    "C76_punctuation"
   ],
   "note": "The output is modelled as data, not as Rust source; the parsers of the ungrammar and toml crates and rustfmt are not modelled, the two assets are transcribed by script. That the output for lua.ungram is wrong about the trees the parser builds is the subject of C29 and C66."
  },
  {
   "property": "C77",
   "status": "partial",
   "theorems": [
    "C77_corrected_exactly",
    "C77_rest_unchanged",
    "C77_refuted"
   ],
   "note": "False of the code: fifteen of the 53 rules of lua.ungram are wrong (each refuted on its own, and shown repaired by the correction). Proved, in both directions, for the file with those rules corrected and five rules sharpened; what rules without context cannot say (where a list may end in a comma or dot) is the predicate ends_ok."
  },
  {
   "property": "C78",
   "status": "proved",
   "theorems": [
    "C78_extract_offset",
    "C78_extract_range",
    "C78_two_markers_panic",
    "C78_update"
   ],
   "note": "A failing write is modelled as leaving the disk unchanged. format_diff is modelled but nothing is claimed about it; the diff itself (dissimilar) is not modelled."
  },
  {
   "property": "C79",
   "status": "partial",
   "theorems": [
    "C79_path_survives",
    "C79_decoding",
    "C79_denotes",
    "C79_canonical_exactly",
    "C79_published_under",
    "C79_canonical_partial",
    "C79_close_partial",
    "C79_refuted",
    "C79_refuted_close"
   ],
   "note": "False of the code: file:///a%2Bb.lua is opened and closed, its diagnostics appear, and stay, under file:///a+b.lua. Proved: diagnostics go to the canonical URI of the opened path, that is the opened URI exactly when it is canonical, and with canonical URIs everything the server model says about paths holds of URIs. The url and percent-encoding crates are modelled from their documentation; URLs are given parsed."
  },
  {
   "property": "C80",
   "status": "proved",
   "theorems": [
    "C80_rest_alone",
    "C80_exactly",
    "C80_whatever_precedes"
   ],
   "note": "The errors are compared as multisets (Permutation): the code puts parser, lexer and validation errors one after the other."
  },
  {
   "property": "C81",
   "status": "proved",
   "theorems": [
    "C81_beginning_kept",
    "C81_errors_kept",
    "C81_one_token_needed"
   ],
   "note": "The grammar looks two tokens ahead in five places (LookProofs.v shows that the first of them is always consumed before the statement ends, so one token after the cut is enough; C81_one_token_needed shows it is necessary). cuts says that the lexer does not join tokens across the two ends."
  },
  {
   "property": "C82",
   "status": "partial",
   "theorems": [
    "C82_exit",
    "C82_after_exit",
    "C82_disconnect",
    "C82_ends",
    "C82_ends_at_exit",
    "C82_status_exact",
    "C82_answered",
    "C82_status_refuted",
    "C82_answered_refuted"
   ],
   "note": "False of the code in two points: an exit without shutdown ends with status 0 where the protocol asks for 1, and a completion request may be left unanswered when the exit is read before the task channel. Proved: exactly when and in which state a session ends; the status is right exactly when no exit comes without shutdown; all other requests are answered, and all of them if the tasks are handled before the exit. The initialization handshake belongs to lsp_server and is not modelled."
  },
  {
   "property": "C83",
   "status": "proved",
   "theorems": [
    "C83_requests",
    "C83_documents",
    "C83_ignored"
   ],
   "note": "Whether the parameters of a request decode is part of the input (serde is not modelled)."
  },
  {
   "property": "C84",
   "status": "proved",
   "theorems": [
    "C84_checked",
    "C84_parent",
    "C84_join",
    "C84_strip_prefix",
    "C84_normalize"
   ],
   "note": "std::path of Unix is modelled on texts as its source does it (splitting from both ends, trimming); paths that are not UTF-8 and Windows prefixes are not."
  },
  {
   "property": "C85",
   "status": "proved",
   "theorems": [
    "C85_any_order"
   ],
   "note": "HashOrder.v is Server.v with a permutation chosen for every iteration; fixed_run shows that Server.v is the case where it is the identity, so the other server theorems do not depend on the order chosen there, per document. Both readings of Panic (a panic and fuel) are kept apart from success, not from each other."
  },
  {
   "property": "C86",
   "status": "proved",
   "theorems": [
    "C86_enough",
    "C86_needed",
    "C86_no_stack_is_enough"
   ],
   "note": "Activations of stmt, expr_bp and elseif_branch are counted; a bounded number of frames of the other grammar functions lies between two of them. The size of frames, and rowan dropping a tree recursively, are not modelled."
  },
  {
   "property": "C87",
   "status": "proved",
   "theorems": [
    "C87_versions",
    "C87_close",
    "C87_other_uri",
    "C87_never_back"
   ],
   "note": "For every history the server survives, whether or not the client follows the protocol. Versions are the client's i32 values, as integers."
  },
  {
   "property": "C88",
   "status": "proved",
   "theorems": [
    "C88_parser",
    "C88_linear"
   ],
   "note": "Operations of the parser and turns of process are counted, not time; the lexer, and the tree builder beyond the number of calls made to it, are not counted."
  },
  {
   "property": "C89",
   "status": "proved",
   "theorems": [
    "C89_tokens",
    "C89_syntax",
    "C89_diagnostics",
    "C89_accepted",
    "C89_positions",
    "C89_conversion",
    "C89_needed",
    "C89_ends"
   ],
   "note": "crs in CrLf.v says which texts are related, same_place in CrLfTree.v which places. C89_needed and C89_ends show that the condition on lexical errors and the restriction to the start of the errors of the validation cannot be dropped."
  },
  {
   "property": "C90",
   "status": "proved",
   "theorems": [
    "C90_cannot_continue"
   ],
   "note": "Programs and the tokens of a text are compared by kind; by C73 an error-free program is a token sequence with a reading."
  },
  {
   "property": "C91",
   "status": "partial",
   "theorems": [
    "C91_can_continue",
    "C91_always_can_refuted"
   ],
   "note": "False of the code in just one way, proved: after a dot and a colon in the name of a function (function a.:(b) end) the error is reported at the token after the colon. For every other text with errors the tokens before the first error can be completed to a program, by at most eight tokens for each of them; tokens ending in a dot and a colon begin no program."
  },
  {
   "property": "C92",
   "status": "proved",
   "theorems": [
    "C92_edits_are_local"
   ],
   "note": "The two hypotheses about where the trees are cut are what a correct incremental reparser has to check; C81_one_token_needed shows that one token before the change is not enough."
  },
  {
   "property": "C93",
   "status": "partial",
   "theorems": [
    "C93_messages_are_true",
    "C93_name_after_dot_colon_refuted"
   ],
   "note": "False of the code in just one way, proved: after a dot and a colon in the name of a function (function a.:(b) end) a name is said to be expected, and no program has one there. For every other text the promise is kept, by at most eight more tokens for each of those there. wants lists the messages that name a token; the others (Expected an expression, Expected a statement, ...) name none."
  },
  {
   "property": "C94",
   "status": "proved",
   "theorems": [
    "C94_every_message_is_true"
   ],
   "note": "For all diagnostics of the parser, including those after recovery; messages in PropsSays.v is the list of the eleven sentences, asked the form of the others. The lexer's and the validation's messages are not meant (C05, C28)."
  }
 ]
}