# Formal model of lua-analyzer in Coq: design

Source: /repo (oberblastmeister/lua-analyzer), read as text and never built here.
Model and proofs: /verif/rocq/theories (logical name `Verif`), Coq 8.16.1, standard library only.

## 1. What is modelled

Model files define the program, function by function, each definition with the lines of /repo it stands for.
They contain no theorems about properties.

| model file | code |
|---|---|
| Base.v | panics and fuel as values (`res`), characters, UTF-8 lengths, byte slicing |
| SyntaxKind.v, TokenSet.v | crates/parser/src/syntax_kind*, token_set.rs |
| Accept.v | lib/accept (CharSource, Lexable, Accept, combinators) |
| Lexer.v | crates/syntax/src/parsing/lexer.rs and the lexer proper, as written over `accept` |
| BindingPowers.v | lib/binding_powers and the generated operator table |
| Parser.v, Grammar.v | crates/parser/src/parser.rs, lib.rs, grammar.rs, grammar/*.rs, over abstract operations that are instantiated with the event list (`ev_ops`) |
| Event.v | crates/parser/src/event.rs (forward parents) |
| Tree.v, TreeSink.v | rowan green trees and builder, text_token_source.rs, text_tree_sink.rs, syntax_node.rs |
| Ast.v, AstNodes.v | ast.rs, ast/*_ext.rs and all 122 accessors of ast/generated/nodes.rs |
| Validation.v | validation.rs, SourceFile::parse |
| Ptr.v, Reparse.v, Hir.v | ptr.rs; parsing/reparsing.rs and Parse::reparse; hir's AstIdMap, item tree and queries |
| TextEdit.v, LineIndex.v, Stdx.v | text_edit; ide_db/line_index.rs, from_proto/to_proto positions, lsp_utils.rs; stdx partition_point and paths |
| Vfs.v, Ide.v, Server.v, Loader.v | vfs; ide diagnostics and DiagnosticCollection; the whole main loop of the language server (events, dispatch, requests, configuration, tasks); the file loader thread and the system made of server, loader, disk and the two channels |
| Codegen.v | xtask/src/codegen/gen_syntax, the assets lua.ungram and ast_src.toml, and the generated macros and token casts (ast/generated/tokens.rs) |
| Uri.v | the URI conversions of from_proto.rs, to_proto.rs and global_state.rs, with url and percent-encoding as documented; the server seen from the wire |
| Paths.v | stdx/src/paths.rs on the texts of paths, with std::path of Unix |
| HashOrder.v | the iterations over hash maps and sets in global_state.rs and main_loop.rs, in any order |
| Depth.v | grammar.rs, statements.rs, expressions.rs on a bounded call stack |
| Work.v | parser.rs, event.rs `process`: operations counted |
| Session.v | main.rs, the loop of main_loop.rs with its three channels and the end of the process, caps.rs |
| TestUtils.v | crates/test_utils/src/lib.rs, xtask/src/utils.rs `update` |
| Snapshots.v | not a model: the repository's own parser snapshots replayed on the model, to tie the model to recorded outputs of the real program |

Specification files state what is meant, without using the model's helpers: LexSpec.v (spellings, keywords, literal forms,
errors per token), ParseSpec.v (lexemes of a text, skeleton of a tree, nesting of sink calls), GrammarSpec.v (productions),
ValidSpec.v (escapes and what validation should say), LuaSyntax.v and LuaDialect.v (abstract Lua programs, how they are
written, the tree they dictate, and the two readings `lua` and `impl`), LexRules.v (lexical rules as an inductive relation),
Grouping.v (the operator table and what it means for a tree to be grouped by it), GrammarDoc.v (the meaning of lua.ungram and its corrections).

All other files without `Props` in their name are proof tools. `Props*.v` contain the property theorems, each
followed by `Print Assumptions`, and Examples that show a concrete non-trivial case meeting the hypotheses.

Not modelled: token_text.rs, cancellation.rs, the initialization handshake (lsp_server), parsing of URLs, completion/hover constants, test_utils' printing of diffs, the rest of xtask (command line, rustfmt, the parsers of the asset formats), salsa's caching,
interning and cancellation, logging, JSON-RPC framing and decoding (messages arrive decoded, or as undecodable), a client that
stops reading, `load_sync`, the size of stack frames, memory, timing, Windows paths, the i32 overflow of the outgoing request counter.

## 2. Method

* A Rust panic (assert!, unwrap, indexing, unreachable!, integer overflow and underflow as in builds with overflow checks,
  slicing off a character boundary, rowan's assertions, drop bombs) is the value `Panic`.
* Loops and recursion without a structural measure take fuel and return `OutOfFuel` when it runs out. The theorems show that
  the fuel the entry points supply always suffices (C11), and ParserFuel.v that more fuel gives the same result.
* Text is a list of code points (N); all offsets are UTF-8 byte offsets. File contents are bytes that are valid UTF-8 (`CText`)
  or not (`CRaw`).
* The parser is modelled at the level of the event list with forward_parent links, exactly as written. The grammar is written
  once over abstract operations. Proofs go through a second instance that builds trees directly (ParserTree.v), shown equal
  to the event instance followed by `process` (ParserRefine.v, EventProofs.v), and through `dress`, which adds trivia to such
  a tree, shown equal to the sink (SinkProofs.v, DressProofs.v).
* The lexer is modelled over the accept combinators; proofs go through a direct version (LexerDirect.v) shown equal to it.
* The server is a function from state and event to state, messages and tasks; properties are invariants over all histories.
  The loader and the server are a labelled transition system; properties quantify over all interleavings, and the disk may
  change between any two steps.
* A property that is false of the code has a `_refuted` theorem with a concrete witness, and the strongest true version we
  found: a theorem with suffix `_partial`, or an exact description of what the code does instead. Those are `partial` in
  MANIFEST.json with the missing part in the note.

## 3. Properties

* **C01 Tokenization is total and lossless** (proved; PropsLexer.v). Induction over the text; each lexer branch takes a non-empty prefix. Model: Lexer.v, Accept.v. Theorems: C01_tokenize_total_lossless, C01_size_bound_sharp.
* **C02 Fixed-spelling tokens are exact and operators are maximal munch** (proved; PropsLexer.v). Case analysis of the direct lexer against the table of spellings. Maximal munch over the 28 spellings and the comment/long-string openers. Theorems: C02_operator_exact_and_longest, C02_operator_text_is_operator.
* **C03 Keywords and identifiers are exactly classified** (proved; PropsLexer.v). Maximal runs by induction; keyword table in LexSpec.v.  Theorems: C03_keywords_and_identifiers.
* **C04 Whitespace, comments and numbers have the right extent** (proved; PropsLexer.v). Each branch characterised by the prefix it takes.  Theorems: C04_whitespace, C04_comment, C04_number.
* **C05 Lexical errors are reported exactly once per faulty token, on its span** (proved; PropsLexer.v). One optional message per token, position by position. The short-string clause is: an error exactly when the token is not `closed` (LexSpec.v). Theorems: C05_lexical_errors.
* **C06 Every Lua short string literal is one error-free string token** (partial; PropsLexRules.v, PropsLexer.v). Induction over the body. The full statement is false of the code: "\\" (a final escaped backslash) and backslash-newline are refuted by theorem. C06_exactly says exactly which literals are read right: those without newline or NUL that do not end in an escaped backslash. Theorems: C06_exactly, C06_short_strings_partial, C06_refuted, C06_refuted_newline.
* **C07 Every Lua long string literal is one error-free string token** (partial; PropsLexRules.v, PropsLexer.v). Search for the close bracket by induction. False of the code in general (refuted by theorem); C07_exactly says exactly which are read right. Theorems: C07_exactly, C07_long_strings_partial, C07_refuted.
* **C08 A long comment ends at its close bracket** (partial; PropsLexRules.v, PropsLexer.v). Witness, and the comments without text after the bracket. False of the code: text after ]] on the same line is swallowed into the comment (refuted by theorem). C08_exactly says exactly when a long comment is right. Theorems: C08_exactly, C08_long_comment_partial, C08_refuted.
* **C09 Every Lua numeral is one number token** (partial; PropsLexRules.v, PropsLexer.v). Forms of numerals in LexSpec.v. False of the code for .5, 0X, e+ forms (refuted by theorem). C09_exactly: a text is one number token if and only if it is a numeral of this lexer's own grammar; proved right for the other Lua numerals. Theorems: C09_exactly, C09_numerals_partial, C09_refuted.
* **C10 Tokenization is context free and can resume at any token boundary** (proved; PropsLexer.v). The lexer has no state: a suffix at a boundary lexes the same.  Theorems: C10_resume, C10_spaced_lexemes.
* **C11 Parsing never panics and always terminates** (proved; PropsParser.v). Refinement of the event parser to the tree parser, a progress measure for each loop, and totality of sink and validation. Texts shorter than 2^32-1 bytes; call-stack depth is not modelled. Theorems: C11_parse_total, C11_parse_text_total.
* **C12 The syntax tree is lossless** (proved; PropsParser.v). The sink consumes every raw token once.  Theorems: C12_lossless.
* **C13 The tree's tokens are the lexer's tokens in order** (proved; PropsParser.v). Same invariant, with kinds.  Theorems: C13_leaves_are_tokens.
* **C14 The root is one SourceFile containing exactly one Block** (proved; PropsParser.v). Shape of the run of `root`.  Theorems: C14_root_shape.
* **C15 Parser and lexer error ranges are valid** (proved; PropsParser.v). Positions are sums of token lengths.  Theorems: C15_error_ranges.
* **C16 Error nodes and error reports agree** (proved; PropsParser.v). Error nodes and error events are created together.  Theorems: C16_error_nodes_match, C16_no_error_no_node.
* **C17 Layout independence** (proved; PropsParser.v). The grammar reads kinds of non-trivia tokens only; the sink by induction.  Theorems: C17_layout_independence.
* **C18 Operators group by precedence and associativity for every expression** (partial; PropsGroup.v, PropsLua.v). Induction over expressions with a binding-power invariant. False of the code: a + b - c comes back as a + (b - c). Proved with Lua's parentheses for every tree in which no operator is applied to a looser one of the same Lua precedence, and for every tree with the parentheses the implementation's own table requires. Theorems: C18_lua_table_partial, C18_own_table, C18_exactly, C18_refuted.
* **C19 Operators of equal Lua precedence associate to the left** (partial; PropsLua.v). Same, for all pairs of operators. False of the code (a + b - c, a * b % c, a < b == c). Proved exactly which pairs group to the left and that the others group to the right. Theorems: C19_left_partial, C19_grouping, C19_refuted.
* **C20 Every program of the Lua grammar parses without error into the expected tree** (partial; PropsGroup.v, PropsLua.v). Induction over programs, one run lemma per construct; unambiguity from determinism. False of the code for three kinds of Lua programs: operators of one level (C19), a generic for with several expressions (C21), a statement ending in a table or function followed by a parenthesis. Proved for all other programs, and for all programs as the implementation reads them. Theorems: C20_programs_parse_partial, C20_no_errors_partial, C20_text_partial, C20_written_program_partial, C20_own_reading, C20_exactly, C20_unambiguous, C20_refuted.
* **C21 Generic for accepts an expression list** (partial; PropsGroup.v, PropsLua.v). Same. False of the code: one expression only; with more the parser always reports an error (C21_exactly). Theorems: C21_one_expression_partial, C21_exactly, C21_refuted.
* **C22 The parser drives the tree builder with well-nested calls** (proved; PropsParser.v). Well-nestedness of `process` on event lists with forward parents.  Theorems: C22_well_nested_calls, C22_calls_follow_grammar.
* **C23 An error-free parse means the token sequence is in the grammar** (proved; PropsParser.v). The tree relation of the grammar, with errors switched off. The grammar is GrammarSpec.v; it contains two productions laxer than Lua, marked there. Theorems: C23_no_error_means_derivation.
* **C24 Escape validation is exact** (proved; PropsExact.v, PropsReport.v, PropsValid.v). Induction over string bodies. C24_every_string and C24_string_forms cover every string token, closed or not. Closed short strings and closed long strings of any level; unclosed short strings and other literals get no escape error. Theorems: C24_short_string, C24_long_string, C24_unchecked, C24_segmentation_exists, C24_errors_in_document_order, C24_every_string, … (9 in all, see MANIFEST.json).
* **C25 Every Lua escape sequence is accepted** (partial; PropsExact.v, PropsValid.v). Same. C25_exactly: of the strings Lua allows, those are reported that hold a decimal escape or an escaped newline, and no others. False of the code: decimal escapes and backslash-newline are reported. Proved for all other Lua escapes. Theorems: C25_supported_escapes_partial, C25_exactly, C25_refuted.
* **C26 Expression statements are validated exactly** (partial; PropsExact.v, PropsReport.v, PropsValid.v). Children of the statement, exactly. C26_exactly lists the errors of every expression statement. False of the code: `f(), (x)` is accepted (the Expr cast omits ParenExpr). Proved exactly when no child is a ParenExpr or Error node. Theorems: C26_expression_statements_partial, C26_exactly, C26_accepted_exactly, C24_diagnostics_exactly, C26_refuted.
* **C27 Assignment targets are validated exactly** (partial; PropsExact.v, PropsReport.v, PropsValid.v). Same. C27_exactly lists the errors of every assignment. False of the code: `(a) = 1` is accepted. Proved exactly when no target is a ParenExpr or Error node. Theorems: C27_assignment_targets_partial, C27_exactly, C24_diagnostics_exactly, C27_refuted.
* **C28 Validation error ranges lie in the text** (partial; PropsExact.v, PropsParser.v). Ranges of validation errors against token boundaries. C28_exactly: an error passes the end exactly when the text ends in a half-open bracket string whose last segment is a bad escape. False of the code (x = [=\q gives a range one past the end); proved when the lexer reports no error, and within one byte always. Theorems: C28_validation_ranges_partial, C28_exactly, C28_refuted.
* **C29 Typed accessors see every statement and expression** (partial; PropsValid.v). Casts against the kinds the grammar creates. False of the code: the Stmt cast omits DoStmt and the Expr cast omits ParenExpr. Proved that these are the only omissions, and exactly which operand each accessor returns for every infix node of every file. Theorems: C29_block_stmts_partial, C29_infix_operands_partial, C29_infix_exact, C29_refuted_do, C29_refuted_infix.
* **C30 Name text accessors never panic** (partial; PropsExact.v, PropsParser.v). First leaf of a name node. C30_exactly: it panics exactly on empty nodes. Name: proved. NameRef: proved exactly for non-empty nodes and for files without parser errors; `goto` without a name is refuted by theorem. Theorems: C30_name_text, C30_name_ref_text_partial, C30_name_ref_text_no_errors, C30_exactly, C30_refuted.
* **C31 Syntax node pointers resolve to the node they were made from** (partial; PropsPtr.v, PtrExact.v). Descent by range along the tree; rank argument for nested nodes with equal ranges. False of the code: the pointer to the empty block of `function f()end` resolves to another node or panics. Proved for every node whose range is not empty; and for files without errors exactly: a pointer fails iff its node is an empty block whose previous sibling is a parameter list with nothing between. Theorems: C31_pointer_resolves_partial, C31_typed_pointer_resolves_partial, C31_pointers_distinct, C31_exact, C31_refuted.
* **C32 The AST id map is total and gives every item a distinct id** (partial; PropsHir.v). The traversal is a permutation of the descendants. False of the code: the query passes the root to from_source, whose assertion needs a parent, so it panics for every file without errors. Proved: the traversal, and that for any other node the map is built and its ids are right. Theorems: C32_traversal, C32_items_not_empty, C32_ids_partial, C32_block_ids_partial, C32_refuted.
* **C33 The item tree lists the file's top-level items** (partial; PropsHir.v). Lowering of statements. False of the code: the item tree is always empty (or the query panics), function statements are never lowered, nor local functions without parameters. Proved exactly that, and that lowering any list of statements gives the names, parameters and ids of the others, in order. Theorems: C33_refuted, C33_bodies_panic, C33_local_partial, C33_items_partial, C33_functions_refuted, C33_no_params_refuted.
* **C34 Incremental reparse preserves the edited text** (partial; PropsReparse.v). Replacement along a path keeps all other leaves. False of the code: the block path drops what follows an extra `end`, and panics if the new block text starts with trivia. Proved: the token path is exact, and all that can be lost is one piece of text that starts with a keyword closing a block. Theorems: C34_token_path, C34_text_partial, C34_refuted, C34_refuted_panic.
* **C35 Incremental reparse equals a full reparse** (partial; PropsBlock.v, PropsReparse.v). Token path: leaves and shape determine a tree. Block path: the tree of a file without errors is the one reading of its tokens (C73); replacing one block of it by a block that was parsed alone keeps it derivable and well grouped (BlockSwap.v, induction on derivations), and putting trivia back commutes with the replacement (BlockDress.v), so the new tree is the reading of the new tokens. Errors: a lexeme read without an error in one context has none in any (LexClean.v). False of the code (edits inside a token can leave two tokens in one leaf, a block edit can lose text, validation is not run again). Proved exactly when it holds: for a file without errors and a reparse that reports none, the result is the full parse iff the leaves of its tree are the tokens of the new text and the new text has no errors; the errors missed are then validation errors only. Files that already have errors are covered for the token path only. Theorems: C35_token_edit, C35_token_edit_tree, C35_block_edit_tree, C35_clean_tree, C35_clean_exact, C35_same_kinds_same_shape, … (10 in all, see MANIFEST.json).
* **C36 Merging errors after an incremental reparse never panics and shifts correctly** (partial; PropsMerge.v, PropsReparse.v). Case analysis of the merge over error lists. False of the code: an edit that shrinks the text panics if an old error lies after the range. Proved that this is the only failure, that the merge is right otherwise, and exactly which errors the result of a reparse carries. Theorems: C36_merge_partial, C36_shrink_panics, C36_shrink_without_later_errors, C36_reparse_errors, C36_refuted.
* **C37 Applying a text edit replaces exactly the given ranges** (proved; PropsTextEdit.v). Splicing from the right; induction over sorted disjoint replacements.  Theorems: C37_apply, C37_right_to_left, C37_constructors.
* **C38 Offsets are mapped through an edit correctly** (proved; PropsTextEdit.v). Same.  Theorems: C38_apply_to_offset, C38_same_character, C38_invalidates, C38_offset.
* **C39 Overlapping edits are rejected and disjoint ones merged** (proved; PropsTextEdit.v). Merging sorted lists.  Theorems: C39_builder, C39_builder_stable, C39_union, C39_union_commutes.
* **C40 Line/column and offset are inverse** (proved; PropsLineIndex.v). Invariant of the newline table.  Theorems: C40_new_total, C40_line_col, C40_offset_of_line_col, C40_line_col_of_offset.
* **C41 UTF-16 columns are exact** (proved; PropsLineIndex.v). Invariant of the table of wide characters.  Theorems: C41_to_utf16, C41_to_utf8.
* **C42 LSP positions round trip** (proved; PropsLineIndex.v, PropsPositions.v). C40 and C41 composed; for positions that denote no place, the column loop computed in closed form. C42_offset_exact: the byte every position leads to, valid or not. Theorems: C42_position, C42_offset, C42_offset_exact.
* **C43 Batched document changes equal sequential application** (proved; PropsLineIndex.v, PropsPositions.v). The cached line index stays valid up to the changed line; a batch equals its changes one by one, each characterized exactly. C43_exact: a batch succeeds exactly when each change in turn can be made. Ranges whose positions denote places of the text; for arbitrary positions, batch = one by one when the lines of each range are in order. Theorems: C43_sequential, C43_batch, C43_batch_exact, C43_exact, C43_order_needed.
* **C44 partition_point is correct** (proved; PropsStdx.v). Loop invariant of the binary search.  Theorems: C44_total, C44_partition_point.
* **C45 The VFS behaves as a map from paths to contents** (proved; PropsVfs.v). Refinement to a map from paths to contents over all histories. Fewer than 2^32-1 calls (the interner asserts on the id). Theorems: C45_map, C45_iter, C45_len.
* **C46 File ids are stable and unique** (proved; PropsVfs.v). Interner invariant.  Theorems: C46_ids.
* **C47 The VFS change log is faithful** (proved; PropsVfs.v). Replay of the change log.  Theorems: C47_log, C47_has_changes, C47_record.
* **C48 Open documents mirror the client** (proved; PropsServer.v). Invariant over all histories of client messages and loader events.  Theorems: C48_open_documents.
* **C49 The analysis database mirrors the VFS after every event** (proved; PropsServer.v). Invariant relating database and VFS. Contents that are not UTF-8 have the empty text in the database. Theorems: C49_database, C49_invalid_utf8.
* **C50 The main loop does not panic** (partial; PropsFatal.v, PropsTotal.v). Totality under an explicit description of well-behaved clients; then a small world (open documents, known contents, pending requests, configuration) is simulated and each event shown either to survive or to panic. False of the code: a file reported and then reported missing in one loader turn, a relative library path, an unknown response id or undecodable notification parameters panic. Proved that clients and loaders that do none of these never make the server panic, and (C50_exactly) that a history makes it panic exactly when one of five kinds of event occurs in it. Theorems: C50_no_panic_partial, C50_exactly, C50_refuted_loader, C50_refuted_library, C50_refuted_messages.
* **C51 Each request is answered exactly once** (proved; PropsRequests.v). Counting of requests, responses and queued tasks.  Theorems: C51_exactly_once, C51_answers_due, C51_immediate, C51_at_most_once.
* **C52 Published diagnostics are those of the current text** (partial; PropsDiag.v, PropsShown.v). Invariant of published diagnostics and pending tasks; the exact form by a simulation: a small automaton over the editor's history (`Step`, `Follows`) determines what is shown for a path. False of the code: a document that was closed and reopened with the same diagnostics shows none. Proved that this is the only failure, that what is published is never stale, exactly what is shown for every path after every history, and exactly when a reopened document shows none. Theorems: C52_published_partial, C52_never_closed, C52_never_stale, C52_shown_exactly, C52_exactly, C52_refuted.
* **C53 Closing a document restores the file on disk** (partial; PropsFatal.v, PropsServer.v). Same. False of the code: didClose does not restore the contents on disk. C53_exactly: the server analyses the last contents reported since the close, and the client's last text as long as none were; C53_analysed says for every file which contents are analysed. Theorems: C53_close_partial, C53_exactly, C53_analysed, C53_refuted.
* **C54 Diagnostics list the first 128 syntax errors in order** (proved; PropsIde.v). Direct, with C11.  Theorems: C54_first_128, C54_position_total, C54_published.
* **C55 Token sets are exact finite sets** (proved; PropsSmall.v). Bits of the mask.  Theorems: C55_new_contains, C55_union_contains, C55_empty_contains, C55_fits_u128.
* **C56 Syntax kinds survive conversion to and from raw integers** (proved; PropsSmall.v). Enumeration of all kinds, as a proof by computation over the whole finite type.  Theorems: C56_round_trip, C56_distinct, C56_only_valid.
* **C57 Accept combinators consume what they match** (proved; PropsAccept.v). Denotation of combinators as predicates on characters. The two refuted theorems show why the NUL and nested-While restrictions in the statement are needed. Theorems: C57_false_changes_nothing, C57_only_consumes, C57_one_char, C57_while, C57_until, C57_while_count, … (10 in all, see MANIFEST.json).
* **C58 Binding powers order operators as declared** (proved; PropsSmall.v). Induction over the declaration list.  Theorems: C58_later_binds_tighter, C58_associativity, C58_powers_in_range, C58_undeclared, C58_total.
* **C59 Path normalization is idempotent and removes dots** (proved; PropsStdx.v). Induction over components. Unix paths; Windows prefixes are not modelled. Theorems: C59_normalize, C59_idempotent.
* **C60 Diagnostic collection reports exactly the changed files** (proved; PropsIde.v). Invariant over histories of the collection. Lists are compared as the code compares them: source, severity, range, message. Theorems: C60_collection.
* **C61 Library files reach the analysis, and nothing else** (proved; PropsFiles.v, PropsLoader.v). Invariants of the server/loader system over all interleavings. Model of the combined system of server and loader thread with a disk that may change at every step. Theorems: C61_files_loaded, C61_only, C61_last_read, C61_lua_files.
* **C62 Each changed configuration is loaded, in order** (proved; PropsLoader.v). Same.  Theorems: C62_configurations, C62_defined, C62_absolute.
* **C63 The loader reports progress exactly and finishes** (proved; PropsFiles.v). Same, with a measure for termination.  Theorems: C63_reports, C63_progress, C63_bounded.
* **C64 Documents that are not open show no diagnostics** (partial; PropsClosed.v, PropsShown.v). Server invariant; the exact form from the automaton of C52. False of the code: open, close, then the task computed before the close publishes its diagnostics. Proved: only opened documents get diagnostics, none after a close when no task was pending, and exactly when a closed document shows diagnostics, and which. Theorems: C64_only_opened, C64_close_partial, C64_exactly, C64_refuted.
* **C65 The libraries of the initialization options are loaded** (partial; PropsLoader.v). Initial settings from the options (Session.v initial_config) against a specification of JSON settings; the loads are the repetition-free list of configurations (C62), and the initial one is in it exactly when the settings leave it and come back. False of the code: a configuration equal to the initial one is never loaded. Proved exactly: the libraries of the options are loaded if and only if the client's settings change to others and then back. Theorems: C65_exactly, C65_initial_never, C65_refuted.
* **C66 The typed accessors return the parts of a construct** (partial; PropsAst.v). One theorem per construct, for every program and layout. For every construct of Lua the result of each accessor is given exactly, for all programs. False of the code for the accessors listed in C66_refuted (parenthesized expressions are not expressions to the accessors, ForStmt::content, FunctionDefStmt::function_def_content, TableExpr::table_contents, KeyValue::key, ReturnStmt::expr, GenericFor::expr, ArgList::args and FunctionStatic::dot_token find nothing, LabelStmt::finish returns the first delimiter, do-blocks are missing from Block::stmts). Theorems: C66_call_stat, C66_assign, C66_local, C66_local_init, C66_local_function, C66_function, … (50 in all, see MANIFEST.json).
* **C67 A valid beginning of a file is parsed the same whatever follows** (proved; PropsLocal.v). Statements do not look at what was built before; dressing is local; validation errors move with the tree. Valid means valid in the implementation's own reading (block_ok impl), which C20 relates to Lua. Theorems: C67_tree, C67_errors, C67_after_semicolon.
* **C68 The parser reads programs by its own rules, in one way only** (proved; PropsShape.v). Restates the completeness results of LuaComplete.v/LuaTree.v with the implementation's own table as the language: induction over the syntax of programs with runs of the grammar on arbitrary continuations (LuaRun.v). The vocabulary is LuaSyntax.v (syntax of programs) and LuaDialect.v (the implementation's table of powers). Theorems: C68_reading, C68_any_expression, C68_unambiguous.
* **C69 The tree depends on the kinds of the tokens only** (proved; PropsShape.v). The grammar sees kinds only (parsed_tree_eq: one derivation per list of kinds); induction over the attachment of trivia (Dress) for two texts at once gives the trees and the places of the errors. Both the tree and the parser's errors. Theorems: C69_kinds_decide.
* **C70 The lexer implements a complete set of lexical rules** (proved; LexClean.v, PropsLexRules.v). A declarative relation token_rule (LexRules.v), one constructor per rule. Soundness: each step of the direct-style lexer satisfies a rule (the first stop of strings and brackets by strong induction on the text). Completeness and uniqueness: the first two characters decide the rule, and within a rule the extent is determined. The rules are the inductive relation token_rule of LexRules.v, written without reference to the lexer. Theorems: C70_some_token, C70_no_choice, C70_tokenize, C70_errors_need_no_context.
* **C71 The editor underlines exactly the errors of the current text** (proved; PropsClient.v). Composition of C52 (server history), C54 (diagnostics of a text), C42 (positions) and a new invariant: every error of the parser, of the lexer and of validation covers whole characters (token boundaries; node positions by induction on the tree; escape errors by induction on the string's body). brackets_complete holds whenever the lexer reports no error (C71_brackets_complete); without it the escape errors of such a token are shifted by one byte (C28_refuted). Theorems: C71_editor_shows, C71_errors_are_pieces, C71_brackets_complete, C71_valid_program_is_clean.
* **C72 Operators and calls are grouped by one table, in every text** (proved; PropsGroup.v). A run predicate (PC) over the direct parser, for every production and by induction on fuel: what a run appends is grouped, given the token that follows; expressions come out closed against the next token and above the binding power asked for. No hypothesis on errors. The `_exactly` theorems of C18, C20 and C21 follow. Every text, also with errors. The table of powers and the grouping rules are Grouping.v, written over trees only. C18_exactly, C20_exactly and C21_exactly use it to show that the partial theorems of C18, C20 and C21 cover exactly the cases in which the code is right. Theorems: C72_grouping.
* **C73 The parser accepts exactly one language and gives each sentence its only reading** (proved; PropsLang.v). Induction over strict derivations (TreeComplete.v): for every nonterminal, running the production on the tokens of a well-grouped derivation, followed by any token that does not extend it, appends exactly that derivation and reports nothing. With C23 (soundness) and C72 (grouping) this gives the equivalence; uniqueness follows because a run is deterministic. Both directions: soundness is C23 and C72, completeness is the induction of TreeComplete.v over all derivations. The grammar is GrammarSpec.v with strict = true; where it differs from Lua's is the subject of C18 to C21 and C68. Theorems: C73_exact_language, C73_unambiguous, C73_rejected.
* **C74 Which files get no diagnostic at all** (proved; PropsClean.v). The three lists of errors are separated (source_file_inv). Lexer: the lexed list is the only one the rules allow, and its errors vanish exactly when each token's does. Parser: C73. Validator: per node, from the exact forms C24_every_string, C26_accepted_exactly and C27_exactly. Lexical rules: LexRules.v; grammar and grouping: GrammarSpec.v, Grouping.v; the rules about parts of nodes: node_clean in PropsClean.v with ValidSpec.v. The rules are the implementation's; C20, C24 to C27 say where Lua's differ. Theorems: C74_clean_exactly, C74_tree.
* **C75 Trees and diagnostics are linear in the file** (proved; PropsSize.v). Induction over derivations of the lax grammar (TreeSize.v): per nonterminal a bound on nodes plus errors and on depth, in the number of tokens, with separate constants for derivations without tokens; it needs that every statement of a list and every skipped table item has a token (now part of GrammarSpec.v). Validation errors are charged to grandchildren and to the characters of literals. nodes and depth count the nodes of the green tree. C75_depth_grows exhibits a family without errors for every n that fits in 4 GiB. Stack use of the Rust process is not modelled: the depth bound only says how deep the parser recursion is at most, not that the stack suffices. Theorems: C75_tree, C75_diagnostics, C75_depth_grows.
* **C76 The code generator gives every part of a rule an accessor, and the checked-in code is its output** (proved; PropsCodegen.v). Codegen.v models the generator (heck's case conversion, ungrammar rules, lowering, the tables quote! iterates over). Induction over rules against an inductive description of visible mentions; the tables for lua.ungram are computed by the kernel and compared with AstNodes.v and SyntaxKind.v, extended to all trees by extensionality of the casts. The output is modelled as data, not as Rust source; the parsers of the ungrammar and toml crates and rustfmt are not modelled, the two assets are transcribed by script. That the output for lua.ungram is wrong about the trees the parser builds is the subject of C29 and C66. Theorems: C76_fields_exactly, C76_trailing_part_lost, C76_trailing_list_first_only, C76_lists_complete, C76_fails_exactly, C76_types, … (12 in all, see MANIFEST.json).
* **C77 The grammar file describes the syntax trees** (partial; PropsDoc.v). GrammarDoc.v gives ungrammar rules a meaning over child sequences. Induction over derivations of GrammarSpec.v shows that they conform to the corrected file; induction over trees shows the converse (DocConverse.v); C73 connects both to the parser. The refutations use a matcher proved sound and complete (DocMatch.v). False of the code: fifteen of the 53 rules of lua.ungram are wrong (each refuted on its own, and shown repaired by the correction). Proved, in both directions, for the file with those rules corrected and five rules sharpened; what rules without context cannot say (where a list may end in a comma or dot) is the predicate ends_ok. Theorems: C77_corrected_exactly, C77_rest_unchanged, C77_refuted.
* **C78 Cursor markers and generated files** (proved; PropsTestUtils.v). Leftmost search, byte slices and str::replace are modelled in TestUtils.v; induction over texts, with decompositions of the text as specification. A failing write is modelled as leaving the disk unchanged. format_diff is modelled but nothing is claimed about it; the diff itself (dissimilar) is not modelled. Theorems: C78_extract_offset, C78_extract_range, C78_two_markers_panic, C78_update.
* **C79 Diagnostics go to the URI of the document** (partial; PropsUri.v). Percent encoding, path components and Url::to_file_path/from_file_path are modelled over bytes (Uri.v); induction over texts. A wire-level run wraps the server model; induction over histories with C64_only_opened connects published URIs to opened ones. C79_decoding gives percent decoding by rules (RFC 3986), C79_denotes the document of every URI. False of the code: file:///a%2Bb.lua is opened and closed, its diagnostics appear, and stay, under file:///a+b.lua. Proved: diagnostics go to the canonical URI of the opened path, that is the opened URI exactly when it is canonical, and with canonical URIs everything the server model says about paths holds of URIs. The url and percent-encoding crates are modelled from their documentation; URLs are given parsed. Theorems: C79_path_survives, C79_decoding, C79_denotes, C79_canonical_exactly, C79_published_under, C79_canonical_partial, … (9 in all, see MANIFEST.json).
* **C80 A file is parsed from any top-level boundary as if it began there** (proved; PropsSuffix.v). The dressed tree of a file is cut at a child (Dress_cut); the run of the root loop restarts at the same point (loop_cut), so the forest after the cut is that of the rest; lexing and validation are cut in the same way. Composition over lexer, parser, sink and validator gives the theorem; necessity of the semicolon condition from the shape of statements. The errors are compared as multisets (Permutation): the code puts parser, lexer and validation errors one after the other. Theorems: C80_rest_alone, C80_exactly, C80_whatever_precedes.
* **C81 What comes later does not change the statements before** (proved; PropsPrefix.v). Every grammar function is shown to depend on what it consumes and one more token (LookProofs.v: compositional over all functions, with a separate argument that a token that was looked past is consumed), by induction on fuel; then the root loop, dressing, lexing, and C80 for the remainder. The grammar looks two tokens ahead in five places (LookProofs.v shows that the first of them is always consumed before the statement ends, so one token after the cut is enough; C81_one_token_needed shows it is necessary). cuts says that the lexer does not join tokens across the two ends. Theorems: C81_beginning_kept, C81_errors_kept, C81_one_token_needed.
* **C82 A session ends as the client asks** (partial; PropsSession.v). Session.v gives main_loop's run the three channels explicitly, with the schedule as input. Induction on the schedule shows where a session ends and that its state is that of `run` on the events heard (Heard); the answers then come from the invariants of C51. The two false parts have concrete sessions as witnesses. False of the code in two points: an exit without shutdown ends with status 0 where the protocol asks for 1, and a completion request may be left unanswered when the exit is read before the task channel. Proved: exactly when and in which state a session ends; the status is right exactly when no exit comes without shutdown; all other requests are answered, and all of them if the tasks are handled before the exit. The initialization handshake belongs to lsp_server and is not modelled. Theorems: C82_exit, C82_after_exit, C82_disconnect, C82_ends, C82_ends_at_exit, C82_status_exact, … (9 in all, see MANIFEST.json).
* **C83 The server handles what it announces and ignores the rest** (proved; PropsSession.v). caps.rs as a record; requests by C51's answers due, documents by C48 over the events heard, ignored notifications by the invariant that no change is pending between events. Whether the parameters of a request decode is part of the input (serde is not modelled). Theorems: C83_requests, C83_documents, C83_ignored.
* **C84 Absolute paths stay absolute, and their operations mean what they say** (proved; PropsPaths.v). Paths.v works on texts: the iterator over components from the front and from the back, trimming, push and pop. Each is shown to act on the list of steps of the text (steps splits at every separator, a homomorphism); normalize by push and pop is shown equal to the component version of C59. std::path of Unix is modelled on texts as its source does it (splitting from both ends, trimming); paths that are not UTF-8 and Windows prefixes are not. Theorems: C84_checked, C84_parent, C84_join, C84_strip_prefix, C84_normalize.
* **C85 The order of hash maps makes no difference to a document** (proved; PropsOrder.v). A relation between states (equal except for the order of tasks' diagnostics, of the change set and of messages to different documents) is preserved by every event when the two sides use different permutations; diagnostics of different files commute because a task lists each file once (paths of open documents are distinct). HashOrder.v is Server.v with a permutation chosen for every iteration; fixed_run shows that Server.v is the case where it is the identity, so the other server theorems do not depend on the order chosen there, per document. Both readings of Panic (a panic and fuel) are kept apart from success, not from each other. Theorems: C85_any_order.
* **C86 The stack that parsing needs follows the nesting of the code** (proved; PropsDepth.v). Depth.v ties the recursion of Grammar.v with a counter for the depth instead of fuel. One relational invariant (DepthProofs.v, over the tree-building instance) shows that the limited parser does the same or stops at a place whose nodes reach the height; another that each activation adds at most one enclosing node. Both go through every grammar function; dressing with trivia keeps the measures. The overflowing texts are runs of opening parentheses, by induction. Activations of stmt, expr_bp and elseif_branch are counted; a bounded number of frames of the other grammar functions lies between two of them. The size of frames, and rowan dropping a tree recursively, are not modelled. Theorems: C86_enough, C86_needed, C86_no_stack_is_enough.
* **C87 Diagnostics carry the version of the document** (proved; PropsVersions.v). PropsVersions.v defines the version of a document from the client's messages alone. Each event changes the version kept by the server as the specification says, and every message published after the event takes it from there; the closing notice takes it before. By induction over the history. For every history the server survives, whether or not the client follows the protocol. Versions are the client's i32 values, as integers. Theorems: C87_versions, C87_close, C87_other_uri, C87_never_back.
* **C88 The parser's work is linear in the tokens** (proved; PropsWork.v). Work.v runs Grammar.v over a third instance of the parser's operations that counts them. WorkProofs.v shows, function by function, that the counted run makes the same events and that every function's operations are paid for by its events (amortized: a node or token pays for the looks before it, every loop turn that goes on pushes an event). The number of events follows from the encoding of trees as events and the size of trees (C75); the walk over forward links from the links it removes. Operations of the parser and turns of process are counted, not time; the lexer, and the tree builder beyond the number of calls made to it, are not counted. Theorems: C88_parser, C88_linear.
* **C89 Line endings do not matter** (proved; PropsCrLf.v). Model: Lexer.v, Parser.v, Grammar.v, TreeSink.v, Validation.v, LineIndex.v. CrLf.v: the lexer's step (dlex) on the two texts gives the same kind and error and leaves related rests; the carriage return may go to either side of a token's end. CrLfTokens.v lifts this to token lists by induction. The parser sees kinds only, so the tree is the same; CrLfTree.v follows the offsets through the dressing of the tree with tokens, the nodes, and the validation. crs in CrLf.v says which texts are related, same_place in CrLfTree.v which places. C89_needed and C89_ends show that the condition on lexical errors and the restriction to the start of the errors of the validation cannot be dropped. Theorems: C89_tokens, C89_syntax, C89_diagnostics, C89_accepted, C89_positions, C89_conversion, C89_needed, C89_ends.
* **C90 No program goes on from the place of the first syntax error** (proved; PropsFirst.v). Model: Parser.v, Grammar.v, TreeSink.v. FirstProofs.v: for every grammar function, two runs over v ++ k :: x and v ++ k :: y do the same and leave a part of v, or both meet an error, or the first gets past k without one; composed by a lemma per monadic operation, with special care where the code looks two tokens ahead. PropsFirst.v: the tokens before the first error of a tree lie before its offset in the text (induction over the dressing); completeness of the grammar (C73) supplies the second run. Programs and the tokens of a text are compared by kind; by C73 an error-free program is a token sequence with a reading. Theorems: C90_cannot_continue.
* **C91 Up to the first syntax error a text is the beginning of a program** (partial; PropsContinue.v). ContProofs.v: a grammar function can be completed when, after any run of it that is clean up to the end of some tokens, there are more tokens (bounded, none of them the end of file) after which every run of it over both is clean and stops just there, provided a token of its follow set comes next; one lemma per monadic operation, with a default word read by the rest of the function. ContGrammar.v, ContOpen.v: every function of the grammar, the look-ahead of function names separately. PropsContinue.v: the run over the completed tokens is a reading (totality and grouping of the parser); no derivation of the strict grammar has a colon after a dot. False of the code in just one way, proved: after a dot and a colon in the name of a function (function a.:(b) end) the error is reported at the token after the colon. For every other text with errors the tokens before the first error can be completed to a program, by at most eight tokens for each of them; tokens ending in a dot and a colon begin no program. Theorems: C91_can_continue, C91_always_can_refuted.
* **C92 Edits are local** (proved; PropsEdits.v). PropsEdits.v: from C80 (what precedes does not matter) and C81 (what follows does not matter) for the two versions, aligned by the lengths of their texts. The two hypotheses about where the trees are cut are what a correct incremental reparser has to check; C81_one_token_needed shows that one token before the change is not enough. Theorems: C92_edits_are_local.
* **C93 The first syntax error's message tells the truth** (partial; PropsSays.v). SaysProofs.v: for a grammar function, the first error of any run of it says what could have come: any run of it over the tokens before the error followed by the promised token gets past them (says); to put functions after one another it is needed that a run which ended cleanly well before one token ends at the same place before a promised one (hlt), which for loops and lists depends on the token that really followed. SaysNames.v, SaysGrammar.v: every function of the grammar. SaysFname.v: function names, by an exact description of what is consumed. PropsSays.v: the wording of messages is injective; the program that goes on is C91's, for the tokens with the promised one. False of the code in just one way, proved: after a dot and a colon in the name of a function (function a.:(b) end) a name is said to be expected, and no program has one there. For every other text the promise is kept, by at most eight more tokens for each of those there. wants lists the messages that name a token; the others (Expected an expression, Expected a statement, ...) name none. Theorems: C93_messages_are_true, C93_name_after_dot_colon_refuted.
* **C94 Every syntax error has a known message, and 'got' names the token that is there** (proved; PropsSays.v). SaysProofs.v: found, kept by every function of the grammar (kp, the same walk over SaysNames.v, SaysGrammar.v, SaysFname.v as for C93): the tokens and errors that a run adds, in order, where each error is one of the known ones and names the kind that follows it in that order. PropsSays.v: all_true, by induction on how the tree is dressed with trivia, turns this into the place in the text. For all diagnostics of the parser, including those after recovery; messages in PropsSays.v is the list of the eleven sentences, asked the form of the others. The lexer's and the validation's messages are not meant (C05, C28). Theorems: C94_every_message_is_true.

Every property on the list could be expressed in the model.

## 4. Trusted base

* Coq's kernel, including the VM used for `vm_compute` in Examples and refutations.
* `Print Assumptions` prints `Closed under the global context` for every property theorem: no axiom is used, not even of the
  standard library. (Loading Coq's own `ssreflect` plugin library brings the seven sealed module parameters
  `Coq.ssr.ssrunder.Under_rel.*` into the environment, which vcheck lists as library axioms; no theorem here depends on them.)
* The reading of the Rust code: each model definition cites its file and lines. Snapshots.v checks the model against all
  recorded outputs in the repository.
* Third-party code is modelled from its documented behaviour: rowan 0.12 (GreenNodeBuilder, traversal, covering_element,
  child_at_range, replace_with), text-size (u32, checked), indexmap, FxHashMap (order never observed, or any order allowed),
  crossbeam channels (unbounded, FIFO), rayon `install` (returns when the task is done, so tasks run one at a time),
  lsp-server 0.5 (ReqQueue, extract), salsa (queries are the functions they memoize, inputs are cells), walkdir (any list of
  entries at each moment), std::path.

## 5. Wrong programs

/verif/seeded/LOG.jsonl records the edits of the model that were tried, the claim each breaks and the theorems that failed.
tools/mut.py is the runner: it applies one edit in a scratch copy, rebuilds everything that still compiles, and lists the
lemmas and theorems that no longer do (a theorem also counts as failed if its proof uses a failed lemma).
