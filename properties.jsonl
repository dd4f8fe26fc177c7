{"id": "C01", "title": "Tokenization is total and lossless", "statement": "For every source text shorter than 4 GiB, tokenize terminates without panicking; every token has positive length; the token lengths add up to the byte length of the text; and every token starts and ends on a character boundary, so slicing the text by the token lengths and concatenating the slices gives back the text.", "quantifier": "all Unicode texts (any characters including NUL, any length below 2^32 bytes)", "why_tests_cant": "The set of texts is infinite and the failure modes (a zero-length token loops for ever, a boundary inside a code point panics) hide in unusual character sequences.", "anchors": ["crates/syntax/src/lua_lexer.rs: LuaLexer::lex_main", "crates/syntax/src/lexer.rs: tokenize", "lib/accept/src/source.rs: CharSource", "lib/accept/src/accept/combinators.rs"]}
{"id": "C02", "title": "Fixed-spelling tokens are exact and operators are maximal munch", "statement": "A token whose kind is an operator or punctuation has exactly the spelling of that kind; and a one- or two-character operator is returned only when the text does not continue to a longer operator (== is never two =, ... is never .. and ., and so on).", "quantifier": "all texts and all tokens in their tokenization", "why_tests_cant": "Adjacent-character combinations are unbounded in context; tests pick a few.", "anchors": ["crates/syntax/src/lua_lexer.rs: LuaLexer::lex_main", "crates/syntax/src/lexer.rs: tokenize", "crates/parser/src/syntax_kind/generated.rs: T!"]}
{"id": "C03", "title": "Keywords and identifiers are exactly classified", "statement": "A token is an identifier or keyword exactly when it is a maximal run [A-Za-z_][A-Za-z0-9_]*; it gets the keyword kind exactly when its text is one of the 22 keywords, otherwise the identifier kind.", "quantifier": "all texts and all tokens in their tokenization", "why_tests_cant": "Every identifier spelling, including ones that extend or are extended by keywords, must be classified right.", "anchors": ["crates/syntax/src/lua_lexer.rs: LuaLexer::ident", "crates/parser/src/syntax_kind/generated.rs: SyntaxKind::from_keyword"]}
{"id": "C04", "title": "Whitespace, comments and numbers have the right extent", "statement": "A whitespace token is a maximal run of ASCII whitespace; a comment not starting with --[[ runs exactly to the next newline or end of text and does not include the newline; a decimal token digits[.digits][(e|E)[-]digits] and a hexadecimal token 0x<hex digits> is maximal.", "quantifier": "all texts and all tokens in their tokenization", "why_tests_cant": "Extents depend on arbitrary following text.", "anchors": ["crates/syntax/src/lua_lexer.rs: whitespace, comment, number"]}
{"id": "C05", "title": "Lexical errors are reported exactly once per faulty token, on its span", "statement": "tokenize reports at most one error per token, its range is exactly that token's byte range, errors come in text order; a closed short-string token has no error and an unclosed one has one; every token of kind unknown other than ~ has the error \"Got an unknown token\", and no identifier, keyword, number, operator, whitespace or comment token has an error.", "quantifier": "all texts", "why_tests_cant": "Error offsets after arbitrary prefixes, with multi-byte characters, cannot be enumerated.", "anchors": ["crates/syntax/src/lua_lexer.rs: LuaLexer::lex_main", "crates/syntax/src/lexer.rs: tokenize", "crates/syntax/src/lexer/error.rs"]}
{"id": "C06", "title": "Every Lua short string literal is one error-free string token", "statement": "For every string literal of Lua 5.1/5.2 (quote, then characters other than the quote, backslash and newline, or backslash escapes, then the quote) the lexer produces one string token with that text and no error.", "quantifier": "all short string literals, all following texts", "why_tests_cant": "Escape/quote interactions are unbounded.", "anchors": ["crates/syntax/src/lua_lexer.rs: LuaLexer::string"]}
{"id": "C07", "title": "Every Lua long string literal is one error-free string token", "statement": "For every long-bracket string of any level n ([=*n[ ... first ]=*n] ) the lexer produces one string token ending at the matching close bracket, without error.", "quantifier": "all levels, all bodies, all following texts", "why_tests_cant": "Bodies with near-miss closers of other levels are unbounded.", "anchors": ["crates/syntax/src/lua_lexer.rs: LuaLexer::bracket_enclosed, multiline_string"]}
{"id": "C08", "title": "A long comment ends at its close bracket", "statement": "A comment --[[ ... ]] ends right after its first ]], so code following it on the same line is tokenized as code.", "quantifier": "all comment bodies and following texts", "why_tests_cant": "Unbounded bodies and continuations.", "anchors": ["crates/syntax/src/lua_lexer.rs: LuaLexer::comment"]}
{"id": "C09", "title": "Every Lua numeral is one number token", "statement": "Every Lua numeral (decimal with optional fraction and signed exponent, .5 forms, 0x/0X hexadecimal) is lexed as a single number token.", "quantifier": "all Lua numerals", "why_tests_cant": "Infinite family.", "anchors": ["crates/syntax/src/lua_lexer.rs: LuaLexer::number"]}
{"id": "C10", "title": "Tokenization is context free and can resume at any token boundary", "statement": "Tokenizing the rest of a text starting at a token boundary gives exactly the remaining tokens of the whole text; in particular the tokens of whitespace-separated spellings of any sequence of keywords, identifiers, decimal numbers, operators and simple strings are exactly that sequence.", "quantifier": "all texts and all boundaries; all sequences of token spellings", "why_tests_cant": "Needed for every split point of every text.", "anchors": ["crates/syntax/src/lexer.rs: tokenizer", "crates/syntax/src/lua_lexer.rs: lex_main"]}
{"id": "C11", "title": "Parsing never panics and always terminates", "statement": "SourceFile::parse returns a tree and an error list for every text of at most 2^32-1 bytes: no assertion, unwrap, index, unreachable! or drop bomb in lexer, grammar, event processing, tree sink, tree builder or validation fires, and every loop ends (assuming the call stack is large enough).", "quantifier": "all texts, valid Lua or not", "why_tests_cant": "Error recovery interacts with every token sequence; fuzzing samples it.", "anchors": ["crates/syntax/src/lib.rs: SourceFile::parse", "crates/parser/src/grammar.rs", "crates/parser/src/grammar/statements.rs", "crates/parser/src/grammar/expressions.rs", "crates/syntax/src/parsing/text_tree_sink.rs"]}
{"id": "C12", "title": "The syntax tree is lossless", "statement": "The concatenated text of the tree returned by SourceFile::parse is the input text.", "quantifier": "all texts", "why_tests_cant": "One dropped or duplicated token under some error recovery path breaks it.", "anchors": ["crates/syntax/src/parsing.rs: parse_text", "crates/syntax/src/parsing/text_tree_sink.rs"]}
{"id": "C13", "title": "The tree's tokens are the lexer's tokens in order", "statement": "The leaves of the parsed tree, left to right, are exactly the tokens produced by tokenize with the same kinds and texts (whitespace and comments included, none duplicated, none reordered).", "quantifier": "all texts", "why_tests_cant": "Same as losslessness, plus kinds.", "anchors": ["crates/syntax/src/parsing.rs: parse_text", "crates/parser/src/event.rs: process"]}
{"id": "C14", "title": "The root is one SourceFile containing exactly one Block", "statement": "The parsed root has kind SourceFile, its only child is a Block node, and all leading and trailing trivia are inside that block; no node of the tree has an internal or token kind.", "quantifier": "all texts", "why_tests_cant": "Depends on event balance for all inputs.", "anchors": ["crates/parser/src/grammar.rs: root, root_block", "crates/syntax/src/parsing/text_tree_sink.rs: DeferedTextTreeSink"]}
{"id": "C15", "title": "Parser and lexer error ranges are valid", "statement": "Every error range reported by the lexer and the parser lies within the text and starts and ends on token boundaries (hence on character boundaries).", "quantifier": "all texts", "why_tests_cant": "Ranges are computed incrementally through recovery code.", "anchors": ["crates/syntax/src/parsing/text_tree_sink.rs: error, start_error_node, update_error_ranges"]}
{"id": "C16", "title": "Error nodes and error reports agree", "statement": "Every Error node in the tree corresponds to one reported error whose range is exactly the range of that node (leading trivia excluded); if no parser error is reported the tree contains no Error node.", "quantifier": "all texts", "why_tests_cant": "Needs all recovery paths.", "anchors": ["crates/parser/src/parser.rs: err_recover, err_until", "crates/syntax/src/parsing/text_tree_sink.rs: finish_error_node"]}
{"id": "C17", "title": "Layout independence", "statement": "If two texts have the same non-trivia tokens (kinds and texts), their trees are equal after removing whitespace and comment tokens, and the parser reports the same error messages in the same order.", "quantifier": "all pairs of texts", "why_tests_cant": "Quantifies over pairs and arbitrary trivia placement.", "anchors": ["crates/syntax/src/parsing/text_token_source.rs: TextTokenSource::new", "crates/syntax/src/parsing/text_tree_sink.rs: eat_trivias"]}
{"id": "C18", "title": "Operators group by precedence and associativity for every expression", "statement": "For every expression tree over the unary and binary operators, atoms and parentheses, printed with exactly the parentheses required by the operator table (or < and < comparison < .. < + - < * / % < unary < ^, .. and ^ right associative, the others left associative), parsing gives back that tree.", "quantifier": "all expressions of any depth over all operators", "why_tests_cant": "Infinite family of operator nestings.", "anchors": ["crates/parser/src/grammar/expressions.rs: expr_bp, lhs, LuaOp", "lib/binding_powers/src/lib.rs", "lib/binding_powers_impl/src/lib.rs"]}
{"id": "C19", "title": "Operators of equal Lua precedence associate to the left", "statement": "a op1 b op2 c with op1, op2 of the same Lua level (+ and -; * / and %; the comparisons) parses as (a op1 b) op2 c.", "quantifier": "all pairs of operators of one level", "why_tests_cant": "Concerns the precedence table as a whole.", "anchors": ["crates/parser/src/grammar/expressions.rs: LuaOp"]}
{"id": "C20", "title": "Every program of the Lua grammar parses without error into the expected tree", "statement": "For every abstract Lua program (all statement and expression forms, any nesting), written out with any trivia between its tokens, SourceFile::parse reports no parser error and the tree is the one dictated by the program.", "quantifier": "all abstract programs of any size, all layouts", "why_tests_cant": "Acceptance must hold for every program.", "anchors": ["crates/parser/src/grammar.rs", "crates/parser/src/grammar/statements.rs", "crates/parser/src/grammar/expressions.rs"]}
{"id": "C21", "title": "Generic for accepts an expression list", "statement": "for v1, ..., vn in e1, ..., em do ... end is accepted without error for every m >= 1 as the Lua grammar requires.", "quantifier": "all expression lists", "why_tests_cant": "Unbounded m.", "anchors": ["crates/parser/src/grammar/statements.rs: generic_for"]}
{"id": "C22", "title": "The parser drives the tree builder with well-nested calls", "statement": "For every token sequence the sequence of TreeSink calls made by parser::parse is well nested (each finish matches a start, error nodes likewise, exactly one root), calls token() exactly once per non-trivia token, and a node started by precede encloses exactly the node it precedes plus what follows until its completion.", "quantifier": "all token sequences", "why_tests_cant": "forward_parent chains of any length.", "anchors": ["crates/parser/src/event.rs: process", "crates/parser/src/parser.rs: Marker, CompletedMarker::precede"]}
{"id": "C23", "title": "An error-free parse means the token sequence is in the grammar", "statement": "If the parser reports no error then the tree derives the token sequence by the productions of the (documented) grammar: every node's children follow the production for its kind.", "quantifier": "all texts", "why_tests_cant": "Soundness needs all paths of the parser.", "anchors": ["crates/parser/src/grammar.rs", "crates/parser/src/grammar/statements.rs", "crates/parser/src/grammar/expressions.rs"]}
{"id": "C24", "title": "Escape validation is exact", "statement": "For every string body, validation reports one error for each backslash that starts an escape not in the supported set, with the exact byte range of the escape, in order, and nothing else.", "quantifier": "all string bodies", "why_tests_cant": "Backslash runs and multi-byte characters are unbounded.", "anchors": ["crates/syntax/src/validation.rs: unescape, unescape_once"]}
{"id": "C25", "title": "Every Lua escape sequence is accepted", "statement": "Escapes legal in Lua (including \\ddd decimal escapes and backslash-newline) are not reported.", "quantifier": "all Lua escapes", "why_tests_cant": "Family of escapes in context.", "anchors": ["crates/syntax/src/validation.rs: unescape_once"]}
{"id": "C26", "title": "Expression statements are validated exactly", "statement": "An expression statement is accepted by validation exactly when it consists of one call or method call; otherwise errors are reported, one per non-call expression.", "quantifier": "all trees", "why_tests_cant": "Quantifies over all trees.", "anchors": ["crates/syntax/src/validation.rs: ExprStmt::validate", "crates/syntax/src/ast/stmt_ext.rs"]}
{"id": "C27", "title": "Assignment targets are validated exactly", "statement": "An assignment is accepted by validation exactly when every target is a name, an index expression or a dot expression.", "quantifier": "all trees", "why_tests_cant": "Quantifies over all trees.", "anchors": ["crates/syntax/src/validation.rs: AssignStmt::validate", "crates/syntax/src/ast/generated/nodes.rs: Expr::can_cast"]}
{"id": "C28", "title": "Validation error ranges lie in the text", "statement": "Every validation error range lies within the text.", "quantifier": "all texts", "why_tests_cant": "Depends on quoting shapes.", "anchors": ["crates/syntax/src/validation.rs: unquote"]}
{"id": "C29", "title": "Typed accessors see every statement and expression", "statement": "Block::stmts lists every statement of the block, and InfixExpr::lhs/rhs return the two operands.", "quantifier": "all texts", "why_tests_cant": "Quantifies over all trees.", "anchors": ["crates/syntax/src/ast/generated/nodes.rs: Stmt::can_cast, Expr::can_cast", "crates/syntax/src/ast/expr_ext.rs"]}
{"id": "C30", "title": "Name text accessors never panic", "statement": "Name::text and NameRef::text return the identifier of every Name / NameRef node in any parsed tree.", "quantifier": "all texts, all nodes", "why_tests_cant": "Error recovery creates odd nodes.", "anchors": ["crates/syntax/src/token_text.rs", "crates/syntax/src/ast.rs", "crates/syntax/src/ast/expr_ext.rs"]}
{"id": "C31", "title": "Syntax node pointers resolve to the node they were made from", "statement": "For every node of a parsed tree, SyntaxNodePtr::new(node).to_node(root) returns a node with the same kind and range, namely the node itself.", "quantifier": "all texts, all nodes", "why_tests_cant": "Empty nodes and nested equal ranges are position dependent.", "anchors": ["crates/syntax/src/ptr.rs: SyntaxNodePtr::to_node"]}
{"id": "C32", "title": "The AST id map is total and gives every item a distinct id", "statement": "AstIdMap::from_source terminates without panic for the root of every parsed file, and each item gets one id; the traversal it uses visits every node exactly once, parents before children.", "quantifier": "all trees", "why_tests_cant": "All tree shapes.", "anchors": ["crates/hir/src/ast_id_map.rs: from_source, bdfs"]}
{"id": "C33", "title": "The item tree lists the file's top-level items", "statement": "Lowering a file gives one item per top-level local, local function and function statement.", "quantifier": "all trees", "why_tests_cant": "All tree shapes.", "anchors": ["crates/hir/src/item_tree/lower.rs: lower_module_items"]}
{"id": "C34", "title": "Incremental reparse preserves the edited text", "statement": "If Parse::reparse takes the incremental path, the text of the new tree is the old text with the edit applied.", "quantifier": "all texts and edits", "why_tests_cant": "Unbounded edits.", "anchors": ["crates/syntax/src/parsing/reparsing.rs"]}
{"id": "C35", "title": "Incremental reparse equals a full reparse", "statement": "Parse::reparse returns the same tree and errors as parsing the edited text from scratch.", "quantifier": "all texts and edits", "why_tests_cant": "Unbounded edits.", "anchors": ["crates/syntax/src/lib.rs: Parse::reparse", "crates/syntax/src/parsing/reparsing.rs"]}
{"id": "C36", "title": "Merging errors after an incremental reparse never panics and shifts correctly", "statement": "Errors before the reparsed range are kept, errors inside are dropped, errors after it are shifted by the length difference of the edit.", "quantifier": "all error lists and edits", "why_tests_cant": "Signed shifts.", "anchors": ["crates/syntax/src/parsing/reparsing.rs: merge_errors", "crates/text_edit/src/lib.rs: Indel::offset"]}
{"id": "C37", "title": "Applying a text edit replaces exactly the given ranges", "statement": "TextEdit::apply of an edit made by the builder equals applying its replacements one at a time from right to left (each on the original text outside the other ranges); everything outside the deleted ranges is unchanged, and it never panics when the ranges are on character boundaries inside the text.", "quantifier": "all texts, all edits of any number of replacements", "why_tests_cant": "Unbounded edits.", "anchors": ["crates/text_edit/src/lib.rs: TextEdit::apply, Indel::apply"]}
{"id": "C38", "title": "Offsets are mapped through an edit correctly", "statement": "apply_to_offset returns None exactly when the offset lies strictly inside a deleted range; otherwise it returns the length of the edited prefix (the text before the offset with the replacements that start before it), so a character before which nothing is inserted is found at the new offset.", "quantifier": "all texts, edits and offsets", "why_tests_cant": "Unbounded edits.", "anchors": ["crates/text_edit/src/lib.rs: TextEdit::apply_to_offset"]}
{"id": "C39", "title": "Overlapping edits are rejected and disjoint ones merged", "statement": "union fails and leaves the edit unchanged exactly when some two replacements overlap; otherwise the result contains exactly the replacements of both, sorted and disjoint, and its application does not depend on which edit was first (when the ranges are distinct); the builder never yields an overlapping edit.", "quantifier": "all pairs of edits", "why_tests_cant": "Unbounded sets of ranges.", "anchors": ["crates/text_edit/src/lib.rs: TextEdit::union, check_disjoint, TextEditBuilder"]}
{"id": "C40", "title": "Line/column and offset are inverse", "statement": "For every offset of the text, line_col gives the number of newlines before it and the distance from the line start, and offset(line_col(o)) = o; and line_col(offset(lc)) = lc for every valid line/column.", "quantifier": "all texts and offsets", "why_tests_cant": "All texts.", "anchors": ["crates/ide_db/src/line_index.rs: LineIndex::line_col, offset", "crates/stdx/src/lib.rs: partition_point"]}
{"id": "C41", "title": "UTF-16 columns are exact", "statement": "to_utf16 gives the number of UTF-16 code units before the column for every character boundary, and to_utf8 inverts it.", "quantifier": "all texts and positions", "why_tests_cant": "Mixed-width lines.", "anchors": ["crates/ide_db/src/line_index.rs: to_utf8, to_utf16"]}
{"id": "C42", "title": "LSP positions round trip", "statement": "from_proto::offset(to_proto::position(o)) = o for every character boundary o of every text, and the LSP position is the number of newlines and the UTF-16 length of the line prefix.", "quantifier": "all texts and offsets", "why_tests_cant": "All texts.", "anchors": ["crates/lua-analyzer/src/from_proto.rs: offset", "crates/lua-analyzer/src/to_proto.rs: position"]}
{"id": "C43", "title": "Batched document changes equal sequential application", "statement": "apply_document_changes gives the text obtained by applying the changes one after the other, each interpreted against the text produced by the previous ones, for any mix of ranged and full-text changes.", "quantifier": "all texts and all change sequences", "why_tests_cant": "The line index is reused between changes; wrong reuse shows only for particular sequences.", "anchors": ["crates/lua-analyzer/src/lsp_utils.rs: apply_document_changes"]}
{"id": "C44", "title": "partition_point is correct", "statement": "For every slice partitioned by the predicate, partition_point returns the index of the first element not satisfying it, reading only in bounds; it always terminates with an index at most the length.", "quantifier": "all slices and predicates", "why_tests_cant": "Unsafe indexing for all lengths.", "anchors": ["crates/stdx/src/lib.rs: partition_point"]}
{"id": "C45", "title": "The VFS behaves as a map from paths to contents", "statement": "After any sequence of set_file_contents calls, looking a path up gives the last contents set for it (or nothing if deleted/never set); the return value says whether the contents changed. The length counts every path ever named, existing or not.", "quantifier": "all histories of operations", "why_tests_cant": "Unbounded histories.", "anchors": ["crates/vfs/src/lib.rs: Vfs", "crates/vfs/src/path_interner.rs: PathInterner"]}
{"id": "C46", "title": "File ids are stable and unique", "statement": "A path keeps the same id for ever, distinct paths have distinct ids, and ids resolve back to their path.", "quantifier": "all histories", "why_tests_cant": "Unbounded histories.", "anchors": ["crates/vfs/src/lib.rs: alloc_file_id", "crates/vfs/src/path_interner.rs"]}
{"id": "C47", "title": "The VFS change log is faithful", "statement": "take_changes returns, in order, exactly one record per effective change since the last call, with Create/Modify/Delete matching the contents before and after; replaying it reproduces the set of existing files. has_changes says whether there is a record; a record's queries say whether its file exists after the change and whether that is new.", "quantifier": "all histories", "why_tests_cant": "Unbounded histories.", "anchors": ["crates/vfs/src/lib.rs: set_file_contents, take_changes"]}
{"id": "C48", "title": "Open documents mirror the client", "statement": "After any sequence of messages and file-loader events handled without panic, the server's contents of every open document are the client's text: the opened text with all later changes applied; file-loader events never overwrite an open document.", "quantifier": "all histories of LSP messages and loader events", "why_tests_cant": "Histories and interleavings.", "anchors": ["crates/lua-analyzer/src/main_loop.rs: on_notification, handle_vfs"]}
{"id": "C49", "title": "The analysis database mirrors the VFS after every event", "statement": "After each handled event every existing file with valid UTF-8 has its VFS contents as database text.", "quantifier": "all histories", "why_tests_cant": "Histories and interleavings.", "anchors": ["crates/lua-analyzer/src/global_state.rs: process_changes", "crates/base_db/src/change.rs: Change::apply"]}
{"id": "C50", "title": "The main loop does not panic", "statement": "No sequence of well-formed client messages and loader events makes handle_event panic.", "quantifier": "all histories", "why_tests_cant": "Histories and interleavings.", "anchors": ["crates/lua-analyzer/src/global_state.rs: process_changes", "crates/vfs/src/lib.rs: file_contents"]}
{"id": "C51", "title": "Each request is answered exactly once", "statement": "Every request with a fresh id gets exactly one response once queued tasks are handled, with InvalidRequest after shutdown, MethodNotFound for unknown methods and InvalidParams for undecodable parameters; no response is sent for an id that was never requested.", "quantifier": "all histories and interleavings of tasks", "why_tests_cant": "Histories and interleavings.", "anchors": ["crates/lua-analyzer/src/dispatch.rs", "crates/lua-analyzer/src/global_state.rs: register_request, respond"]}
{"id": "C52", "title": "Published diagnostics are those of the current text", "statement": "Whenever all queued work is done, the diagnostics last published for an open document are those of its current text.", "quantifier": "all histories", "why_tests_cant": "Histories and interleavings.", "anchors": ["crates/lua-analyzer/src/main_loop.rs: handle_event", "crates/lua-analyzer/src/diagnostics.rs"]}
{"id": "C53", "title": "Closing a document restores the file on disk", "statement": "After a document is closed without saving, the server analyses the contents on disk.", "quantifier": "all histories", "why_tests_cant": "Histories.", "anchors": ["crates/lua-analyzer/src/main_loop.rs: DidCloseTextDocument"]}
{"id": "C54", "title": "Diagnostics list the first 128 syntax errors in order", "statement": "diagnostics(file) has min(128, number of errors) entries, the i-th being the i-th syntax error with its range and the message prefixed by \"Syntax Error: \".", "quantifier": "all texts", "why_tests_cant": "All error lists.", "anchors": ["crates/ide/src/diagnostics.rs: diagnostics"]}
{"id": "C55", "title": "Token sets are exact finite sets", "statement": "TokenSet::new(ks).contains(k) holds exactly when k is in ks; union is set union; every kind fits in the 128-bit mask.", "quantifier": "all lists of kinds and all kinds", "why_tests_cant": "2^n sets.", "anchors": ["crates/parser/src/token_set.rs"]}
{"id": "C56", "title": "Syntax kinds survive conversion to and from raw integers", "statement": "Converting a kind to u16 and back is the identity and distinct kinds have distinct numbers; converting a number above the last kind panics rather than producing an invalid kind.", "quantifier": "all kinds, all u16", "why_tests_cant": "Unsafe transmute for all values.", "anchors": ["crates/parser/src/syntax_kind.rs"]}
{"id": "C57", "title": "Accept combinators consume what they match", "statement": "For every combinator, accept(t) leaves the source unchanged when it returns false and otherwise only consumes a prefix of the rest. For every combinator t built from characters, predicates, ranges, Any, And, Or and Not that denotes a set of characters not containing NUL (NUL is what the end of input reads as), accept never panics, also at the end; While(t) and Until(t) consume exactly the longest run of characters in (outside) the set, Repeat(t,n) and Seq are all or nothing.", "quantifier": "all sources and all combinator expressions over characters", "why_tests_cant": "Unbounded combinations.", "anchors": ["lib/accept/src/accept.rs", "lib/accept/src/accept/combinators.rs"]}
{"id": "C58", "title": "Binding powers order operators as declared", "statement": "For every operator declaration list, later operators bind tighter than earlier ones, left-associative infix operators have a smaller left power than right power, right-associative ones the opposite, and all powers are above LOWEST's predecessor and distinct.", "quantifier": "all declaration lists that fit in u8", "why_tests_cant": "All lists.", "anchors": ["lib/binding_powers/src/lib.rs", "lib/binding_powers_impl/src/lib.rs"]}
{"id": "C59", "title": "Path normalization is idempotent and removes dots", "statement": "normalize keeps the path absolute, leaves no . or .. component, is idempotent and resolves .. by removing the preceding component.", "quantifier": "all absolute paths", "why_tests_cant": "All paths.", "anchors": ["crates/stdx/src/paths.rs: normalize_path"]}
{"id": "C60", "title": "Diagnostic collection reports exactly the changed files", "statement": "take_changes returns exactly the files whose diagnostics were set to a different list since the last call, and diagnostics_for returns the last list set.", "quantifier": "all histories", "why_tests_cant": "Unbounded histories.", "anchors": ["crates/lua-analyzer/src/diagnostics.rs: DiagnosticCollection"]}
{"id": "C61", "title": "Library files reach the analysis, and nothing else", "statement": "Once the file loader is done, every .lua file below a configured library directory that the client never opened is known to the server and its database with the result of its last read; every file the server knows was opened by the client or found as a regular .lua file below a configured library directory. A file counts as .lua exactly if its name is a non-empty stem followed by .lua.", "quantifier": "all interleavings of client messages, loader steps, deliveries and disk contents", "why_tests_cant": "Schedules of two threads and a changing disk.", "anchors": ["crates/vfs/src/loader.rs: load_entry, run", "crates/lua-analyzer/src/main_loop.rs: handle_vfs"]}
{"id": "C62", "title": "Each changed configuration is loaded, in order", "statement": "The loader is given exactly the configurations received from the client that differ from their predecessor, in order, with version numbers 1, 2, ...; the server's configuration is the last one received; null or empty settings change nothing; all paths given are absolute.", "quantifier": "all histories of client messages", "why_tests_cant": "Histories.", "anchors": ["crates/lua-analyzer/src/reload.rs: update_configuration, load_workspace", "crates/lua-analyzer/src/config.rs", "crates/lua-analyzer/src/main_loop.rs: DidChangeConfiguration"]}
{"id": "C63", "title": "The loader reports progress exactly and finishes", "statement": "For each configuration the loader sends progress 0, then for each root in order its files and the number of roots done, with the version of the configuration; it never blocks while it has work, and its work for given configurations is finite.", "quantifier": "all interleavings and disks", "why_tests_cant": "Schedules.", "anchors": ["crates/vfs/src/loader.rs: run"]}
{"id": "C64", "title": "Documents that are not open show no diagnostics", "statement": "Diagnostics are published only for documents the client opened, and after a document is closed it shows none until it is opened again.", "quantifier": "all histories", "why_tests_cant": "Histories and interleavings.", "anchors": ["crates/lua-analyzer/src/main_loop.rs: DidCloseTextDocument, handle_event", "crates/lua-analyzer/src/global_state.rs: maybe_update_diagnostics"]}
{"id": "C65", "title": "The libraries of the initialization options are loaded", "statement": "If the server's configuration names libraries, the loader has been given that configuration.", "quantifier": "all initial configurations and histories", "why_tests_cant": "Histories.", "anchors": ["crates/lua-analyzer/src/main.rs: run_server", "crates/lua-analyzer/src/reload.rs"]}
{"id": "C66", "title": "The typed accessors return the parts of a construct", "statement": "On the tree of an accepted Lua program each accessor of a typed node (condition, body, keyword token, name, operator, operands, arguments, statements, ...) returns the child the construct has there, and None or nothing only when the construct has no such part.", "quantifier": "all programs, constructs and layouts", "why_tests_cant": "Programs are unbounded.", "anchors": ["crates/syntax/src/ast/generated/nodes.rs", "crates/syntax/src/ast/expr_ext.rs", "crates/syntax/src/ast/node_ext.rs"]}
{"id": "C67", "title": "A valid beginning of a file is parsed the same whatever follows", "statement": "If the text of a file starts with a complete sequence of statements, cut from the rest at a token boundary where the next token does not continue the last statement, then the tree of the file is the statements of the beginning parsed alone followed by the statements of the rest parsed alone, and its errors are exactly those of the beginning and those of the rest moved by the length of the beginning (an empty error at the very start of the rest may stand before the trivia that separates the two).", "quantifier": "all texts and all valid beginnings", "why_tests_cant": "All texts.", "anchors": ["crates/parser/src/grammar/statements.rs", "crates/parser/src/lib.rs: parse", "crates/syntax/src/parsing/text_tree_sink.rs", "crates/syntax/src/lib.rs: SourceFile::parse"]}
{"id": "C68", "title": "The parser reads programs by its own rules, in one way only", "statement": "Every program that is written with the parentheses and separators the implementation's own table of operators asks for, in any layout, is parsed without a parser error to the tree it stands for; every expression can be written so; and no text can be read in two ways.", "quantifier": "every program of the language of LuaSyntax.v, every layout (whitespace, comments, names, numbers, strings), every expression", "why_tests_cant": "Programs nest without bound and the layout is free: tests can only try a few.", "anchors": ["crates/parser/src/grammar.rs", "crates/parser/src/grammar/expressions.rs: expr_bp, infix_binding_power", "crates/parser/src/grammar/statements.rs"]}
{"id": "C69", "title": "The tree depends on the kinds of the tokens only", "statement": "Two texts whose tokens (trivia included) have the same kinds in the same order are parsed to trees that differ in the texts of the tokens only, and the parser reports the same messages at the same tokens.", "quantifier": "every pair of texts with the same kinds of tokens, with or without errors", "why_tests_cant": "It relates two runs on unrelated texts of any length; renaming a variable anywhere in any file is one instance.", "anchors": ["crates/syntax/src/parsing.rs: parse_text", "crates/syntax/src/parsing/text_tree_sink.rs", "crates/parser/src/lib.rs: parse"]}
{"id": "C70", "title": "The lexer implements a complete set of lexical rules", "statement": "Tokenizing a text gives the one sequence of tokens and errors allowed by the lexical rules: longest operators, words and keywords, longest numerals, runs of blanks, comments to the end of the line, long comments to their close and then to the end of the line, short strings to the first quote that no backslash precedes (or, with an error, to a newline, a NUL or the end), long brackets to the first bracket with the right number of equal signs (with an error if brackets are missing or it never comes), and single unknown characters with an error. Every text can be read by the rules, and in one way only.", "quantifier": "every text below 4 GiB", "why_tests_cant": "All texts; the rules must be complete and without ambiguity.", "anchors": ["crates/syntax/src/lua_lexer.rs: lex_main", "crates/syntax/src/lexer.rs: tokenize"]}
{"id": "C71", "title": "The editor underlines exactly the errors of the current text", "statement": "For a document a client has open and has not closed before, once the server has run its pending task, the last textDocument/publishDiagnostics it received lists the first 128 errors of SourceFile::parse of the client's current text, in order, each with the message prefixed by 'Syntax Error: ', severity 1 and source lua-analyzer; its two LSP positions (line, UTF-16 column) enclose exactly the whole characters of the text that the error's byte range covers, unless the text has a long bracket lacking its second bracket. A valid program (as in C20) shows no diagnostics at all.", "quantifier": "all histories of client notifications, requests, loader messages and tasks; all document texts including multi-byte ones; all documents", "why_tests_cant": "The result combines every edit of the history, UTF-8/UTF-16 conversion, the lexer, parser and validation, and the diagnostic collection.", "anchors": ["crates/lua-analyzer/src/main_loop.rs: GlobalState::run, handle_event", "crates/lua-analyzer/src/handlers.rs: publish_diagnostics", "crates/ide/src/diagnostics.rs: diagnostics", "crates/ide_db/src/line_index.rs: LineIndex", "crates/syntax/src/validation.rs: validate"]}
{"id": "C72", "title": "Operators and calls are grouped by one table, in every text", "statement": "In the tree of any text, with or without errors, every operand is as long as the table of operators allows: no operand is followed by an operator, call, method call or index that would be part of it; the operators inside a right operand bind more tightly than the operator before it asks for; return takes a value whenever one follows; assignments and call statements begin with a name or a parenthesis.", "quantifier": "every text, every node of its tree", "why_tests_cant": "Expressions nest without bound and may be broken in any way.", "anchors": ["crates/parser/src/grammar/expressions.rs: expr_bp, infix_binding_power, call_and_index_expr", "crates/parser/src/grammar/statements.rs"]}
{"id": "C73", "title": "The parser accepts exactly one language and gives each sentence its only reading", "statement": "A text is parsed without a syntax error, into a given tree, exactly when that tree is derived by the grammar, is grouped by the operator table, and its leaves are the tokens of the text without white space and comments. A token sequence has at most one such tree; a syntax error is reported exactly when it has none.", "quantifier": "every text; every candidate tree", "why_tests_cant": "Acceptance has to be compared with a grammar over infinitely many token sequences, in both directions, and uniqueness ranges over all pairs of trees.", "anchors": ["crates/parser/src/grammar.rs: root", "crates/parser/src/grammar/expressions.rs", "crates/parser/src/grammar/statements.rs", "crates/syntax/src/parsing.rs: parse_text"]}
{"id": "C74", "title": "Which files get no diagnostic at all", "statement": "A file gets no error of any kind from SourceFile::parse exactly when its text obeys the lexical rules without an error, its tokens have a reading by the grammar and the operator table, and each node keeps the rules for its parts: an expression statement has one visible expression and it is a call, assignment targets are names, fields or indices, and string literals have supported escapes only. The tree is then that reading.", "quantifier": "every text", "why_tests_cant": "It is an equivalence between an algorithm (lexer, parser, sink, validator) and a declarative description, over all texts.", "anchors": ["crates/syntax/src/lib.rs: SourceFile::parse", "crates/syntax/src/validation.rs: validate", "crates/syntax/src/parsing.rs: parse_text"]}
{"id": "C75", "title": "Trees and diagnostics are linear in the file", "statement": "For a file with n tokens other than white space and comments the syntax tree has at most 16 n + 2 nodes and at most 4 n + 5 levels, the parser reports at most 16 n errors, and all diagnostics together are at most 48 n plus twice the number of characters plus 4. The depth has no fixed limit: n nested blocks give 2 n + 2 levels without an error.", "quantifier": "every text, with any number and kind of errors", "why_tests_cant": "Resource bounds over all inputs: recovery could loop without consuming tokens, or report quadratically many errors, on a text no test contains.", "anchors": ["crates/syntax/src/lib.rs: SourceFile::parse", "crates/parser/src/grammar.rs", "crates/parser/src/parser.rs: Parser::error, err_and_bump", "crates/syntax/src/validation.rs: validate"]}
{"id": "C76", "title": "The code generator gives every part of a rule an accessor, and the checked-in code is its output", "statement": "For any grammar, the code generator makes one type per definition, and for each type one accessor per node or token its rule mentions, except below the labels lhs, rhs, op, table_sep, tokens named string, commas, and what separates or may follow the items of a list; it panics exactly on rules with a labelled token, a label below a label or a repetition of anything but a node. A list with an optional part after it gets an accessor that finds its first item only; other lists get one that finds all items. The checked-in kinds, classes, macros, token types, casts and accessors are exactly what it makes of lua.ungram and ast_src.toml.", "quantifier": "every grammar; every syntax tree for the accessors", "why_tests_cant": "The generator is run on one grammar by hand; the tests compare nothing, and accessors must agree on every tree.", "anchors": ["xtask/src/codegen/gen_syntax/ast_src.rs: lower, lower_rule, lower_comma_list, Field::method_name", "xtask/src/codegen/gen_syntax/mod.rs: gen_syntax_kinds, gen_tokens, gen_nodes", "xtask/assets/lua.ungram", "xtask/assets/ast_src.toml", "crates/parser/src/syntax_kind/generated.rs", "crates/syntax/src/ast/generated/nodes.rs", "crates/syntax/src/ast/generated/tokens.rs"]}
{"id": "C77", "title": "The grammar file describes the syntax trees", "statement": "In the syntax tree of a text without syntax errors the children of every node, white space and comments left out, are as the rule of its kind in lua.ungram says; conversely, a tree over the tokens of a text that is as the file says and is grouped by the operator table is the tree the parser builds.", "quantifier": "every text without syntax errors, every node of its tree; every candidate tree", "why_tests_cant": "Programs and trees are unbounded; the file is used to generate the typed accessors and the only documentation of the trees.", "anchors": ["xtask/assets/lua.ungram", "crates/parser/src/grammar.rs: root", "crates/parser/src/grammar/expressions.rs", "crates/parser/src/grammar/statements.rs", "crates/syntax/src/parsing.rs: parse_text"]}
{"id": "C78", "title": "Cursor markers and generated files", "statement": "extract_offset gives the byte offset of the first $0 and the text without it, and panics exactly when there is none; extract_range gives the range between the two markers and the text without them when the text has the form before$0mid$0after with no $0 in before followed by mid, and panics on every other text, so also on a text with two markers where taking out the first joins a $ to a 0. update leaves the file equal to the contents up to CR LF against LF, touches no other file, writes exactly when it was not so before, fails exactly when a needed write is impossible, and does nothing the second time.", "quantifier": "every text below 4 GiB; every disk, path and contents", "why_tests_cant": "Texts with markers, and disks, are unbounded; the markers may touch each other and the text around them in any way.", "anchors": ["crates/test_utils/src/lib.rs: extract_offset, extract_range", "xtask/src/utils.rs: update"]}
{"id": "C79", "title": "Diagnostics go to the URI of the document", "statement": "Diagnostics of a document are published under the URI with which the client opened it, and closing it clears them. Paths survive the conversion to a URI and back, different paths have different URIs, and no URI makes the conversion panic.", "quantifier": "every history of client messages with arbitrary URIs, tasks and loader messages; every path", "why_tests_cant": "Histories and URIs are unbounded, and many spellings of a URI name one path.", "anchors": ["crates/lua-analyzer/src/from_proto.rs: abs_path", "crates/lua-analyzer/src/to_proto.rs: url_from_abs_path", "crates/lua-analyzer/src/global_state.rs: file_id_to_url", "crates/lua-analyzer/src/main_loop.rs: handle_event, on_notification"]}
{"id": "C80", "title": "A file is parsed from any top-level boundary as if it began there", "statement": "Cut the top level of the tree of a file, with any errors, between two children, not just before the semicolon of a statement. Parsing the text after the cut alone gives exactly the children after the cut, and its errors, moved, are the errors of the file except some that end at most one byte after the cut. Cut just before such a semicolon, it does not. So two files that end with the same text, cut before it, agree on it whatever precedes.", "quantifier": "every file, with any errors, and every cut of its top level", "why_tests_cant": "Recovery state could leak from one statement into the next; files, errors and cuts are unbounded.", "anchors": ["crates/syntax/src/lib.rs: SourceFile::parse", "crates/parser/src/grammar.rs: root, block_raw", "crates/parser/src/grammar/statements.rs: stmt", "crates/syntax/src/parsing/text_tree_sink.rs: TextTreeSink", "crates/syntax/src/validation.rs: validate"]}
{"id": "C81", "title": "What comes later does not change the statements before", "statement": "Let two files begin with the same text, tokenized alike there, and cut the top level of the first file so that at least one common token (not white space or a comment) follows the cut, and it is not a statement's semicolon. Then the second file has the same children before the cut, whatever follows, broken or not, and the errors that start before the cut are the same in both. Without a common token after the cut this fails.", "quantifier": "every two files with a common beginning, with any errors; every cut of the top level", "why_tests_cant": "The parser peeks ahead and recovers from errors by skipping; a test covers a few continuations out of infinitely many.", "anchors": ["crates/syntax/src/lib.rs: SourceFile::parse", "crates/parser/src/parser.rs: Parser::nth, err_recover", "crates/parser/src/grammar/statements.rs: stmt, index_path, function_def_content, local_stmt, for_content", "crates/parser/src/grammar/expressions.rs: table_content"]}
{"id": "C82", "title": "A session ends as the client asks", "statement": "After initialization, for every sequence of client messages, loader events and every choice of which channel is read next: the process ends with status 0 exactly when it reads an exit notification, having done exactly what the messages before ask, and nothing after it is read; with an error exactly when the client disconnects without one; and it keeps running no longer than that. The status is the one the protocol prescribes (0 after a shutdown request, 1 otherwise), and every request before the exit is answered.", "quantifier": "every message sequence, loader history and interleaving of the three channels", "why_tests_cant": "The end of a session depends on the interleaving of channels, which a test does not control.", "anchors": ["crates/lua-analyzer/src/main.rs: main, run_server", "crates/lua-analyzer/src/main_loop.rs: main_loop, run, next_event, on_request"]}
{"id": "C83", "title": "The server handles what it announces and ignores the rest", "statement": "In every session and interleaving, a request with decodable parameters is refused as unknown exactly when its method is not among the announced capabilities (or shutdown); documents opened, closed and changed incrementally, as announced, are mirrored exactly; and notifications that were not announced change nothing, then or later.", "quantifier": "every session, request, notification and interleaving", "why_tests_cant": "Histories are unbounded and an unknown message may have a delayed effect.", "anchors": ["crates/lua-analyzer/src/caps.rs: server_capabilities", "crates/lua-analyzer/src/dispatch.rs: RequestDispatcher, NotificationDispatcher", "crates/lua-analyzer/src/main_loop.rs: on_request, on_notification"]}
{"id": "C84", "title": "Absolute paths stay absolute, and their operations mean what they say", "statement": "An AbsPath can be made from a text exactly when it is absolute. parent and pop remove the last component and fail exactly for the root; join follows a relative path from the base and lets an absolute one replace it; strip_prefix succeeds exactly when the components of the base are the first of the path, its result is relative and joining it to the base gives an equal path; normalize gives the names of the place the path leads to. None of them panics, and every result declared absolute is.", "quantifier": "all texts, with any repeated or trailing separators, '.' and '..'", "why_tests_cant": "Paths are unbounded texts; several wrappers skip the check or would panic on the result of the standard library.", "anchors": ["crates/stdx/src/paths.rs: AbsPathBuf::try_from, assert, pop; AbsPath::parent, join, strip_prefix, normalize; normalize_path"]}
{"id": "C85", "title": "The order of hash maps makes no difference to a document", "statement": "The open documents are kept in a hash map and the files with changed diagnostics in a hash set, both of which are iterated. Whatever order each iteration takes, the server survives the same histories; a client sees the same answers, requests and, for each document, the same diagnostics in the same order; and the texts, the versions of the open documents, the pending requests and what the loader is told to load are the same. Only the order between messages about different documents may differ.", "quantifier": "every history of events, and every choice of iteration order at every iteration", "why_tests_cant": "Hash order changes between runs, maps and versions of the hasher, and a test sees one order.", "anchors": ["crates/lua-analyzer/src/main_loop.rs: handle_event", "crates/lua-analyzer/src/global_state.rs: GlobalState::maybe_update_diagnostics", "crates/lua-analyzer/src/diagnostics.rs: DiagnosticCollection"]}
{"id": "C86", "title": "The stack that parsing needs follows the nesting of the code", "statement": "On a stack with room for d activations of the recursive parts of the parser, a text is parsed exactly as without a limit, or the stack overflows. It overflows only if the tree is higher than d + 1, where the height counts the nodes from the root down, the first operand of an operator, call or index not counting: so neither the number of statements, elements or arguments nor the length of a chain of operators, calls or fields needs stack. It does not overflow only if the code is nested at most d deep. There is no limit on nesting: for every stack there is a text, as long as the stack is deep, that overflows it.", "quantifier": "every text below 4 GiB and every stack size", "why_tests_cant": "The test for this (stack_overflow.rs) is one text, and ignored; texts, their nesting and the ways to nest are unbounded.", "anchors": ["crates/parser/src/grammar/expressions.rs: expr_bp, lhs, atom_expr, postfix_expr, table_expr, paren_expr", "crates/parser/src/grammar/statements.rs: stmt, elseif_branch", "crates/parser/src/grammar.rs: root, block", "crates/syntax/tests/stack_overflow.rs: stack_overflow"]}
{"id": "C87", "title": "Diagnostics carry the version of the document", "statement": "Every notification of diagnostics for a file carries the version the client gave when it opened or last changed the document, and no version when it is not open; the one that answers a closing carries the version the document had, comes first and is empty. A URI that names no file gets no other notification than the answer to its closing. So the versions published for a document never decrease if the client's do not.", "quantifier": "every history of client messages, tasks and loader messages", "why_tests_cant": "Histories and interleavings: diagnostics are computed for one version and published later.", "anchors": ["crates/lua-analyzer/src/main_loop.rs: handle_event, on_notification (DidOpenTextDocument, DidChangeTextDocument, DidCloseTextDocument)"]}
{"id": "C88", "title": "The parser's work is linear in the tokens", "statement": "For the tokens of any text, the parser performs at most 12 elementary operations (look at a token, take a token, push or change an event) for each event it makes, and makes at most 33 events for each token that is no white space or comment, and 4 more; replaying the events, with the chains of nodes put around earlier ones, takes at most two steps for each event. So no text, correct or not, makes the parser's work grow faster than its number of tokens: there is no backtracking, no rescanning in error recovery, and no long chain followed twice.", "quantifier": "every text below 4 GiB", "why_tests_cant": "Work on a few texts says nothing about the worst text; error recovery and chains of operators are where parsers become quadratic.", "anchors": ["crates/parser/src/parser.rs: Parser, Marker, CompletedMarker", "crates/parser/src/event.rs: process", "crates/parser/src/grammar.rs", "crates/parser/src/grammar/expressions.rs", "crates/parser/src/grammar/statements.rs"]}
{"id": "C89", "title": "Line endings do not matter", "statement": "Putting a carriage return before any of the newlines of a text (LF to CRLF, or a mixture) changes neither the kinds of the tokens nor the shape of the tree; every node starts and ends at the same place, and the lexer and the parser report the same errors with the same ranges. If there is no lexical error, all errors of the file are the same and start at the same places, and in any case the file is free of errors with one line ending exactly if it is with the other. The same place has the same line and column for the editor, except that a place directly before the newline may be one column further, behind the carriage return.", "quantifier": "every text below 4 GiB, every choice of newlines that get a carriage return", "why_tests_cant": "A test converts a few files; the claim is about every newline in every token (long strings, comments, strings cut off by the line's end).", "anchors": ["crates/syntax/src/lexer.rs: tokenize", "crates/syntax/src/lua_lexer.rs: LuaLexer", "crates/syntax/src/validation.rs: validate, unescape", "crates/ide_db/src/line_index.rs: LineIndex"]}
{"id": "C90", "title": "No program goes on from the place of the first syntax error", "statement": "If parsing a text reports syntax errors, the first of them is at a place such that no error-free program consists of the tokens before that place, followed by the token after it, followed by anything; and if no token follows, the tokens before the place are not a program. So no error is reported that more text could make go away.", "quantifier": "all texts and all continuations", "why_tests_cant": "The continuations are unbounded: an error reported too early would show only for the right rest of a program.", "anchors": ["crates/parser/src/grammar/statements.rs: stmt", "crates/parser/src/grammar/expressions.rs: expr_bp", "crates/parser/src/parser.rs: Parser", "crates/syntax/src/parsing/text_tree_sink.rs: TextTreeSink"]}
{"id": "C91", "title": "Up to the first syntax error a text is the beginning of a program", "statement": "If parsing a text reports syntax errors, the tokens before the place of the first are the beginning of an error-free program: some tokens can be put after them that make one. So the first error is never reported later than at the first token that cannot stand where it stands.", "quantifier": "all texts with a syntax error", "why_tests_cant": "The completion has to exist for every cut of every text, however deeply nested; tests show the error positions of a few texts.", "anchors": ["crates/parser/src/grammar.rs: root, block, multi_name_r, param_list", "crates/parser/src/grammar/statements.rs: stmt, function_def_content, index_path", "crates/parser/src/grammar/expressions.rs: expr_bp, lhs, postfix_expr, table_expr", "crates/parser/src/parser.rs: expect, error, err_recover"]}
{"id": "C92", "title": "Edits are local", "statement": "If two texts have the same beginning and the same end and differ only in between, and in both trees a statement of the file starts where the same end starts, then the trees differ only in between: the statements before the change (by more than one token) and those after it are the same nodes, the errors reported before the change are the same, and those of the end are the same, moved by the change of length. This holds whether or not the texts have errors.", "quantifier": "all texts, all edits", "why_tests_cant": "The beginning, the end and both versions of the middle are arbitrary, with arbitrary errors in them.", "anchors": ["crates/parser/src/grammar/statements.rs: block", "crates/syntax/src/parsing/text_tree_sink.rs: TextTreeSink", "crates/syntax/src/parsing.rs: parse_text"]}
{"id": "C93", "title": "The first syntax error's message tells the truth", "statement": "If the message of the first syntax error says that one token was expected and another was found, the one found is the token after the error's place (or the end of the text). And if it names a token that was expected (Expected X, got Y; expected a name; Expected an identifier; Expected call arguments), then the tokens before the error's place, followed by that token, are the beginning of an error-free program. So following the advice of the message always gets further.", "quantifier": "all texts with a syntax error", "why_tests_cant": "The program that goes on has to exist for every text before the error, however deeply nested; tests compare the messages of a few texts.", "anchors": ["crates/parser/src/parser.rs: expect, error, err_recover", "crates/parser/src/grammar.rs: name_r, name_ref_r, multi_name_r, param_list", "crates/parser/src/grammar/statements.rs: stmt, function_def_content, index_path", "crates/parser/src/grammar/expressions.rs: expr_bp, postfix_expr, table_expr"]}
{"id": "C94", "title": "Every syntax error has a known message, and 'got' names the token that is there", "statement": "Every diagnostic that the parser reports for any text, in whatever state of recovery it is, has as its message one of eleven fixed sentences ('expected a name', 'Expected an expression', 'Unmatched end token', ...) or the form 'Expected K, got G'. In the second case G is the kind of the first token at or after the diagnostic's place that is not white space or a comment (the end of the file when there is none), K is another kind than G, and K is never the end of the file.", "quantifier": "all texts that are tokenized and parsed, all the parser's diagnostics for them", "why_tests_cant": "a test looks at the messages of chosen texts; after an error the parser is at a place that no grammar rule foresees, and one message that names a token the parser has already passed would mislead only on some combination of errors", "anchors": ["crates/parser/src/parser.rs: expect, error, err_recover, err_and_bump", "crates/parser/src/grammar.rs: root, block, name_r, name_ref_r, multi_name_r, param_list", "crates/parser/src/grammar/statements.rs: stmt, function_def_content", "crates/parser/src/grammar/expressions.rs: expr_bp, postfix_expr, table_expr", "crates/parser/src/parse_error.rs: ParseError"]}
