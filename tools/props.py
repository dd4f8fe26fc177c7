import json
P=[]
def p(title, statement, quantifier, why, anchors):
    P.append(dict(id="C%02d"%(len(P)+1), title=title, statement=statement, quantifier=quantifier, why_tests_cant=why, anchors=anchors))
LX=["crates/syntax/src/lua_lexer.rs: LuaLexer::lex_main","crates/syntax/src/lexer.rs: tokenize"]
# --- lexing
p("Tokenization is total and lossless",
  "For every source text shorter than 4 GiB, tokenize terminates without panicking; every token has positive length; the token lengths add up to the byte length of the text; and every token starts and ends on a character boundary, so slicing the text by the token lengths and concatenating the slices gives back the text.",
  "all Unicode texts (any characters including NUL, any length below 2^32 bytes)",
  "The set of texts is infinite and the failure modes (a zero-length token loops for ever, a boundary inside a code point panics) hide in unusual character sequences.",
  LX+["lib/accept/src/source.rs: CharSource","lib/accept/src/accept/combinators.rs"])
p("Fixed-spelling tokens are exact and operators are maximal munch",
  "A token whose kind is an operator or punctuation has exactly the spelling of that kind; and a one- or two-character operator is returned only when the text does not continue to a longer operator (== is never two =, ... is never .. and ., and so on).",
  "all texts and all tokens in their tokenization", "Adjacent-character combinations are unbounded in context; tests pick a few.",
  LX+["crates/parser/src/syntax_kind/generated.rs: T!"])
p("Keywords and identifiers are exactly classified",
  "A token is an identifier or keyword exactly when it is a maximal run [A-Za-z_][A-Za-z0-9_]*; it gets the keyword kind exactly when its text is one of the 22 keywords, otherwise the identifier kind.",
  "all texts and all tokens in their tokenization", "Every identifier spelling, including ones that extend or are extended by keywords, must be classified right.",
  ["crates/syntax/src/lua_lexer.rs: LuaLexer::ident","crates/parser/src/syntax_kind/generated.rs: SyntaxKind::from_keyword"])
p("Whitespace, comments and numbers have the right extent",
  "A whitespace token is a maximal run of ASCII whitespace; a comment not starting with --[[ runs exactly to the next newline or end of text and does not include the newline; a decimal token digits[.digits][(e|E)[-]digits] and a hexadecimal token 0x<hex digits> is maximal.",
  "all texts and all tokens in their tokenization", "Extents depend on arbitrary following text.",
  ["crates/syntax/src/lua_lexer.rs: whitespace, comment, number"])
p("Lexical errors are reported exactly once per faulty token, on its span",
  "tokenize reports at most one error per token, its range is exactly that token's byte range, errors come in text order; a closed short-string token has no error and an unclosed one has one; every token of kind unknown other than ~ has the error \"Got an unknown token\", and no identifier, keyword, number, operator, whitespace or comment token has an error.",
  "all texts", "Error offsets after arbitrary prefixes, with multi-byte characters, cannot be enumerated.",
  LX+["crates/syntax/src/lexer/error.rs"])
p("Every Lua short string literal is one error-free string token",
  "For every string literal of Lua 5.1/5.2 (quote, then characters other than the quote, backslash and newline, or backslash escapes, then the quote) the lexer produces one string token with that text and no error.",
  "all short string literals, all following texts", "Escape/quote interactions are unbounded.",
  ["crates/syntax/src/lua_lexer.rs: LuaLexer::string"])
p("Every Lua long string literal is one error-free string token",
  "For every long-bracket string of any level n ([=*n[ ... first ]=*n] ) the lexer produces one string token ending at the matching close bracket, without error.",
  "all levels, all bodies, all following texts", "Bodies with near-miss closers of other levels are unbounded.",
  ["crates/syntax/src/lua_lexer.rs: LuaLexer::bracket_enclosed, multiline_string"])
p("A long comment ends at its close bracket",
  "A comment --[[ ... ]] ends right after its first ]], so code following it on the same line is tokenized as code.",
  "all comment bodies and following texts", "Unbounded bodies and continuations.",
  ["crates/syntax/src/lua_lexer.rs: LuaLexer::comment"])
p("Every Lua numeral is one number token",
  "Every Lua numeral (decimal with optional fraction and signed exponent, .5 forms, 0x/0X hexadecimal) is lexed as a single number token.",
  "all Lua numerals", "Infinite family.", ["crates/syntax/src/lua_lexer.rs: LuaLexer::number"])
p("Tokenization is context free and can resume at any token boundary",
  "Tokenizing the rest of a text starting at a token boundary gives exactly the remaining tokens of the whole text; in particular the tokens of whitespace-separated spellings of any sequence of keywords, identifiers, decimal numbers, operators and simple strings are exactly that sequence.",
  "all texts and all boundaries; all sequences of token spellings", "Needed for every split point of every text.",
  ["crates/syntax/src/lexer.rs: tokenizer","crates/syntax/src/lua_lexer.rs: lex_main"])
# --- parsing
p("Parsing never panics and always terminates",
  "SourceFile::parse returns a tree and an error list for every text of at most 2^32-1 bytes: no assertion, unwrap, index, unreachable! or drop bomb in lexer, grammar, event processing, tree sink, tree builder or validation fires, and every loop ends (assuming the call stack is large enough).",
  "all texts, valid Lua or not", "Error recovery interacts with every token sequence; fuzzing samples it.",
  ["crates/syntax/src/lib.rs: SourceFile::parse","crates/parser/src/grammar.rs","crates/parser/src/grammar/statements.rs","crates/parser/src/grammar/expressions.rs","crates/syntax/src/parsing/text_tree_sink.rs"])
p("The syntax tree is lossless",
  "The concatenated text of the tree returned by SourceFile::parse is the input text.",
  "all texts", "One dropped or duplicated token under some error recovery path breaks it.",
  ["crates/syntax/src/parsing.rs: parse_text","crates/syntax/src/parsing/text_tree_sink.rs"])
p("The tree's tokens are the lexer's tokens in order",
  "The leaves of the parsed tree, left to right, are exactly the tokens produced by tokenize with the same kinds and texts (whitespace and comments included, none duplicated, none reordered).",
  "all texts", "Same as losslessness, plus kinds.",
  ["crates/syntax/src/parsing.rs: parse_text","crates/parser/src/event.rs: process"])
p("The root is one SourceFile containing exactly one Block",
  "The parsed root has kind SourceFile, its only child is a Block node, and all leading and trailing trivia are inside that block; no node of the tree has an internal or token kind.",
  "all texts", "Depends on event balance for all inputs.",
  ["crates/parser/src/grammar.rs: root, root_block","crates/syntax/src/parsing/text_tree_sink.rs: DeferedTextTreeSink"])
p("Parser and lexer error ranges are valid",
  "Every error range reported by the lexer and the parser lies within the text and starts and ends on token boundaries (hence on character boundaries).",
  "all texts", "Ranges are computed incrementally through recovery code.",
  ["crates/syntax/src/parsing/text_tree_sink.rs: error, start_error_node, update_error_ranges"])
p("Error nodes and error reports agree",
  "Every Error node in the tree corresponds to one reported error whose range is exactly the range of that node (leading trivia excluded); if no parser error is reported the tree contains no Error node.",
  "all texts", "Needs all recovery paths.",
  ["crates/parser/src/parser.rs: err_recover, err_until","crates/syntax/src/parsing/text_tree_sink.rs: finish_error_node"])
p("Layout independence",
  "If two texts have the same non-trivia tokens (kinds and texts), their trees are equal after removing whitespace and comment tokens, and the parser reports the same error messages in the same order.",
  "all pairs of texts", "Quantifies over pairs and arbitrary trivia placement.",
  ["crates/syntax/src/parsing/text_token_source.rs: TextTokenSource::new","crates/syntax/src/parsing/text_tree_sink.rs: eat_trivias"])
p("Operators group by precedence and associativity for every expression",
  "For every expression tree over the unary and binary operators, atoms and parentheses, printed with exactly the parentheses required by the operator table (or < and < comparison < .. < + - < * / % < unary < ^, .. and ^ right associative, the others left associative), parsing gives back that tree.",
  "all expressions of any depth over all operators", "Infinite family of operator nestings.",
  ["crates/parser/src/grammar/expressions.rs: expr_bp, lhs, LuaOp","lib/binding_powers/src/lib.rs","lib/binding_powers_impl/src/lib.rs"])
p("Operators of equal Lua precedence associate to the left",
  "a op1 b op2 c with op1, op2 of the same Lua level (+ and -; * / and %; the comparisons) parses as (a op1 b) op2 c.",
  "all pairs of operators of one level", "Concerns the precedence table as a whole.",
  ["crates/parser/src/grammar/expressions.rs: LuaOp"])
p("Every program of the Lua grammar parses without error into the expected tree",
  "For every abstract Lua program (all statement and expression forms, any nesting), written out with any trivia between its tokens, SourceFile::parse reports no parser error and the tree is the one dictated by the program.",
  "all abstract programs of any size, all layouts", "Acceptance must hold for every program.",
  ["crates/parser/src/grammar.rs","crates/parser/src/grammar/statements.rs","crates/parser/src/grammar/expressions.rs"])
p("Generic for accepts an expression list",
  "for v1, ..., vn in e1, ..., em do ... end is accepted without error for every m >= 1 as the Lua grammar requires.",
  "all expression lists", "Unbounded m.", ["crates/parser/src/grammar/statements.rs: generic_for"])
p("The parser drives the tree builder with well-nested calls",
  "For every token sequence the sequence of TreeSink calls made by parser::parse is well nested (each finish matches a start, error nodes likewise, exactly one root), calls token() exactly once per non-trivia token, and a node started by precede encloses exactly the node it precedes plus what follows until its completion.",
  "all token sequences", "forward_parent chains of any length.",
  ["crates/parser/src/event.rs: process","crates/parser/src/parser.rs: Marker, CompletedMarker::precede"])
p("An error-free parse means the token sequence is in the grammar",
  "If the parser reports no error then the tree derives the token sequence by the productions of the (documented) grammar: every node's children follow the production for its kind.",
  "all texts", "Soundness needs all paths of the parser.",
  ["crates/parser/src/grammar.rs","crates/parser/src/grammar/statements.rs","crates/parser/src/grammar/expressions.rs"])
# --- validation
p("Escape validation is exact",
  "For every string body, validation reports one error for each backslash that starts an escape not in the supported set, with the exact byte range of the escape, in order, and nothing else.",
  "all string bodies", "Backslash runs and multi-byte characters are unbounded.",
  ["crates/syntax/src/validation.rs: unescape, unescape_once"])
p("Every Lua escape sequence is accepted",
  "Escapes legal in Lua (including \\ddd decimal escapes and backslash-newline) are not reported.",
  "all Lua escapes", "Family of escapes in context.", ["crates/syntax/src/validation.rs: unescape_once"])
p("Expression statements are validated exactly",
  "An expression statement is accepted by validation exactly when it consists of one call or method call; otherwise errors are reported, one per non-call expression.",
  "all trees", "Quantifies over all trees.", ["crates/syntax/src/validation.rs: ExprStmt::validate","crates/syntax/src/ast/stmt_ext.rs"])
p("Assignment targets are validated exactly",
  "An assignment is accepted by validation exactly when every target is a name, an index expression or a dot expression.",
  "all trees", "Quantifies over all trees.", ["crates/syntax/src/validation.rs: AssignStmt::validate","crates/syntax/src/ast/generated/nodes.rs: Expr::can_cast"])
p("Validation error ranges lie in the text",
  "Every validation error range lies within the text.",
  "all texts", "Depends on quoting shapes.", ["crates/syntax/src/validation.rs: unquote"])
# --- ast
p("Typed accessors see every statement and expression",
  "Block::stmts lists every statement of the block, and InfixExpr::lhs/rhs return the two operands.",
  "all texts", "Quantifies over all trees.", ["crates/syntax/src/ast/generated/nodes.rs: Stmt::can_cast, Expr::can_cast","crates/syntax/src/ast/expr_ext.rs"])
p("Name text accessors never panic",
  "Name::text and NameRef::text return the identifier of every Name / NameRef node in any parsed tree.",
  "all texts, all nodes", "Error recovery creates odd nodes.", ["crates/syntax/src/token_text.rs","crates/syntax/src/ast.rs","crates/syntax/src/ast/expr_ext.rs"])
p("Syntax node pointers resolve to the node they were made from",
  "For every node of a parsed tree, SyntaxNodePtr::new(node).to_node(root) returns a node with the same kind and range, namely the node itself.",
  "all texts, all nodes", "Empty nodes and nested equal ranges are position dependent.", ["crates/syntax/src/ptr.rs: SyntaxNodePtr::to_node"])
p("The AST id map is total and gives every item a distinct id",
  "AstIdMap::from_source terminates without panic for the root of every parsed file, and each item gets one id; the traversal it uses visits every node exactly once, parents before children.",
  "all trees", "All tree shapes.", ["crates/hir/src/ast_id_map.rs: from_source, bdfs"])
p("The item tree lists the file's top-level items",
  "Lowering a file gives one item per top-level local, local function and function statement.",
  "all trees", "All tree shapes.", ["crates/hir/src/item_tree/lower.rs: lower_module_items"])
# --- reparse
p("Incremental reparse preserves the edited text",
  "If Parse::reparse takes the incremental path, the text of the new tree is the old text with the edit applied.",
  "all texts and edits", "Unbounded edits.", ["crates/syntax/src/parsing/reparsing.rs"])
p("Incremental reparse equals a full reparse",
  "Parse::reparse returns the same tree and errors as parsing the edited text from scratch.",
  "all texts and edits", "Unbounded edits.", ["crates/syntax/src/lib.rs: Parse::reparse","crates/syntax/src/parsing/reparsing.rs"])
p("Merging errors after an incremental reparse never panics and shifts correctly",
  "Errors before the reparsed range are kept, errors inside are dropped, errors after it are shifted by the length difference of the edit.",
  "all error lists and edits", "Signed shifts.", ["crates/syntax/src/parsing/reparsing.rs: merge_errors","crates/text_edit/src/lib.rs: Indel::offset"])
# --- text edit
p("Applying a text edit replaces exactly the given ranges",
  "TextEdit::apply of an edit made by the builder equals applying its replacements one at a time from right to left (each on the original text outside the other ranges); everything outside the deleted ranges is unchanged, and it never panics when the ranges are on character boundaries inside the text.",
  "all texts, all edits of any number of replacements", "Unbounded edits.", ["crates/text_edit/src/lib.rs: TextEdit::apply, Indel::apply"])
p("Offsets are mapped through an edit correctly",
  "apply_to_offset returns None exactly when the offset lies strictly inside a deleted range; otherwise it returns the length of the edited prefix (the text before the offset with the replacements that start before it), so a character before which nothing is inserted is found at the new offset.",
  "all texts, edits and offsets", "Unbounded edits.", ["crates/text_edit/src/lib.rs: TextEdit::apply_to_offset"])
p("Overlapping edits are rejected and disjoint ones merged",
  "union fails and leaves the edit unchanged exactly when some two replacements overlap; otherwise the result contains exactly the replacements of both, sorted and disjoint, and its application does not depend on which edit was first (when the ranges are distinct); the builder never yields an overlapping edit.",
  "all pairs of edits", "Unbounded sets of ranges.", ["crates/text_edit/src/lib.rs: TextEdit::union, check_disjoint, TextEditBuilder"])
# --- line index
p("Line/column and offset are inverse",
  "For every offset of the text, line_col gives the number of newlines before it and the distance from the line start, and offset(line_col(o)) = o; and line_col(offset(lc)) = lc for every valid line/column.",
  "all texts and offsets", "All texts.", ["crates/ide_db/src/line_index.rs: LineIndex::line_col, offset","crates/stdx/src/lib.rs: partition_point"])
p("UTF-16 columns are exact",
  "to_utf16 gives the number of UTF-16 code units before the column for every character boundary, and to_utf8 inverts it.",
  "all texts and positions", "Mixed-width lines.", ["crates/ide_db/src/line_index.rs: to_utf8, to_utf16"])
p("LSP positions round trip",
  "from_proto::offset(to_proto::position(o)) = o for every character boundary o of every text, and the LSP position is the number of newlines and the UTF-16 length of the line prefix.",
  "all texts and offsets", "All texts.", ["crates/lua-analyzer/src/from_proto.rs: offset","crates/lua-analyzer/src/to_proto.rs: position"])
p("Batched document changes equal sequential application",
  "apply_document_changes gives the text obtained by applying the changes one after the other, each interpreted against the text produced by the previous ones, for any mix of ranged and full-text changes.",
  "all texts and all change sequences", "The line index is reused between changes; wrong reuse shows only for particular sequences.",
  ["crates/lua-analyzer/src/lsp_utils.rs: apply_document_changes"])
p("partition_point is correct",
  "For every slice partitioned by the predicate, partition_point returns the index of the first element not satisfying it, reading only in bounds; it always terminates with an index at most the length.",
  "all slices and predicates", "Unsafe indexing for all lengths.", ["crates/stdx/src/lib.rs: partition_point"])
# --- vfs
p("The VFS behaves as a map from paths to contents",
  "After any sequence of set_file_contents calls, looking a path up gives the last contents set for it (or nothing if deleted/never set); the return value says whether the contents changed. The length counts every path ever named, existing or not.",
  "all histories of operations", "Unbounded histories.", ["crates/vfs/src/lib.rs: Vfs","crates/vfs/src/path_interner.rs: PathInterner"])
p("File ids are stable and unique",
  "A path keeps the same id for ever, distinct paths have distinct ids, and ids resolve back to their path.",
  "all histories", "Unbounded histories.", ["crates/vfs/src/lib.rs: alloc_file_id","crates/vfs/src/path_interner.rs"])
p("The VFS change log is faithful",
  "take_changes returns, in order, exactly one record per effective change since the last call, with Create/Modify/Delete matching the contents before and after; replaying it reproduces the set of existing files. has_changes says whether there is a record; a record's queries say whether its file exists after the change and whether that is new.",
  "all histories", "Unbounded histories.", ["crates/vfs/src/lib.rs: set_file_contents, take_changes"])
# --- server
p("Open documents mirror the client",
  "After any sequence of messages and file-loader events handled without panic, the server's contents of every open document are the client's text: the opened text with all later changes applied; file-loader events never overwrite an open document.",
  "all histories of LSP messages and loader events", "Histories and interleavings.", ["crates/lua-analyzer/src/main_loop.rs: on_notification, handle_vfs"])
p("The analysis database mirrors the VFS after every event",
  "After each handled event every existing file with valid UTF-8 has its VFS contents as database text.",
  "all histories", "Histories and interleavings.", ["crates/lua-analyzer/src/global_state.rs: process_changes","crates/base_db/src/change.rs: Change::apply"])
p("The main loop does not panic",
  "No sequence of well-formed client messages and loader events makes handle_event panic.",
  "all histories", "Histories and interleavings.", ["crates/lua-analyzer/src/global_state.rs: process_changes","crates/vfs/src/lib.rs: file_contents"])
p("Each request is answered exactly once",
  "Every request with a fresh id gets exactly one response once queued tasks are handled, with InvalidRequest after shutdown, MethodNotFound for unknown methods and InvalidParams for undecodable parameters; no response is sent for an id that was never requested.",
  "all histories and interleavings of tasks", "Histories and interleavings.", ["crates/lua-analyzer/src/dispatch.rs","crates/lua-analyzer/src/global_state.rs: register_request, respond"])
p("Published diagnostics are those of the current text",
  "Whenever all queued work is done, the diagnostics last published for an open document are those of its current text.",
  "all histories", "Histories and interleavings.", ["crates/lua-analyzer/src/main_loop.rs: handle_event","crates/lua-analyzer/src/diagnostics.rs"])
p("Closing a document restores the file on disk",
  "After a document is closed without saving, the server analyses the contents on disk.",
  "all histories", "Histories.", ["crates/lua-analyzer/src/main_loop.rs: DidCloseTextDocument"])
p("Diagnostics list the first 128 syntax errors in order",
  "diagnostics(file) has min(128, number of errors) entries, the i-th being the i-th syntax error with its range and the message prefixed by \"Syntax Error: \".",
  "all texts", "All error lists.", ["crates/ide/src/diagnostics.rs: diagnostics"])
# --- misc
p("Token sets are exact finite sets",
  "TokenSet::new(ks).contains(k) holds exactly when k is in ks; union is set union; every kind fits in the 128-bit mask.",
  "all lists of kinds and all kinds", "2^n sets.", ["crates/parser/src/token_set.rs"])
p("Syntax kinds survive conversion to and from raw integers",
  "Converting a kind to u16 and back is the identity and distinct kinds have distinct numbers; converting a number above the last kind panics rather than producing an invalid kind.",
  "all kinds, all u16", "Unsafe transmute for all values.", ["crates/parser/src/syntax_kind.rs"])
p("Accept combinators consume what they match",
  "For every combinator, accept(t) leaves the source unchanged when it returns false and otherwise only consumes a prefix of the rest. For every combinator t built from characters, predicates, ranges, Any, And, Or and Not that denotes a set of characters not containing NUL (NUL is what the end of input reads as), accept never panics, also at the end; While(t) and Until(t) consume exactly the longest run of characters in (outside) the set, Repeat(t,n) and Seq are all or nothing.",
  "all sources and all combinator expressions over characters", "Unbounded combinations.", ["lib/accept/src/accept.rs","lib/accept/src/accept/combinators.rs"])
p("Binding powers order operators as declared",
  "For every operator declaration list, later operators bind tighter than earlier ones, left-associative infix operators have a smaller left power than right power, right-associative ones the opposite, and all powers are above LOWEST's predecessor and distinct.",
  "all declaration lists that fit in u8", "All lists.", ["lib/binding_powers/src/lib.rs","lib/binding_powers_impl/src/lib.rs"])
p("Path normalization is idempotent and removes dots",
  "normalize keeps the path absolute, leaves no . or .. component, is idempotent and resolves .. by removing the preceding component.",
  "all absolute paths", "All paths.", ["crates/stdx/src/paths.rs: normalize_path"])
p("Diagnostic collection reports exactly the changed files",
  "take_changes returns exactly the files whose diagnostics were set to a different list since the last call, and diagnostics_for returns the last list set.",
  "all histories", "Unbounded histories.", ["crates/lua-analyzer/src/diagnostics.rs: DiagnosticCollection"])
# --- loader
p("Library files reach the analysis, and nothing else",
  "Once the file loader is done, every .lua file below a configured library directory that the client never opened is known to the server and its database with the result of its last read; every file the server knows was opened by the client or found as a regular .lua file below a configured library directory. A file counts as .lua exactly if its name is a non-empty stem followed by .lua.",
  "all interleavings of client messages, loader steps, deliveries and disk contents", "Schedules of two threads and a changing disk.", ["crates/vfs/src/loader.rs: load_entry, run","crates/lua-analyzer/src/main_loop.rs: handle_vfs"])
p("Each changed configuration is loaded, in order",
  "The loader is given exactly the configurations received from the client that differ from their predecessor, in order, with version numbers 1, 2, ...; the server's configuration is the last one received; null or empty settings change nothing; all paths given are absolute.",
  "all histories of client messages", "Histories.", ["crates/lua-analyzer/src/reload.rs: update_configuration, load_workspace","crates/lua-analyzer/src/config.rs","crates/lua-analyzer/src/main_loop.rs: DidChangeConfiguration"])
p("The loader reports progress exactly and finishes",
  "For each configuration the loader sends progress 0, then for each root in order its files and the number of roots done, with the version of the configuration; it never blocks while it has work, and its work for given configurations is finite.",
  "all interleavings and disks", "Schedules.", ["crates/vfs/src/loader.rs: run"])
p("Documents that are not open show no diagnostics",
  "Diagnostics are published only for documents the client opened, and after a document is closed it shows none until it is opened again.",
  "all histories", "Histories and interleavings.", ["crates/lua-analyzer/src/main_loop.rs: DidCloseTextDocument, handle_event","crates/lua-analyzer/src/global_state.rs: maybe_update_diagnostics"])
p("The libraries of the initialization options are loaded",
  "If the server's configuration names libraries, the loader has been given that configuration.",
  "all initial configurations and histories", "Histories.", ["crates/lua-analyzer/src/main.rs: run_server","crates/lua-analyzer/src/reload.rs"])
# --- typed accessors
p("The typed accessors return the parts of a construct",
  "On the tree of an accepted Lua program each accessor of a typed node (condition, body, keyword token, name, operator, operands, arguments, statements, ...) returns the child the construct has there, and None or nothing only when the construct has no such part.",
  "all programs, constructs and layouts", "Programs are unbounded.", ["crates/syntax/src/ast/generated/nodes.rs","crates/syntax/src/ast/expr_ext.rs","crates/syntax/src/ast/node_ext.rs"])
p("A valid beginning of a file is parsed the same whatever follows",
  "If the text of a file starts with a complete sequence of statements, cut from the rest at a token boundary where the next token does not continue the last statement, then the tree of the file is the statements of the beginning parsed alone followed by the statements of the rest parsed alone, and its errors are exactly those of the beginning and those of the rest moved by the length of the beginning (an empty error at the very start of the rest may stand before the trivia that separates the two).",
  "all texts and all valid beginnings", "All texts.", ["crates/parser/src/grammar/statements.rs","crates/parser/src/lib.rs: parse","crates/syntax/src/parsing/text_tree_sink.rs","crates/syntax/src/lib.rs: SourceFile::parse"])
p("The parser reads programs by its own rules, in one way only",
 "Every program that is written with the parentheses and separators the implementation's own table of operators asks for, in any layout, is parsed without a parser error to the tree it stands for; every expression can be written so; and no text can be read in two ways.",
 "every program of the language of LuaSyntax.v, every layout (whitespace, comments, names, numbers, strings), every expression",
 "Programs nest without bound and the layout is free: tests can only try a few.",
 ["crates/parser/src/grammar.rs","crates/parser/src/grammar/expressions.rs: expr_bp, infix_binding_power","crates/parser/src/grammar/statements.rs"])
p("The tree depends on the kinds of the tokens only",
 "Two texts whose tokens (trivia included) have the same kinds in the same order are parsed to trees that differ in the texts of the tokens only, and the parser reports the same messages at the same tokens.",
 "every pair of texts with the same kinds of tokens, with or without errors",
 "It relates two runs on unrelated texts of any length; renaming a variable anywhere in any file is one instance.",
 ["crates/syntax/src/parsing.rs: parse_text","crates/syntax/src/parsing/text_tree_sink.rs","crates/parser/src/lib.rs: parse"])
p("The lexer implements a complete set of lexical rules",
 "Tokenizing a text gives the one sequence of tokens and errors allowed by the lexical rules: longest operators, words and keywords, longest numerals, runs of blanks, comments to the end of the line, long comments to their close and then to the end of the line, short strings to the first quote that no backslash precedes (or, with an error, to a newline, a NUL or the end), long brackets to the first bracket with the right number of equal signs (with an error if brackets are missing or it never comes), and single unknown characters with an error. Every text can be read by the rules, and in one way only.",
 "every text below 4 GiB", "All texts; the rules must be complete and without ambiguity.", ["crates/syntax/src/lua_lexer.rs: lex_main","crates/syntax/src/lexer.rs: tokenize"])
p("The editor underlines exactly the errors of the current text",
  "For a document a client has open and has not closed before, once the server has run its pending task, the last textDocument/publishDiagnostics it received lists the first 128 errors of SourceFile::parse of the client's current text, in order, each with the message prefixed by 'Syntax Error: ', severity 1 and source lua-analyzer; its two LSP positions (line, UTF-16 column) enclose exactly the whole characters of the text that the error's byte range covers, unless the text has a long bracket lacking its second bracket. A valid program (as in C20) shows no diagnostics at all.",
  "all histories of client notifications, requests, loader messages and tasks; all document texts including multi-byte ones; all documents",
  "The result combines every edit of the history, UTF-8/UTF-16 conversion, the lexer, parser and validation, and the diagnostic collection.",
  ["crates/lua-analyzer/src/main_loop.rs: GlobalState::run, handle_event","crates/lua-analyzer/src/handlers.rs: publish_diagnostics","crates/ide/src/diagnostics.rs: diagnostics","crates/ide_db/src/line_index.rs: LineIndex","crates/syntax/src/validation.rs: validate"])

p("Operators and calls are grouped by one table, in every text",
 "In the tree of any text, with or without errors, every operand is as long as the table of operators allows: no operand is followed by an operator, call, method call or index that would be part of it; the operators inside a right operand bind more tightly than the operator before it asks for; return takes a value whenever one follows; assignments and call statements begin with a name or a parenthesis.",
 "every text, every node of its tree", "Expressions nest without bound and may be broken in any way.",
 ["crates/parser/src/grammar/expressions.rs: expr_bp, infix_binding_power, call_and_index_expr","crates/parser/src/grammar/statements.rs"])
p("The parser accepts exactly one language and gives each sentence its only reading",
 "A text is parsed without a syntax error, into a given tree, exactly when that tree is derived by the grammar, is grouped by the operator table, and its leaves are the tokens of the text without white space and comments. A token sequence has at most one such tree; a syntax error is reported exactly when it has none.",
 "every text; every candidate tree", "Acceptance has to be compared with a grammar over infinitely many token sequences, in both directions, and uniqueness ranges over all pairs of trees.",
 ["crates/parser/src/grammar.rs: root","crates/parser/src/grammar/expressions.rs","crates/parser/src/grammar/statements.rs","crates/syntax/src/parsing.rs: parse_text"])
p("Which files get no diagnostic at all",
 "A file gets no error of any kind from SourceFile::parse exactly when its text obeys the lexical rules without an error, its tokens have a reading by the grammar and the operator table, and each node keeps the rules for its parts: an expression statement has one visible expression and it is a call, assignment targets are names, fields or indices, and string literals have supported escapes only. The tree is then that reading.",
 "every text", "It is an equivalence between an algorithm (lexer, parser, sink, validator) and a declarative description, over all texts.",
 ["crates/syntax/src/lib.rs: SourceFile::parse","crates/syntax/src/validation.rs: validate","crates/syntax/src/parsing.rs: parse_text"])
p("Trees and diagnostics are linear in the file",
 "For a file with n tokens other than white space and comments the syntax tree has at most 16 n + 2 nodes and at most 4 n + 5 levels, the parser reports at most 16 n errors, and all diagnostics together are at most 48 n plus twice the number of characters plus 4. The depth has no fixed limit: n nested blocks give 2 n + 2 levels without an error.",
 "every text, with any number and kind of errors", "Resource bounds over all inputs: recovery could loop without consuming tokens, or report quadratically many errors, on a text no test contains.",
 ["crates/syntax/src/lib.rs: SourceFile::parse","crates/parser/src/grammar.rs","crates/parser/src/parser.rs: Parser::error, err_and_bump","crates/syntax/src/validation.rs: validate"])
p("The code generator gives every part of a rule an accessor, and the checked-in code is its output",
 "For any grammar, the code generator makes one type per definition, and for each type one accessor per node or token its rule mentions, except below the labels lhs, rhs, op, table_sep, tokens named string, commas, and what separates or may follow the items of a list; it panics exactly on rules with a labelled token, a label below a label or a repetition of anything but a node. A list with an optional part after it gets an accessor that finds its first item only; other lists get one that finds all items. The checked-in kinds, classes, macros, token types, casts and accessors are exactly what it makes of lua.ungram and ast_src.toml.",
 "every grammar; every syntax tree for the accessors", "The generator is run on one grammar by hand; the tests compare nothing, and accessors must agree on every tree.",
 ["xtask/src/codegen/gen_syntax/ast_src.rs: lower, lower_rule, lower_comma_list, Field::method_name","xtask/src/codegen/gen_syntax/mod.rs: gen_syntax_kinds, gen_tokens, gen_nodes","xtask/assets/lua.ungram","xtask/assets/ast_src.toml","crates/parser/src/syntax_kind/generated.rs","crates/syntax/src/ast/generated/nodes.rs","crates/syntax/src/ast/generated/tokens.rs"])
p("The grammar file describes the syntax trees",
 "In the syntax tree of a text without syntax errors the children of every node, white space and comments left out, are as the rule of its kind in lua.ungram says; conversely, a tree over the tokens of a text that is as the file says and is grouped by the operator table is the tree the parser builds.",
 "every text without syntax errors, every node of its tree; every candidate tree", "Programs and trees are unbounded; the file is used to generate the typed accessors and the only documentation of the trees.",
 ["xtask/assets/lua.ungram","crates/parser/src/grammar.rs: root","crates/parser/src/grammar/expressions.rs","crates/parser/src/grammar/statements.rs","crates/syntax/src/parsing.rs: parse_text"])
p("Cursor markers and generated files",
 "extract_offset gives the byte offset of the first $0 and the text without it, and panics exactly when there is none; extract_range gives the range between the two markers and the text without them when the text has the form before$0mid$0after with no $0 in before followed by mid, and panics on every other text, so also on a text with two markers where taking out the first joins a $ to a 0. update leaves the file equal to the contents up to CR LF against LF, touches no other file, writes exactly when it was not so before, fails exactly when a needed write is impossible, and does nothing the second time.",
 "every text below 4 GiB; every disk, path and contents", "Texts with markers, and disks, are unbounded; the markers may touch each other and the text around them in any way.",
 ["crates/test_utils/src/lib.rs: extract_offset, extract_range","xtask/src/utils.rs: update"])
p("Diagnostics go to the URI of the document",
 "Diagnostics of a document are published under the URI with which the client opened it, and closing it clears them. Paths survive the conversion to a URI and back, different paths have different URIs, and no URI makes the conversion panic.",
 "every history of client messages with arbitrary URIs, tasks and loader messages; every path", "Histories and URIs are unbounded, and many spellings of a URI name one path.",
 ["crates/lua-analyzer/src/from_proto.rs: abs_path","crates/lua-analyzer/src/to_proto.rs: url_from_abs_path","crates/lua-analyzer/src/global_state.rs: file_id_to_url","crates/lua-analyzer/src/main_loop.rs: handle_event, on_notification"])
p("A file is parsed from any top-level boundary as if it began there",
 "Cut the top level of the tree of a file, with any errors, between two children, not just before the semicolon of a statement. Parsing the text after the cut alone gives exactly the children after the cut, and its errors, moved, are the errors of the file except some that end at most one byte after the cut. Cut just before such a semicolon, it does not. So two files that end with the same text, cut before it, agree on it whatever precedes.",
 "every file, with any errors, and every cut of its top level", "Recovery state could leak from one statement into the next; files, errors and cuts are unbounded.",
 ["crates/syntax/src/lib.rs: SourceFile::parse","crates/parser/src/grammar.rs: root, block_raw","crates/parser/src/grammar/statements.rs: stmt","crates/syntax/src/parsing/text_tree_sink.rs: TextTreeSink","crates/syntax/src/validation.rs: validate"])
p("What comes later does not change the statements before",
 "Let two files begin with the same text, tokenized alike there, and cut the top level of the first file so that at least one common token (not white space or a comment) follows the cut, and it is not a statement's semicolon. Then the second file has the same children before the cut, whatever follows, broken or not, and the errors that start before the cut are the same in both. Without a common token after the cut this fails.",
 "every two files with a common beginning, with any errors; every cut of the top level", "The parser peeks ahead and recovers from errors by skipping; a test covers a few continuations out of infinitely many.",
 ["crates/syntax/src/lib.rs: SourceFile::parse","crates/parser/src/parser.rs: Parser::nth, err_recover","crates/parser/src/grammar/statements.rs: stmt, index_path, function_def_content, local_stmt, for_content","crates/parser/src/grammar/expressions.rs: table_content"])
p("A session ends as the client asks",
 "After initialization, for every sequence of client messages, loader events and every choice of which channel is read next: the process ends with status 0 exactly when it reads an exit notification, having done exactly what the messages before ask, and nothing after it is read; with an error exactly when the client disconnects without one; and it keeps running no longer than that. The status is the one the protocol prescribes (0 after a shutdown request, 1 otherwise), and every request before the exit is answered.",
 "every message sequence, loader history and interleaving of the three channels", "The end of a session depends on the interleaving of channels, which a test does not control.",
 ["crates/lua-analyzer/src/main.rs: main, run_server","crates/lua-analyzer/src/main_loop.rs: main_loop, run, next_event, on_request"])
p("The server handles what it announces and ignores the rest",
 "In every session and interleaving, a request with decodable parameters is refused as unknown exactly when its method is not among the announced capabilities (or shutdown); documents opened, closed and changed incrementally, as announced, are mirrored exactly; and notifications that were not announced change nothing, then or later.",
 "every session, request, notification and interleaving", "Histories are unbounded and an unknown message may have a delayed effect.",
 ["crates/lua-analyzer/src/caps.rs: server_capabilities","crates/lua-analyzer/src/dispatch.rs: RequestDispatcher, NotificationDispatcher","crates/lua-analyzer/src/main_loop.rs: on_request, on_notification"])
p("Absolute paths stay absolute, and their operations mean what they say",
 "An AbsPath can be made from a text exactly when it is absolute. parent and pop remove the last component and fail exactly for the root; join follows a relative path from the base and lets an absolute one replace it; strip_prefix succeeds exactly when the components of the base are the first of the path, its result is relative and joining it to the base gives an equal path; normalize gives the names of the place the path leads to. None of them panics, and every result declared absolute is.",
 "all texts, with any repeated or trailing separators, '.' and '..'", "Paths are unbounded texts; several wrappers skip the check or would panic on the result of the standard library.",
 ["crates/stdx/src/paths.rs: AbsPathBuf::try_from, assert, pop; AbsPath::parent, join, strip_prefix, normalize; normalize_path"])
p("The order of hash maps makes no difference to a document",
 "The open documents are kept in a hash map and the files with changed diagnostics in a hash set, both of which are iterated. Whatever order each iteration takes, the server survives the same histories; a client sees the same answers, requests and, for each document, the same diagnostics in the same order; and the texts, the versions of the open documents, the pending requests and what the loader is told to load are the same. Only the order between messages about different documents may differ.",
 "every history of events, and every choice of iteration order at every iteration", "Hash order changes between runs, maps and versions of the hasher, and a test sees one order.",
 ["crates/lua-analyzer/src/main_loop.rs: handle_event","crates/lua-analyzer/src/global_state.rs: GlobalState::maybe_update_diagnostics","crates/lua-analyzer/src/diagnostics.rs: DiagnosticCollection"])
p("The stack that parsing needs follows the nesting of the code",
 "On a stack with room for d activations of the recursive parts of the parser, a text is parsed exactly as without a limit, or the stack overflows. It overflows only if the tree is higher than d + 1, where the height counts the nodes from the root down, the first operand of an operator, call or index not counting: so neither the number of statements, elements or arguments nor the length of a chain of operators, calls or fields needs stack. It does not overflow only if the code is nested at most d deep. There is no limit on nesting: for every stack there is a text, as long as the stack is deep, that overflows it.",
 "every text below 4 GiB and every stack size", "The test for this (stack_overflow.rs) is one text, and ignored; texts, their nesting and the ways to nest are unbounded.",
 ["crates/parser/src/grammar/expressions.rs: expr_bp, lhs, atom_expr, postfix_expr, table_expr, paren_expr","crates/parser/src/grammar/statements.rs: stmt, elseif_branch","crates/parser/src/grammar.rs: root, block","crates/syntax/tests/stack_overflow.rs: stack_overflow"])
p("Diagnostics carry the version of the document",
 "Every notification of diagnostics for a file carries the version the client gave when it opened or last changed the document, and no version when it is not open; the one that answers a closing carries the version the document had, comes first and is empty. A URI that names no file gets no other notification than the answer to its closing. So the versions published for a document never decrease if the client's do not.",
 "every history of client messages, tasks and loader messages", "Histories and interleavings: diagnostics are computed for one version and published later.",
 ["crates/lua-analyzer/src/main_loop.rs: handle_event, on_notification (DidOpenTextDocument, DidChangeTextDocument, DidCloseTextDocument)"])
p("The parser's work is linear in the tokens",
 "For the tokens of any text, the parser performs at most 12 elementary operations (look at a token, take a token, push or change an event) for each event it makes, and makes at most 33 events for each token that is no white space or comment, and 4 more; replaying the events, with the chains of nodes put around earlier ones, takes at most two steps for each event. So no text, correct or not, makes the parser's work grow faster than its number of tokens: there is no backtracking, no rescanning in error recovery, and no long chain followed twice.",
 "every text below 4 GiB", "Work on a few texts says nothing about the worst text; error recovery and chains of operators are where parsers become quadratic.",
 ["crates/parser/src/parser.rs: Parser, Marker, CompletedMarker","crates/parser/src/event.rs: process","crates/parser/src/grammar.rs","crates/parser/src/grammar/expressions.rs","crates/parser/src/grammar/statements.rs"])
p("Line endings do not matter",
  "Putting a carriage return before any of the newlines of a text (LF to CRLF, or a mixture) changes neither the kinds of the tokens nor the shape of the tree; every node starts and ends at the same place, and the lexer and the parser report the same errors with the same ranges. If there is no lexical error, all errors of the file are the same and start at the same places, and in any case the file is free of errors with one line ending exactly if it is with the other. The same place has the same line and column for the editor, except that a place directly before the newline may be one column further, behind the carriage return.",
  "every text below 4 GiB, every choice of newlines that get a carriage return",
  "A test converts a few files; the claim is about every newline in every token (long strings, comments, strings cut off by the line's end).",
  ["crates/syntax/src/lexer.rs: tokenize","crates/syntax/src/lua_lexer.rs: LuaLexer","crates/syntax/src/validation.rs: validate, unescape","crates/ide_db/src/line_index.rs: LineIndex"])

p("No program goes on from the place of the first syntax error",
  "If parsing a text reports syntax errors, the first of them is at a place such that no error-free program consists of the tokens before that place, followed by the token after it, followed by anything; and if no token follows, the tokens before the place are not a program. So no error is reported that more text could make go away.",
  "all texts and all continuations",
  "The continuations are unbounded: an error reported too early would show only for the right rest of a program.",
  ["crates/parser/src/grammar/statements.rs: stmt", "crates/parser/src/grammar/expressions.rs: expr_bp", "crates/parser/src/parser.rs: Parser", "crates/syntax/src/parsing/text_tree_sink.rs: TextTreeSink"])
p("Up to the first syntax error a text is the beginning of a program",
  "If parsing a text reports syntax errors, the tokens before the place of the first are the beginning of an error-free program: some tokens can be put after them that make one. So the first error is never reported later than at the first token that cannot stand where it stands.",
  "all texts with a syntax error",
  "The completion has to exist for every cut of every text, however deeply nested; tests show the error positions of a few texts.",
  ["crates/parser/src/grammar.rs: root, block, multi_name_r, param_list", "crates/parser/src/grammar/statements.rs: stmt, function_def_content, index_path", "crates/parser/src/grammar/expressions.rs: expr_bp, lhs, postfix_expr, table_expr", "crates/parser/src/parser.rs: expect, error, err_recover"])
p("Edits are local",
  "If two texts have the same beginning and the same end and differ only in between, and in both trees a statement of the file starts where the same end starts, then the trees differ only in between: the statements before the change (by more than one token) and those after it are the same nodes, the errors reported before the change are the same, and those of the end are the same, moved by the change of length. This holds whether or not the texts have errors.",
  "all texts, all edits", "The beginning, the end and both versions of the middle are arbitrary, with arbitrary errors in them.",
  ["crates/parser/src/grammar/statements.rs: block", "crates/syntax/src/parsing/text_tree_sink.rs: TextTreeSink", "crates/syntax/src/parsing.rs: parse_text"])
p("The first syntax error's message tells the truth",
  "If the message of the first syntax error says that one token was expected and another was found, the one found is the token after the error's place (or the end of the text). And if it names a token that was expected (Expected X, got Y; expected a name; Expected an identifier; Expected call arguments), then the tokens before the error's place, followed by that token, are the beginning of an error-free program. So following the advice of the message always gets further.",
  "all texts with a syntax error", "The program that goes on has to exist for every text before the error, however deeply nested; tests compare the messages of a few texts.",
  ["crates/parser/src/parser.rs: expect, error, err_recover", "crates/parser/src/grammar.rs: name_r, name_ref_r, multi_name_r, param_list", "crates/parser/src/grammar/statements.rs: stmt, function_def_content, index_path", "crates/parser/src/grammar/expressions.rs: expr_bp, postfix_expr, table_expr"])
p("Every syntax error has a known message, and 'got' names the token that is there",
  "Every diagnostic that the parser reports for any text, in whatever state of recovery it is, has as its message one of eleven fixed sentences ('expected a name', 'Expected an expression', 'Unmatched end token', ...) or the form 'Expected K, got G'. In the second case G is the kind of the first token at or after the diagnostic's place that is not white space or a comment (the end of the file when there is none), K is another kind than G, and K is never the end of the file.",
  "all texts that are tokenized and parsed, all the parser's diagnostics for them",
  "a test looks at the messages of chosen texts; after an error the parser is at a place that no grammar rule foresees, and one message that names a token the parser has already passed would mislead only on some combination of errors",
  ["crates/parser/src/parser.rs: expect, error, err_recover, err_and_bump", "crates/parser/src/grammar.rs: root, block, name_r, name_ref_r, multi_name_r, param_list", "crates/parser/src/grammar/statements.rs: stmt, function_def_content", "crates/parser/src/grammar/expressions.rs: expr_bp, postfix_expr, table_expr", "crates/parser/src/parse_error.rs: ParseError"])
with open('/verif/properties.jsonl','w') as f:
    for x in P: f.write(json.dumps(x)+"\n")
for x in P: print(x['id'],x['title'])
