# Formal model of lua-analyzer in Coq: design

Source: /repo (oberblastmeister/lua-analyzer), read as text and never built here.
Model and proofs: /verif/rocq/theories (logical name `Verif`), Coq 8.16.1, standard library only.

## 1. What is modelled

Model files define the program, function by function, each definition with the lines of /repo it stands for.
They contain no theorems about properties.

| model file | code |
|---|---|
| Base.v | panics and fuel as values (`res`), characters, UTF-8 lengths, byte slicing |
| SyntaxKind.v, TokenSet.v | crates/parser/src/syntax_kind*, token_set.rs |
| Accept.v | lib/accept (CharSource, Lexable, Accept, combinators) |
| Lexer.v | crates/syntax/src/parsing/lexer.rs and the lexer proper, as written over `accept` |
| BindingPowers.v | lib/binding_powers and the generated operator table |
| Parser.v, Grammar.v | crates/parser/src/parser.rs, lib.rs, grammar.rs, grammar/*.rs, over abstract operations that are instantiated with the event list (`ev_ops`) |
| Event.v | crates/parser/src/event.rs (forward parents) |
| Tree.v, TreeSink.v | rowan green trees and builder, text_token_source.rs, text_tree_sink.rs, syntax_node.rs |
| Ast.v, AstNodes.v | ast.rs, ast/*_ext.rs and all 122 accessors of ast/generated/nodes.rs |
| Validation.v | validation.rs, SourceFile::parse |
| Ptr.v, Reparse.v, Hir.v | ptr.rs; parsing/reparsing.rs and Parse::reparse; hir's AstIdMap, item tree and queries |
| TextEdit.v, LineIndex.v, Stdx.v | text_edit; ide_db/line_index.rs, from_proto/to_proto positions, lsp_utils.rs; stdx partition_point and paths |
| Vfs.v, Ide.v, Server.v, Loader.v | vfs; ide diagnostics and DiagnosticCollection; the whole main loop of the language server (events, dispatch, requests, configuration, tasks); the file loader thread and the system made of server, loader, disk and the two channels |
| Codegen.v | xtask/src/codegen/gen_syntax, the assets lua.ungram and ast_src.toml, and the generated macros and token casts (ast/generated/tokens.rs) |
| Uri.v | the URI conversions of from_proto.rs, to_proto.rs and global_state.rs, with url and percent-encoding as documented; the server seen from the wire |
| Paths.v | stdx/src/paths.rs on the texts of paths, with std::path of Unix |
| HashOrder.v | the iterations over hash maps and sets in global_state.rs and main_loop.rs, in any order |
| Depth.v | grammar.rs, statements.rs, expressions.rs on a bounded call stack |
| Work.v | parser.rs, event.rs `process`: operations counted |
| Session.v | main.rs, the loop of main_loop.rs with its three channels and the end of the process, caps.rs |
| TestUtils.v | crates/test_utils/src/lib.rs, xtask/src/utils.rs `update` |
| Snapshots.v | not a model: the repository's own parser snapshots replayed on the model, to tie the model to recorded outputs of the real program |

Specification files state what is meant, without using the model's helpers: LexSpec.v (spellings, keywords, literal forms,
errors per token), ParseSpec.v (lexemes of a text, skeleton of a tree, nesting of sink calls), GrammarSpec.v (productions),
ValidSpec.v (escapes and what validation should say), LuaSyntax.v and LuaDialect.v (abstract Lua programs, how they are
written, the tree they dictate, and the two readings `lua` and `impl`), LexRules.v (lexical rules as an inductive relation),
Grouping.v (the operator table and what it means for a tree to be grouped by it), GrammarDoc.v (the meaning of lua.ungram and its corrections).

All other files without `Props` in their name are proof tools. `Props*.v` contain the property theorems, each
followed by `Print Assumptions`, and Examples that show a concrete non-trivial case meeting the hypotheses.

Not modelled: token_text.rs, cancellation.rs, the initialization handshake (lsp_server), parsing of URLs, completion/hover constants, test_utils' printing of diffs, the rest of xtask (command line, rustfmt, the parsers of the asset formats), salsa's caching,
interning and cancellation, logging, JSON-RPC framing and decoding (messages arrive decoded, or as undecodable), a client that
stops reading, `load_sync`, the size of stack frames, memory, timing, Windows paths, the i32 overflow of the outgoing request counter.

## 2. Method

* A Rust panic (assert!, unwrap, indexing, unreachable!, integer overflow and underflow as in builds with overflow checks,
  slicing off a character boundary, rowan's assertions, drop bombs) is the value `Panic`.
* Loops and recursion without a structural measure take fuel and return `OutOfFuel` when it runs out. The theorems show that
  the fuel the entry points supply always suffices (C11), and ParserFuel.v that more fuel gives the same result.
* Text is a list of code points (N); all offsets are UTF-8 byte offsets. File contents are bytes that are valid UTF-8 (`CText`)
  or not (`CRaw`).
* The parser is modelled at the level of the event list with forward_parent links, exactly as written. The grammar is written
  once over abstract operations. Proofs go through a second instance that builds trees directly (ParserTree.v), shown equal
  to the event instance followed by `process` (ParserRefine.v, EventProofs.v), and through `dress`, which adds trivia to such
  a tree, shown equal to the sink (SinkProofs.v, DressProofs.v).
* The lexer is modelled over the accept combinators; proofs go through a direct version (LexerDirect.v) shown equal to it.
* The server is a function from state and event to state, messages and tasks; properties are invariants over all histories.
  The loader and the server are a labelled transition system; properties quantify over all interleavings, and the disk may
  change between any two steps.
* A property that is false of the code has a `_refuted` theorem with a concrete witness, and the strongest true version we
  found: a theorem with suffix `_partial`, or an exact description of what the code does instead. Those are `partial` in
  MANIFEST.json with the missing part in the note.

## 3. Properties

