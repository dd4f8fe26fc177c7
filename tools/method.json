{
 "C01": "Induction over the text; each lexer branch takes a non-empty prefix.",
 "C02": "Case analysis of the direct lexer against the table of spellings.",
 "C03": "Maximal runs by induction; keyword table in LexSpec.v.",
 "C04": "Each branch characterised by the prefix it takes.",
 "C05": "One optional message per token, position by position.",
 "C06": "Induction over the body.",
 "C07": "Search for the close bracket by induction.",
 "C08": "Witness, and the comments without text after the bracket.",
 "C09": "Forms of numerals in LexSpec.v.",
 "C10": "The lexer has no state: a suffix at a boundary lexes the same.",
 "C11": "Refinement of the event parser to the tree parser, a progress measure for each loop, and totality of sink and validation.",
 "C12": "The sink consumes every raw token once.",
 "C13": "Same invariant, with kinds.",
 "C14": "Shape of the run of `root`.",
 "C15": "Positions are sums of token lengths.",
 "C16": "Error nodes and error events are created together.",
 "C17": "The grammar reads kinds of non-trivia tokens only; the sink by induction.",
 "C18": "Induction over expressions with a binding-power invariant.",
 "C19": "Same, for all pairs of operators.",
 "C20": "Induction over programs, one run lemma per construct; unambiguity from determinism.",
 "C21": "Same.",
 "C22": "Well-nestedness of `process` on event lists with forward parents.",
 "C23": "The tree relation of the grammar, with errors switched off.",
 "C24": "Induction over string bodies.",
 "C25": "Same.",
 "C26": "Children of the statement, exactly.",
 "C27": "Same.",
 "C28": "Ranges of validation errors against token boundaries.",
 "C29": "Casts against the kinds the grammar creates.",
 "C30": "First leaf of a name node.",
 "C31": "Descent by range along the tree; rank argument for nested nodes with equal ranges.",
 "C32": "The traversal is a permutation of the descendants.",
 "C33": "Lowering of statements.",
 "C34": "Replacement along a path keeps all other leaves.",
 "C35": "Token path: leaves and shape determine a tree. Block path: the tree of a file without errors is the one reading of its tokens (C73); replacing one block of it by a block that was parsed alone keeps it derivable and well grouped (BlockSwap.v, induction on derivations), and putting trivia back commutes with the replacement (BlockDress.v), so the new tree is the reading of the new tokens. Errors: a lexeme read without an error in one context has none in any (LexClean.v).",
 "C36": "Case analysis of the merge over error lists.",
 "C37": "Splicing from the right; induction over sorted disjoint replacements.",
 "C38": "Same.",
 "C39": "Merging sorted lists.",
 "C40": "Invariant of the newline table.",
 "C41": "Invariant of the table of wide characters.",
 "C42": "C40 and C41 composed; for positions that denote no place, the column loop computed in closed form.",
 "C43": "The cached line index stays valid up to the changed line; a batch equals its changes one by one, each characterized exactly.",
 "C44": "Loop invariant of the binary search.",
 "C45": "Refinement to a map from paths to contents over all histories.",
 "C46": "Interner invariant.",
 "C47": "Replay of the change log.",
 "C48": "Invariant over all histories of client messages and loader events.",
 "C49": "Invariant relating database and VFS.",
 "C50": "Totality under an explicit description of well-behaved clients; then a small world (open documents, known contents, pending requests, configuration) is simulated and each event shown either to survive or to panic.",
 "C51": "Counting of requests, responses and queued tasks.",
 "C52": "Invariant of published diagnostics and pending tasks; the exact form by a simulation: a small automaton over the editor's history (`Step`, `Follows`) determines what is shown for a path.",
 "C53": "Same.",
 "C54": "Direct, with C11.",
 "C55": "Bits of the mask.",
 "C56": "Enumeration of all kinds, as a proof by computation over the whole finite type.",
 "C57": "Denotation of combinators as predicates on characters.",
 "C58": "Induction over the declaration list.",
 "C59": "Induction over components.",
 "C60": "Invariant over histories of the collection.",
 "C61": "Invariants of the server/loader system over all interleavings.",
 "C62": "Same.",
 "C63": "Same, with a measure for termination.",
 "C64": "Server invariant; the exact form from the automaton of C52.",
 "C65": "Initial settings from the options (Session.v initial_config) against a specification of JSON settings; the loads are the repetition-free list of configurations (C62), and the initial one is in it exactly when the settings leave it and come back.",
 "C66": "One theorem per construct, for every program and layout.",
 "C67": "Statements do not look at what was built before; dressing is local; validation errors move with the tree.",
 "C68": "Restates the completeness results of LuaComplete.v/LuaTree.v with the implementation's own table as the language: induction over the syntax of programs with runs of the grammar on arbitrary continuations (LuaRun.v).",
 "C69": "The grammar sees kinds only (parsed_tree_eq: one derivation per list of kinds); induction over the attachment of trivia (Dress) for two texts at once gives the trees and the places of the errors.",
 "C70": "A declarative relation token_rule (LexRules.v), one constructor per rule. Soundness: each step of the direct-style lexer satisfies a rule (the first stop of strings and brackets by strong induction on the text). Completeness and uniqueness: the first two characters decide the rule, and within a rule the extent is determined.",
 "C71": "Composition of C52 (server history), C54 (diagnostics of a text), C42 (positions) and a new invariant: every error of the parser, of the lexer and of validation covers whole characters (token boundaries; node positions by induction on the tree; escape errors by induction on the string's body).",
 "C72": "A run predicate (PC) over the direct parser, for every production and by induction on fuel: what a run appends is grouped, given the token that follows; expressions come out closed against the next token and above the binding power asked for. No hypothesis on errors. The `_exactly` theorems of C18, C20 and C21 follow.",
 "C73": "Induction over strict derivations (TreeComplete.v): for every nonterminal, running the production on the tokens of a well-grouped derivation, followed by any token that does not extend it, appends exactly that derivation and reports nothing. With C23 (soundness) and C72 (grouping) this gives the equivalence; uniqueness follows because a run is deterministic.",
 "C74": "The three lists of errors are separated (source_file_inv). Lexer: the lexed list is the only one the rules allow, and its errors vanish exactly when each token's does. Parser: C73. Validator: per node, from the exact forms C24_every_string, C26_accepted_exactly and C27_exactly.",
 "C75": "Induction over derivations of the lax grammar (TreeSize.v): per nonterminal a bound on nodes plus errors and on depth, in the number of tokens, with separate constants for derivations without tokens; it needs that every statement of a list and every skipped table item has a token (now part of GrammarSpec.v). Validation errors are charged to grandchildren and to the characters of literals.",
 "C76": "Codegen.v models the generator (heck's case conversion, ungrammar rules, lowering, the tables quote! iterates over). Induction over rules against an inductive description of visible mentions; the tables for lua.ungram are computed by the kernel and compared with AstNodes.v and SyntaxKind.v, extended to all trees by extensionality of the casts.",
 "C77": "GrammarDoc.v gives ungrammar rules a meaning over child sequences. Induction over derivations of GrammarSpec.v shows that they conform to the corrected file; induction over trees shows the converse (DocConverse.v); C73 connects both to the parser. The refutations use a matcher proved sound and complete (DocMatch.v).",
 "C78": "Leftmost search, byte slices and str::replace are modelled in TestUtils.v; induction over texts, with decompositions of the text as specification.",
 "C79": "Percent encoding, path components and Url::to_file_path/from_file_path are modelled over bytes (Uri.v); induction over texts. A wire-level run wraps the server model; induction over histories with C64_only_opened connects published URIs to opened ones. C79_decoding gives percent decoding by rules (RFC 3986), C79_denotes the document of every URI.",
 "C80": "The dressed tree of a file is cut at a child (Dress_cut); the run of the root loop restarts at the same point (loop_cut), so the forest after the cut is that of the rest; lexing and validation are cut in the same way. Composition over lexer, parser, sink and validator gives the theorem; necessity of the semicolon condition from the shape of statements.",
 "C81": "Every grammar function is shown to depend on what it consumes and one more token (LookProofs.v: compositional over all functions, with a separate argument that a token that was looked past is consumed), by induction on fuel; then the root loop, dressing, lexing, and C80 for the remainder.",
 "C82": "Session.v gives main_loop's run the three channels explicitly, with the schedule as input. Induction on the schedule shows where a session ends and that its state is that of `run` on the events heard (Heard); the answers then come from the invariants of C51. The two false parts have concrete sessions as witnesses.",
 "C83": "caps.rs as a record; requests by C51's answers due, documents by C48 over the events heard, ignored notifications by the invariant that no change is pending between events.",
 "C84": "Paths.v works on texts: the iterator over components from the front and from the back, trimming, push and pop. Each is shown to act on the list of steps of the text (steps splits at every separator, a homomorphism); normalize by push and pop is shown equal to the component version of C59.",
 "C85": "A relation between states (equal except for the order of tasks' diagnostics, of the change set and of messages to different documents) is preserved by every event when the two sides use different permutations; diagnostics of different files commute because a task lists each file once (paths of open documents are distinct).",
 "C86": "Depth.v ties the recursion of Grammar.v with a counter for the depth instead of fuel. One relational invariant (DepthProofs.v, over the tree-building instance) shows that the limited parser does the same or stops at a place whose nodes reach the height; another that each activation adds at most one enclosing node. Both go through every grammar function; dressing with trivia keeps the measures. The overflowing texts are runs of opening parentheses, by induction.",
 "C87": "PropsVersions.v defines the version of a document from the client's messages alone. Each event changes the version kept by the server as the specification says, and every message published after the event takes it from there; the closing notice takes it before. By induction over the history.",
 "C88": "Work.v runs Grammar.v over a third instance of the parser's operations that counts them. WorkProofs.v shows, function by function, that the counted run makes the same events and that every function's operations are paid for by its events (amortized: a node or token pays for the looks before it, every loop turn that goes on pushes an event). The number of events follows from the encoding of trees as events and the size of trees (C75); the walk over forward links from the links it removes.",
 "C89": "Model: Lexer.v, Parser.v, Grammar.v, TreeSink.v, Validation.v, LineIndex.v. CrLf.v: the lexer's step (dlex) on the two texts gives the same kind and error and leaves related rests; the carriage return may go to either side of a token's end. CrLfTokens.v lifts this to token lists by induction. The parser sees kinds only, so the tree is the same; CrLfTree.v follows the offsets through the dressing of the tree with tokens, the nodes, and the validation.",
 "C90": "Model: Parser.v, Grammar.v, TreeSink.v. FirstProofs.v: for every grammar function, two runs over v ++ k :: x and v ++ k :: y do the same and leave a part of v, or both meet an error, or the first gets past k without one; composed by a lemma per monadic operation, with special care where the code looks two tokens ahead. PropsFirst.v: the tokens before the first error of a tree lie before its offset in the text (induction over the dressing); completeness of the grammar (C73) supplies the second run.",
 "C91": "ContProofs.v: a grammar function can be completed when, after any run of it that is clean up to the end of some tokens, there are more tokens (bounded, none of them the end of file) after which every run of it over both is clean and stops just there, provided a token of its follow set comes next; one lemma per monadic operation, with a default word read by the rest of the function. ContGrammar.v, ContOpen.v: every function of the grammar, the look-ahead of function names separately. PropsContinue.v: the run over the completed tokens is a reading (totality and grouping of the parser); no derivation of the strict grammar has a colon after a dot.",
 "C92": "PropsEdits.v: from C80 (what precedes does not matter) and C81 (what follows does not matter) for the two versions, aligned by the lengths of their texts.",
 "C93": "SaysProofs.v: for a grammar function, the first error of any run of it says what could have come: any run of it over the tokens before the error followed by the promised token gets past them (says); to put functions after one another it is needed that a run which ended cleanly well before one token ends at the same place before a promised one (hlt), which for loops and lists depends on the token that really followed. SaysNames.v, SaysGrammar.v: every function of the grammar. SaysFname.v: function names, by an exact description of what is consumed. PropsSays.v: the wording of messages is injective; the program that goes on is C91's, for the tokens with the promised one.",
 "C94": "SaysProofs.v: found, kept by every function of the grammar (kp, the same walk over SaysNames.v, SaysGrammar.v, SaysFname.v as for C93): the tokens and errors that a run adds, in order, where each error is one of the known ones and names the kind that follows it in that order. PropsSays.v: all_true, by induction on how the tree is dressed with trivia, turns this into the place in the text."
}