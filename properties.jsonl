{"id": "C01", "title": "Text ranges behave as sets of offsets", "statement": "Two non-empty text ranges built by from_to/from_len report disjoint exactly when they share no byte offset; an empty range is disjoint from another exactly when it does not lie strictly inside it; is_subrange_of holds exactly when every boundary of the inner range lies inside the outer one; glue of adjacent ranges covers exactly the union; shift_right moves every offset by the same amount; constructors panic exactly on start > end, glue exactly on non-adjacent ranges.", "quantifier": "all pairs of ranges and all offsets", "why_tests_cant": "the range space is unbounded and the corner cases (empty, touching ranges) multiply", "anchors": ["fall/text/src/text_range.rs: TextRange::{from_to,from_len,len,is_empty,is_subrange_of,intersects,disjoint,contains_offset_nonstrict,glue,shift_right}"]}
{"id": "C02", "title": "Comparing ranges is a sound partial order on non-empty ranges", "statement": "On non-empty ranges partial_cmp is irreflexive-consistent: Less means every offset of the left is before every offset of the right, Less is transitive and antisymmetric with Greater, Equal holds exactly for ==, and None holds exactly for different overlapping ranges. (For empty ranges the code reports Less for r versus r, contradicting ==; this is stated as a refutation.)", "quantifier": "all triples of ranges", "why_tests_cant": "transitivity and antisymmetry quantify over all triples", "anchors": ["fall/text/src/text_range.rs: PartialOrd for TextRange"]}
{"id": "C03", "title": "Slicing a text yields exactly the selected bytes and composes", "statement": "text.slice(r) panics exactly when r ends past the text; otherwise its contents are bytes r.start..r.end of the text, its length is r.len, and slicing a slice equals one slice by the shifted range.", "quantifier": "all buffers, all texts that are slices of them, all ranges", "why_tests_cant": "every nesting of slices of every buffer", "anchors": ["fall/text/src/text.rs: Text::{slice,len,as_str}", "fall/text/src/text_slice.rs: TextSuffix", "fall/text/src/text_buf.rs: TextBuf::as_text"]}
{"id": "C04", "title": "trim removes exactly the surrounding whitespace", "statement": "text.trim() is the slice left after removing the longest whitespace prefix and the longest whitespace suffix; it never panics and a text of whitespace only trims to an empty text.", "quantifier": "all texts over any alphabet with any whitespace predicate", "why_tests_cant": "unbounded texts, including all-whitespace and empty ones", "anchors": ["fall/text/src/text.rs: Text::trim"]}
{"id": "C05", "title": "An edit built in order means simultaneous splicing", "statement": "For any in-order list of insert/delete/replace calls on a TextEditBuilder whose ranges do not overlap and stay inside the text, build().apply(text) equals the text with each range replaced by its insertion and everything else untouched; the calls panic exactly when a call starts before the end of the previous one or the last one runs past the end of the text.", "quantifier": "all texts and all finite sequences of builder calls", "why_tests_cant": "sequences of calls are unbounded; order, adjacency and end-of-text cases interact", "anchors": ["fall/text/src/text_edit.rs: TextEditBuilder::{new,insert,delete,replace,build,advance_to}", "fall/text/src/text_edit.rs: TextEdit::apply"]}
{"id": "C06", "title": "Editor edits survive conversion in both directions", "statement": "from_vs_edits applied to a text equals performing the (sorted, non-overlapping) editor edits simultaneously. For every edit made with the builder, the edits to_vs_edits sends to the editor give the new text followed by the removed end of the old text; so the editor gets the new text, and converting back gives it again, exactly if the last byte of the old text is not removed. (That the editor always gets the new text is false: a deletion at the very end of the text is dropped.)", "quantifier": "all texts, all edits", "why_tests_cant": "all edits of all lengths; the failing case needs a deletion at the exact end", "anchors": ["code/generic_backend/src/lib.rs: from_vs_edits, to_vs_edits"]}
{"id": "C07", "title": "The tree builder only ever produces well-formed trees", "statement": "For any sequence of leaf/start_internal/finish_internal calls that is balanced under one root, the finished file has: every node's parent/child links mutually consistent, children ordered and tiling their parent's range exactly, siblings adjacent, root range = total length, and leaf types/lengths in call order. Calls panic exactly on a leaf outside any node, an unmatched finish, or an unfinished node at the end.", "quantifier": "all finite sequences of builder calls", "why_tests_cant": "call sequences are unbounded trees", "anchors": ["fall/tree/src/node/tree_builder.rs: TreeBuilder", "fall/tree/src/node/imp.rs: FileImpl"]}
{"id": "C08", "title": "A syntax tree is lossless", "statement": "In a well-formed file the texts of the leaves, concatenated left to right, are the text of the node above them, for every node, and hence the file text for the root.", "quantifier": "all trees and texts", "why_tests_cant": "all tree shapes, including empty nodes", "anchors": ["fall/tree/src/node/imp.rs: NodeImpl::{text,range,children}", "fall/tree/src/node/tree_builder.rs"]}
{"id": "C09", "title": "find_leaf_at_offset finds the leaves touching the offset and never panics inside the node", "statement": "For any node of a well-formed tree and any offset inside its range (inclusive), find_leaf_at_offset returns None only when the node is empty, Single(l) when exactly one non-empty leaf touches the offset, and Between(l,r) when exactly two adjacent leaves meet there; none of its assertions/unreachable!s fire, and it panics exactly when the offset is outside.", "quantifier": "all trees, nodes and offsets", "why_tests_cant": "depth and arity are unbounded; the unreachable!() arm needs an invariant over all trees", "anchors": ["fall/tree/src/search.rs: find_leaf_at_offset, LeafAtOffset, is_leaf"]}
{"id": "C10", "title": "find_covering_node returns a smallest node covering the range", "statement": "For any range inside the root, the returned node's range contains the range, and no proper descendant of the returned node contains a non-empty range; for a non-empty range it never panics.", "quantifier": "all trees and ranges", "why_tests_cant": "minimality quantifies over all nodes of all trees", "anchors": ["fall/tree/src/search.rs: find_covering_node, common_ancestor, ancestors"]}
{"id": "C11", "title": "Traversals visit every node of a subtree exactly once in documented order", "statement": "subtree and bottom-up visitors enumerate exactly the nodes of the subtree, once each, children before parents and left to right; walk_tree enumerates the same set parents first; descendants_of_type is the subsequence of given type; ancestors lists the path to the root.", "quantifier": "all trees", "why_tests_cant": "all shapes", "anchors": ["fall/tree/src/search.rs: subtree, descendants_of_type, ancestors, traversal::bottom_up", "fall/tree/src/util.rs: walk_tree", "fall/tree/src/visitor.rs"]}
{"id": "C12", "title": "sibling moves exactly one step and is invertible", "statement": "sibling(n,Right) is the next child of n's parent, sibling(n,Left) the previous one, None exactly at the ends or the root, and going right then left returns n.", "quantifier": "all nodes of all trees", "why_tests_cant": "all trees", "anchors": ["fall/tree/src/search.rs: sibling, child_position"]}
{"id": "C13", "title": "A structural file edit changes exactly the chosen nodes", "statement": "The text produced by a FileEdit is the tree's text with each topmost deleted node removed, each topmost replaced node replaced by its first replacement, and each insertion placed right after its anchor; everything outside the touched nodes is kept byte for byte and into_text_edit never panics. (An insertion after a deleted/replaced node, and a second insertion after the same node, are lost; shown as refutations of the naive statement.)", "quantifier": "all trees and all sets of requested modifications", "why_tests_cant": "arbitrary combinations of nested modifications", "anchors": ["fall/tree/src/edit.rs: FileEdit"]}
{"id": "C14", "title": "replace_substring replaces exactly that substring", "statement": "replace_substring(range, s) followed by into_text_edit().apply(text) equals text[..start] + s + text[end..].", "quantifier": "all trees, ranges in the root, replacement strings", "why_tests_cant": "all trees and ranges", "anchors": ["fall/tree/src/edit.rs: FileEdit::replace_substring"]}
{"id": "C15", "title": "Extending a selection always grows it", "statement": "For a non-empty selection inside the file, extend_selection returns a range strictly containing the selection or None, None happens only if the selection is the whole file range, and repeating it reaches the root range after at most depth-many steps.", "quantifier": "all trees and selections", "why_tests_cant": "termination of repeated calls, all trees", "anchors": ["fall/editor/src/extend_selection.rs: extend_selection"]}
{"id": "C16", "title": "The Swap action exchanges the two neighbours of a comma and nothing else", "statement": "When Swap is offered and applied, the new text is the old one with the texts of the two non-whitespace siblings around the comma exchanged, all other bytes kept in place; it is offered with apply=false exactly when apply=true succeeds.", "quantifier": "all trees, offsets", "why_tests_cant": "all trees", "anchors": ["fall/editor/src/actions.rs: swap, nonws_sibling, find_comma"]}
{"id": "C17", "title": "Lexing tiles the text", "statement": "For every lexer that always makes progress, lex returns tokens whose lengths sum to the text length, each token is what the lexer returns at its position, and there is exactly one such token list.", "quantifier": "all texts, all progress-making lexers", "why_tests_cant": "all texts and tokenizers", "anchors": ["fall/parse/src/lex_engine.rs: lex, Lexer::step"]}
{"id": "C18", "title": "Incremental relexing equals lexing from scratch", "statement": "For every edit applied to a text whose tokens are known, relex returns exactly lex of the new text, provided the lexer decides each token by looking at most one byte beyond its end; without that proviso the statement is false (witness).", "quantifier": "all texts, edits with arbitrary copies, lexers", "why_tests_cant": "all edits and all tokenizers; the failing case needs long lookahead", "anchors": ["fall/parse/src/lex_engine.rs: relex"]}
{"id": "C19", "title": "Relexing always covers the new text", "statement": "Whatever the lexer's lookahead, on an edit that applies to the old text relex returns (no panic, no hang), the token lengths sum exactly to the new text's length, and the reported relexed region is the text length minus the length of the old tokens reused (0 is reported when the old tokens contain an error token, in which case everything is lexed again).", "quantifier": "all texts, edits, progress-making lexers", "why_tests_cant": "all edits", "anchors": ["fall/parse/src/lex_engine.rs: relex"]}
{"id": "C20", "title": "Parsing is lossless for every grammar and input", "statement": "Whenever parsing a text with a well-formed grammar returns, the resulting tree's leaves, left to right, are the lexer's tokens (a contextual token groups adjacent ones) and so the tree's text is the input, errors included.", "quantifier": "all well-formed grammars, all token lists, all texts", "why_tests_cant": "grammar x input is unbounded and error recovery adds cases", "anchors": ["fall/parse/src/lib.rs: parse, ParserDefinition::parse", "fall/parse/src/syn_engine/expr.rs", "fall/parse/src/syn_engine/convert.rs: convert"]}
{"id": "C21", "title": "Parsing never loses its place", "statement": "Whenever an expression parses successfully from a window of tokens, the new position is at or after the old one, inside the same window, and the window's end is unchanged; inside <layer> the body never sees or consumes a token past the layer's cover.", "quantifier": "all grammars, expressions, windows, fuel (recursion depths)", "why_tests_cant": "all recursion depths and grammars", "anchors": ["fall/parse/src/syn_engine/expr.rs: parse_expr, parse_layer", "fall/parse/src/syn_engine/parser.rs: Pos"]}
{"id": "C22", "title": "Backtracking leaves no trace in the tree", "statement": "If an expression fails (or runs as a predicate), the event list is exactly what it was before, and on success the earlier events are unchanged; contexts, arguments and predicate mode are restored in every case. (`prev` and the pending replacement are not restored; refuted with a witness.)", "quantifier": "all grammars, expressions, parser states", "why_tests_cant": "every possible failure point", "anchors": ["fall/parse/src/syn_engine/expr.rs: parse_expr, parse_expr_pred, parse_enter, parse_exit, parse_call", "fall/parse/src/syn_engine/parser.rs: rollback"]}
{"id": "C23", "title": "The parser implements PEG semantics", "statement": "For every well-formed grammar, the events produced, after reordering, spell out exactly the tree that ordered choice, greedy repetition, commit, layers, skipping, contexts, parameters and precedence climbing prescribe when read as a recursive definition over trees (no events, marks or forward parents).", "quantifier": "all well-formed grammars and inputs", "why_tests_cant": "an equivalence of two interpreters on all programs", "anchors": ["fall/parse/src/syn_engine/expr.rs", "fall/parse/src/syn_engine/pratt.rs", "fall/parse/src/syn_engine/convert.rs: reshuffle_events"]}
{"id": "C24", "title": "A committed sequence never fails", "statement": "Once the parts of a sequence before <commit> have matched, the sequence succeeds; if a later part is missing an empty ERROR node is appended and nothing after the failing part is consumed.", "quantifier": "all grammars and inputs", "why_tests_cant": "every failing position", "anchors": ["fall/parse/src/syn_engine/expr.rs: parse_and"]}
{"id": "C25", "title": "Operator precedence and left associativity", "statement": "In every tree built by a Pratt rule, the right operand of an infix node of priority p is itself not an infix of priority <= p at its top, a left operand on the operator chain has been parsed with the same minimum priority, and chains of equal priority nest to the left.", "quantifier": "all Pratt tables and token sequences", "why_tests_cant": "expressions of unbounded length", "anchors": ["fall/parse/src/syn_engine/pratt.rs: pratt_go, pratt_prefix", "fall/parse/src/lib.rs: PrattTable::infixes"]}
{"id": "C26", "title": "Event reordering builds the intended nesting", "statement": "Reordering events with forward parents keeps the order of tokens, is balanced whenever the input is, and turns a node with a forward parent into the first child of that parent.", "quantifier": "all well-nested event lists", "why_tests_cant": "chains of unbounded length and nesting", "anchors": ["fall/parse/src/syn_engine/convert.rs: reshuffle_events"]}
{"id": "C27", "title": "Whitespace is attached without loss and the root owns all of it", "statement": "For every event list and every whitespace binder that binds at most the whitespace it is shown, converting events to a tree consumes every raw token exactly once; the root's node covers leading and trailing whitespace.", "quantifier": "all token lists, balanced events, binders", "why_tests_cant": "every distribution of whitespace", "anchors": ["fall/parse/src/syn_engine/convert.rs: Convertor::{go,fill}", "fall/parse/src/lib.rs: ParserDefinition::parse"]}
{"id": "C28", "title": "Well-formed grammars never crash or hang the parser", "statement": "For every grammar accepted by a static well-formedness check (references in range, no left recursion, no empty repetition, parameters bound, no tree surgery in predicates, start rule total), parsing terminates and does not panic on any input; the grammars of the shipped fall and rust languages pass the check. (The shipped json grammar panics on any text that does not start with a bracket; witness.)", "quantifier": "all inputs, all grammars passing the check", "why_tests_cant": "termination and absence of panics on all inputs", "anchors": ["fall/parse/src/syn_engine/expr.rs", "lang/fall/syntax/src/fall.rs: parser_json", "lang/rust/syntax/src/rust.rs: parser_json", "lang/json/src/json.rs: parser_json"]}
{"id": "C29", "title": "Editing a file gives the tree of the edited text", "statement": "file.edit(e) has text e.apply(file.text()) and, for grammars without cached rules and local lexers, the same tree as parsing that text from scratch; with cached rules this holds if each cached rule's outcome depends only on the tokens it consumed, and is false in general (witnesses).", "quantifier": "all grammars, texts, histories of edits", "why_tests_cant": "histories of edits are unbounded; failures need particular cached segments", "anchors": ["fall/parse/src/lib.rs: reparse", "fall/parse/src/syn_engine/mod.rs: salvage_segments", "fall/parse/src/syn_engine/parser.rs: get_from_cache", "fall/tree/src/lang.rs: Language::reparse"]}
{"id": "C30", "title": "Rule parameters are dynamically scoped and restored", "statement": "A call binds exactly its parameters for the duration of the callee; the whole argument table is restored afterwards; an argument that is itself a parameter is resolved in the caller. An argument that merely mentions a parameter is evaluated in the callee's table (witness where this makes parsing diverge).", "quantifier": "all grammars, states", "why_tests_cant": "recursion depth unbounded", "anchors": ["fall/parse/src/syn_engine/expr.rs: parse_call, parse_var"]}
{"id": "C31", "title": "Line numbers are computed correctly", "statement": "LineIndex maps each offset of the text to (number of newlines before it, distance to the last newline before it), for every text.", "quantifier": "all texts, offsets", "why_tests_cant": "all texts", "anchors": ["lang/rust/src/editor/line_index.rs: LineIndex"]}
{"id": "C32", "title": "Fuzzy symbol search accepts exactly supersequences", "statement": "The automaton used in symbol search accepts a key exactly when the query is a subsequence of the key; can_match is never false for a state from which an accepting continuation exists and will_always_match only holds if all continuations accept.", "quantifier": "all queries and keys", "why_tests_cant": "all strings", "anchors": ["lang/rust/src/editor/fst_subseq.rs: FstSubSeq"]}
{"id": "C33", "title": "Symbol index lookups are sound, bounded and complete up to the bound", "statement": "Every symbol returned for a query occurs in an indexed file and its name matches the query; at most the limit plus one file's matches are returned; a file's index contains every distinct lower-cased name once, keys strictly sorted.", "quantifier": "all sets of files, queries", "why_tests_cant": "all corpora", "anchors": ["lang/rust/src/editor/symbol_index.rs"]}
{"id": "C34", "title": "The file index follows the file system", "statement": "After processing any sequence of change notifications for files, the index maps each path under the roots exactly to the content indexed at its latest notification; files outside the extension filter never appear. (Removing a directory leaves stale entries; witness.)", "quantifier": "all histories of notifications", "why_tests_cant": "histories and interleavings are unbounded", "anchors": ["indxr/src/lib.rs: FileIndexImpl::change"]}
{"id": "C35", "title": "Each diagnostic is reported once however queries interleave", "statement": "In the analysis database, for any interleaving of any number of threads executing queries (with nested queries), every query key is stored at most once, all threads see equal results, and diagnostics of a key are recorded exactly once.", "quantifier": "all schedules of any number of threads", "why_tests_cant": "schedules are unbounded", "anchors": ["lang/fall/src/analysis/db.rs: QExecutor for Q: OnceQExecutor", "lang/fall/src/analysis/mod.rs: collect_all_diagnostics"]}
{"id": "C36", "title": "Collected diagnostics are sorted and complete", "statement": "collect_all_diagnostics returns a permutation of all diagnostics ordered by (severity, start, end).", "quantifier": "all diagnostics lists", "why_tests_cant": "all lists", "anchors": ["lang/fall/src/analysis/mod.rs: collect_all_diagnostics"]}
{"id": "C37", "title": "Reformatting only touches whitespace", "statement": "The text produced by the fall formatter has the same non-whitespace tokens in the same order and never changes whitespace containing a newline. Spaces within a line follow the rules (none just inside angle brackets, one beside a pipe), a file already spaced this way is left unchanged, and formatting twice is formatting once whenever the formatted text parses to the same tree with the new whitespace in place. (Unconditional idempotence fails.)", "quantifier": "all well-formed files and their trees; for idempotence all pairs of files related by one formatting step", "why_tests_cant": "the result depends on every sibling context in a tree of any shape; tests show a few spacings", "anchors": ["lang/fall/src/editor/formatter.rs"]}
{"id": "C38", "title": "The generated parser is the grammar", "statement": "When the generator succeeds on a grammar file, the node types, the rule table, the lexer rules and the verbatim code it emits are exactly those the file describes: rule i of the file is entry i, every expression is compiled to the instruction of its kind with references resolved as the analysis resolves them, no expression, type, parameter or commit index dangles, and entries that are not rules only mention rules and earlier entries. It succeeds exactly on the files it can express, and always ends. A file without analysis errors is accepted if in addition the things the analysis does not look at are in order; without them it is not (witnesses).", "quantifier": "all grammar files, all honest answers of the analysis", "why_tests_cant": "grammars are unbounded and nested", "anchors": ["fall/gen/src/generate/mod.rs: generate", "fall/gen/src/generate/codegen.rs: Codegen"]}
{"id": "C39", "title": "Name resolution is deterministic and scoped", "statement": "A reference resolves to a parameter of the enclosing rule if there is one of that name, else to the first syntactic rule of that name, else to the token of that name; duplicates are all reported; a rule reported as unused is not referenced from anywhere.", "quantifier": "all grammar files", "why_tests_cant": "all grammars", "anchors": ["lang/fall/src/analysis/query/"]}
{"id": "C40", "title": "Find usages and go to definition agree", "statement": "A reference is listed among the usages of a definition exactly when resolving it yields that definition.", "quantifier": "all trees and offsets", "why_tests_cant": "all files", "anchors": ["lang/fall/src/editor/references/"]}
{"id": "C41", "title": "Raw-string and block-comment scanners are safe", "statement": "parse_block_comment returns a length that is at most the input's, ends exactly after the first point where nesting returns to zero (or at the end of input); parse_raw_string returns the end of the first closing delimiter with as many hashes as the opening one, and panics exactly when there are more than 30 hashes.", "quantifier": "all strings", "why_tests_cant": "unbounded nesting and hash counts", "anchors": ["lang/rust/syntax/src/rust.rs: parse_raw_string, parse_block_comment", "lang/fall/syntax/src/fall.rs: parse_raw_string"]}
{"id": "C42", "title": "Highlights nest in the tree order", "statement": "Highlighting yields ranges that are node ranges of the file in bottom-up order; error marks of empty error nodes are one byte long (and so may reach past the end of the text; witness).", "quantifier": "all trees", "why_tests_cant": "all trees", "anchors": ["fall/editor/src/hl.rs: HlVisitor, hl"]}
{"id": "C43", "title": "Test markers are extracted exactly", "statement": "extract_offset and extract_range are inverse to inserting caret markers into a caret-free text: they return the original text and the marked offset or range, and panic exactly when markers are missing.", "quantifier": "all texts, carets, offsets", "why_tests_cant": "all texts", "anchors": ["fall/tree/src/test_util.rs: extract_range, extract_offset"]}
{"id": "C44", "title": "Random proportional edits stay inside the text", "statement": "The scaling used by property-test generators maps any 32-bit fraction to an offset within the text, monotonically, so generated ranges are always valid.", "quantifier": "all u32 fractions and lengths", "why_tests_cant": "2^64 combinations", "anchors": ["fall/text/src/prop.rs: scale"]}
{"id": "C45", "title": "Calls in a grammar mean what their name says", "statement": "A call <name args> names a builtin with its arity, else the rule of that name with as many public parameters as there are arguments, else a context predicate; wrong arity, a missing argument, or an unresolved name is reported as an error at the call and the call means nothing. Contexts get the number of their position in the sorted list of context names.", "quantifier": "all grammar files, all calls in them, all histories of questions", "why_tests_cant": "argument shapes and context sets are unbounded", "anchors": ["lang/fall/src/analysis/query/mod.rs: ResolveCall, AllContexts", "lang/fall/src/analysis/mod.rs: Analysis::resolve_call"]}
{"id": "C46", "title": "Expression rules are classified by their attributes and shape", "statement": "A rule with one of the attributes atom, postfix, prefix, bin is the variant its first such attribute says, with the priority written in it, if its body has the required shape, and is reported otherwise; a rule without one is no variant.", "quantifier": "all grammar files, all rules", "why_tests_cant": "attribute and body combinations are unbounded", "anchors": ["lang/fall/src/analysis/query/mod.rs: ResolvePrattVariant"]}
{"id": "C47", "title": "Traits and accessor methods resolve by name", "statement": "Each trait named by a node definition resolves to the last trait of that name, or is reported; a method resolves to the first node definition, class or token of the selected name, with the arity written, or to the text of a token.", "quantifier": "all grammar files, all node definitions and methods", "why_tests_cant": "names and definitions are unbounded", "anchors": ["lang/fall/src/analysis/query/mod.rs: ResolveMethod, AstNodeTraits"]}
{"id": "C48", "title": "The analysis always answers", "statement": "On a grammar file whose nodes have the children the accessors expect, no question and no interleaving of questions panics, deadlocks or runs forever; collect_all_diagnostics returns. On incomplete files the analysis can panic (witness).", "quantifier": "all grammar files, all clients, all schedules", "why_tests_cant": "schedules and files are unbounded", "anchors": ["lang/fall/src/analysis/db.rs", "lang/fall/src/analysis/mod.rs: collect_all_diagnostics"]}
{"id": "C49", "title": "Inline tests of a grammar are found", "statement": "collect_tests returns, in order, the trimmed contents of exactly the raw strings that directly follow `test ` in the grammar text; two readings fail (nested test texts are collected twice; a grammar that ends inside a test header panics).", "quantifier": "all texts", "why_tests_cant": "all texts and hash counts", "anchors": ["fall/tree/src/test_util.rs: collect_tests"]}
{"id": "C50", "title": "The generated accessors are those of the ast block", "statement": "For each node, class and trait definition of the ast block the generator emits one type with the camel-case form of the name, the constant of its node type, one method per method definition that returns what the selector selects (text, token, node or class; required, optional or many), the variants of a class in order and the implementors of a trait. Methods refer only to constants and types that are generated too.", "quantifier": "all grammar files, all names", "why_tests_cant": "all ast blocks and names", "anchors": ["fall/gen/src/generate/mod.rs", "fall/gen/src/util.rs: camel, scream"]}
{"id": "C51", "title": "A tree without error nodes is a derivation of the grammar", "statement": "Without its whitespace, the tree of a parsed file is a derivation of the grammar: the children of every node are what the body of its rule stands for, where errors may take the place of skipped tokens, of the part of a sequence after its commit point, of the rest of a layer and of a right operand. If no error node occurs in the tree, nothing is missing or skipped anywhere. One reading fails: the body of a layer whose cover takes no token may be missing without an error.", "quantifier": "all grammars, lexers and texts", "why_tests_cant": "all grammars and texts", "anchors": ["fall/parse/src/lib.rs", "fall/parse/src/syn_engine/expr.rs", "fall/parse/src/syn_engine/convert.rs"]}
{"id": "C52", "title": "Grammar texts without syntax errors never make the analysis or the generator fail", "statement": "A grammar text whose tree contains no error node is complete: every reference has a name and stands in a rule, every call, token, parameter, attribute, selector and AST definition has its name, strings are quoted, rules have a block as body and methods have a selector. Hence no query of any client panics under any schedule, the diagnostics can always be collected, the generator refuses only files that cannot be translated and otherwise writes what the file says, and go to definition and find usages return for every cursor. With an error in the text this may fail.", "quantifier": "all grammar texts, clients, schedules and cursor positions, and any lexer that makes progress and quotes its strings", "why_tests_cant": "the syntax promises this for infinitely many texts", "anchors": ["lang/fall/syntax/src/fall.rs: language", "lang/fall/src/analysis/mod.rs: Analysis", "fall/gen/src/generate/codegen.rs: Codegen::generate", "lang/fall/src/editor/references/mod.rs: resolve_reference, find_usages"]}
{"id": "C53", "title": "In every grammar text, errors or not, nodes are only found where the grammar has them", "statement": "Whatever is typed, the tree of a grammar text has a file as root; definitions (tokenizer, rules, verbatim, ast, tests) are children of the root; every expression is inside a rule of the file; in general each node is a token, an error holding only tokens, or a node inside a node of one of the kinds listed in a table of 41 pairs, all of which occur.", "quantifier": "all grammar texts, including those with syntax errors", "why_tests_cant": "error recovery can put errors anywhere in infinitely many texts; features that look for an enclosing definition rely on it", "anchors": ["lang/fall/syntax/src/fall.rs: create_parser_definition", "lang/fall/syntax/src/fall.fall: fall_file, file_form, syn_rule", "lang/fall/src/editor/mod.rs: test_at_offset", "lang/fall/src/editor/actions/extract_rule.rs: extract_rule"]}
{"id": "C54", "title": "Swapping alternatives exchanges the two alternatives around the bar", "statement": "In a grammar file, the action is offered at an offset exactly when a bar that touches the offset (the left one of two) stands directly in a block between two alternatives, the last expression before it and the first one after it. Applying it succeeds exactly when it is offered, and the new text is the old one with these two exchanged and nothing else changed.", "quantifier": "all grammar texts, with errors or not, and all offsets in them", "why_tests_cant": "all texts and offsets", "anchors": ["lang/fall/src/editor/actions/swap_alternatives.rs: swap_alternatives, find_swappable_nodes", "fall/tree/src/search.rs: find_leaf_at_offset", "fall/tree/src/edit.rs: FileEdit::replace"]}
{"id": "C55", "title": "Extracting a rule moves the selected expressions to a new rule", "statement": "For every selection in a grammar text the action never panics. It is offered exactly when the selection is not empty and the innermost expression around it is not a reference. In a sequence the run of expressions the selection overlaps is moved, otherwise the whole expression; the moved text holds the selection. The new text has a reference to new_rule in its place, and after the rule around it a rule new_rule whose body is the moved text. Two readings fail: the result may have a syntax error (the body of a rule was moved), and the reference may mean another rule (new_rule existed).", "quantifier": "all grammar texts, with errors or not, and all selections in them", "why_tests_cant": "all texts and selections; an expression outside of a rule would make it panic", "anchors": ["lang/fall/src/editor/actions/extract_rule.rs: extract_rule, range_to_extract", "fall/tree/src/edit.rs: FileEdit::replace_substring, FileEdit::insert_text_after"]}
{"id": "C56", "title": "The actions listed for a selection are those that can be applied", "statement": "For every selection in a grammar text the list of actions has no name twice and nothing panics: applying an action by name gives an edit exactly if the name is listed, and the edit can be applied to the text. Unknown names give no edit.", "quantifier": "all grammar texts, selections and names", "why_tests_cant": "all texts and selections", "anchors": ["lang/fall/src/editor/mod.rs: context_actions, apply_context_action", "lang/fall/src/editor/actions/mod.rs: ACTIONS", "fall/editor/src/actions.rs: default_context_actions, apply_default_context_action"]}
{"id": "C57", "title": "The outline lists the definitions of a grammar file in order", "statement": "For every grammar text the outline is the list of its rules that have a name, of its tokenizer and of its AST definition, in the order of the text and with their ranges. Every named rule in the tree is listed.", "quantifier": "all grammar texts, with errors or not", "why_tests_cant": "all texts", "anchors": ["lang/fall/src/editor/structure.rs: structure", "fall/tree/src/visitor.rs: process_subtree_bottom_up"]}
{"id": "C58", "title": "The test under the cursor is found by its number", "statement": "For every offset in a grammar text the answer is the number, among the tests of the file, of the test around the token right of the cursor, or nothing if there is none. It never panics.", "quantifier": "all grammar texts, with errors or not, and all offsets in them", "why_tests_cant": "all texts and offsets; a test outside of the list of tests would make it panic", "anchors": ["lang/fall/src/editor/mod.rs: test_at_offset", "fall/tree/src/search.rs: find_leaf_at_offset, ast::ancestor"]}
{"id": "C59", "title": "The colours of a grammar text show what the names mean", "statement": "On a grammar text without syntax errors highlighting never panics, and the marks are those of the nodes in bottom-up order: comments, keywords, strings, parameters and attributes by their type, references by what they resolve to (token, rule or parameter; none if unresolved), selectors of methods by what they select, calls of built-in functions apart from calls of rules, and the names of definitions. With a syntax error highlighting may panic.", "quantifier": "all grammar texts and all honest answers of the analysis", "why_tests_cant": "all texts; the colours depend on name resolution across the file", "anchors": ["lang/fall/src/editor/highlighting.rs: highlight", "fall/editor/src/hl.rs: visitor"]}
{"id": "C60", "title": "What stands before the commit point is in every node of a rule, with errors or without", "statement": "If a rule makes a node and a token is read before the commit point of the rule on every way through it, then every node of that type in every parse tree has this token as a child, however broken the text is. For the Rust and the fall grammar this gives the names of type parameters and tests, the lifetimes of lifetime parameters and the keywords of definitions. What stands after the commit point may be missing: a function need not have a name.", "quantifier": "all languages whose grammar passes the check of C28, all texts, all nodes; concretely all Rust and all grammar texts", "why_tests_cant": "all texts, in particular those with syntax errors; accessors that panic on a missing child rely on it", "anchors": ["fall/parse/src/syn_engine/expr.rs: parse_or, parse_and", "lang/rust/syntax/src/rust.rs: TypeParameter, LifetimeParameter", "lang/fall/syntax/src/fall.rs: Parameter, LexRule"]}
{"id": "C61", "title": "Add braces puts the last segment of an import in braces", "statement": "In a Rust file, the action is offered at an offset exactly when the import at the cursor has a path with a segment and neither braces nor a star. Applying it succeeds exactly when it is offered, and the new text is the old one with the last segment in braces and nothing else changed. With an alias the result has a syntax error.", "quantifier": "all Rust texts, with errors or not, and all offsets in them", "why_tests_cant": "all texts and offsets", "anchors": ["lang/rust/src/editor/actions.rs: add_use_braces", "fall/tree/src/edit.rs: FileEdit::replace_with_text"]}
{"id": "C62", "title": "Add impl adds an impl block for the type at the cursor", "statement": "At every offset of every Rust text the action does not panic. It is offered exactly when there is a named struct or, if there is none, a named enum around the cursor. Then an impl block is added directly after the type, with the generic parameters as they are declared and their names as arguments, lifetimes first. An enum inside a struct is not preferred.", "quantifier": "all Rust texts, with errors or not, and all offsets in them", "why_tests_cant": "all texts and offsets; a type parameter without a name would make it panic", "anchors": ["lang/rust/src/editor/actions.rs: add_impl", "fall/tree/src/edit.rs: FileEdit::insert_text_after"]}
{"id": "C63", "title": "A semicolon is inserted after the space that follows let", "statement": "After a space was typed a semicolon is inserted exactly when the token left of the space is the let of a let statement which has no equals sign and no semicolon in it and no semicolon directly after it. At the start of the file the function panics.", "quantifier": "all Rust texts, with errors or not, and all offsets but the first", "why_tests_cant": "all texts and offsets", "anchors": ["lang/rust/src/editor/mod.rs: after_space_typed"]}
{"id": "C64", "title": "Expanding replaces the statement before the cursor by one that prints it", "statement": "At every offset from the third on, nothing happens if the token there is in no expression statement. Otherwise, if the statement has at least three bytes and the cut is between characters, the text from its start to the cursor is replaced by a macro call with the statement without its last three bytes. Otherwise the function panics. If the statement ends with a semicolon, the cut is wrong by one byte.", "quantifier": "all Rust texts, with errors or not, and all offsets between characters", "why_tests_cant": "all texts and offsets", "anchors": ["lang/rust/src/editor/mod.rs: expand", "fall/tree/src/edit.rs: FileEdit::replace_substring"]}
{"id": "C65", "title": "Breadcrumbs are the definitions around the cursor, outermost first", "statement": "For every offset but the first the breadcrumbs are the entries of the nodes around the token left of the cursor from the root downwards: structs, enums, traits and functions by keyword and name, impls by their types, nothing for other nodes and for definitions without a name. At the start of the file the function panics.", "quantifier": "all Rust texts, with errors or not, and all offsets but the first", "why_tests_cant": "all texts and offsets", "anchors": ["lang/rust/src/editor/mod.rs: breadcrumbs"]}
{"id": "C66", "title": "The actions listed for a selection in a Rust file are those that can be applied", "statement": "For every selection in a Rust text the list of actions has no name twice and nothing panics: applying an action by name gives an edit exactly if the name is listed, and the edit can be applied to the text. Unknown names give no edit.", "quantifier": "all Rust texts, with errors or not, selections and names", "why_tests_cant": "all texts and selections", "anchors": ["lang/rust/src/editor/mod.rs: context_actions, apply_context_action", "lang/rust/src/editor/actions.rs: ACTIONS"]}
{"id": "C67", "title": "The outline of a Rust file lists the named definitions at every depth", "statement": "For every Rust text the outline is the list of the functions, structs, enums, type aliases, traits and modules that have a name, at every depth, with their ranges; children come before the nodes around them and otherwise the order is that of the text.", "quantifier": "all Rust texts, with errors or not", "why_tests_cant": "all texts", "anchors": ["lang/rust/src/editor/mod.rs: structure", "lang/rust/src/editor/file_symbols.rs: process_symbols", "fall/tree/src/visitor.rs: process_subtree_bottom_up"]}
{"id": "C68", "title": "A struct takes the comments directly before it", "statement": "Of the whitespace and comments before a struct, the longest run of line comments and of whitespace without a line break that ends at the struct becomes a part of it. No other node takes any, and none takes what follows it. It never takes more than there is.", "quantifier": "all node types and all lists of tokens", "why_tests_cant": "all lists of tokens", "anchors": ["lang/rust/syntax/src/rust.rs: whitespace_binder", "fall/parse/src/syn_engine/convert.rs: whitespace_binder"]}
{"id": "C69", "title": "The textual form of a tree has one line per node, for every text", "statement": "For every text of a shipped language, with errors or not, the textual form of the tree is made without a panic. It has a line for each node in the order of the text, indented by two spaces for each level, with the name of the type and, for nodes without children, the quoted text. Whitespace and comments are left out unless they are asked for. Every node has a type that the language declares, and different types have different names.", "quantifier": "all texts of the fall, Rust, sexp and bnf languages, with errors or not; the names also for json, arith and weird", "why_tests_cant": "tests compare the form of some texts; a type without a name would panic only for the texts that have such a node", "anchors": ["fall/tree/src/util.rs: dump_file, dump_file_ws, dump", "lang/fall/syntax/src/fall.rs: node_type_info", "lang/rust/syntax/src/rust.rs: node_type_info"]}
{"id": "C70", "title": "Trees with the same textual form are the same", "statement": "Two syntax trees of a language, however they were made, have the same textual form with whitespace exactly when they are the same: the same text and the same nodes with their types, ranges, parents and children. So comparing the forms, as the reparse tests do, compares the trees. Without whitespace it does not.", "quantifier": "all pairs of syntax trees whose types have names", "why_tests_cant": "all pairs of trees; the comparison is itself the oracle of the tests", "anchors": ["fall/tree/src/util.rs: dump_file_ws, dump", "fall/tree/src/test_util.rs: dump_file_ws"]}
{"id": "C71", "title": "What the lexers of the shipped languages do on every text", "statement": "A token belongs to a lexical rule that applies at the start of the rest of the text and has the type and the length that rule asks for; when several apply, the longest wins and the earlier one among equals; an error token is made only where no rule applies. On every text the lexers of fall, Rust, sexp, bnf, json, arith and weird make progress, and on UTF-8 their tokens end between characters. They panic exactly on raw strings with more than 30 hashes. So the theorems about the fall and Rust languages apply to every UTF-8 text.", "quantifier": "all rule tables with fewer than 65536 rules, all texts, all Unicode tables that are right on ASCII, all lengths of error tokens", "why_tests_cant": "the lexers run on every text the user types; tests lex a few files", "anchors": ["fall/parse/src/lib.rs: RegexLexer, LexRule, CustomLexRule", "fall/parse/src/lex_engine.rs: lex", "lang/fall/syntax/src/fall.rs: parse_raw_string", "lang/rust/syntax/src/rust.rs: parse_block_comment"]}
{"id": "C72", "title": "Editing with the lexers of the shipped languages", "statement": "With the real lexical rules of sexp, bnf, json, arith and weird, for every UTF-8 text and every edit that inserts UTF-8, relexing returns the tokens of lexing the edited text from scratch; for sexp and bnf the edited file is the parsed file of the edited text, panics included, and for all five any history of edits ends in the file of the final text. For fall the same holds of relexing when the old text has no identifier r directly followed by a hash. Without that condition it fails for fall, and it fails for Rust (raw strings, characters after a lone quote, strings after a backslash).", "quantifier": "all UTF-8 texts, all edits and histories of edits that insert UTF-8, all Unicode tables that are right on ASCII, all lengths of error tokens, all whitespace binders", "why_tests_cant": "an edit may fall anywhere in any text; tests try a few edits", "anchors": ["fall/parse/src/lex_engine.rs: relex, lex", "fall/parse/src/lib.rs: RegexLexer, reparse", "lang/fall/syntax/src/fall.rs: parse_raw_string", "lang/rust/syntax/src/rust.rs: create_parser_definition"]}
{"id": "C73", "title": "Editing fall files reuses unchanged rules without changing the result", "statement": "For the fall language as shipped (lexical rules, grammar with its cached rule, whitespace), every UTF-8 text without an identifier r directly before a hash and every edit whose copies go from left to right and whose insertions are UTF-8: reparsing with the reused rules returns, and it returns exactly what parsing the new text from scratch returns. The same holds after any number of edits. No assumption is made about the cached rule: that a rule without errors is parsed the same wherever its text appears is proved from the grammar and the lexical rules.", "quantifier": "all UTF-8 texts and all histories of edits, all Unicode tables that are right on ASCII, all lengths of error tokens, all whitespace binders, all amounts of fuel", "why_tests_cant": "whether a reused rule is still right depends on all the text around it, before and after any edit; tests compare a few edits", "anchors": ["fall/parse/src/lib.rs: reparse, RegexLexer", "fall/parse/src/syn_engine/mod.rs: salvage_segments", "lang/fall/syntax/src/fall.fall: syn_rule, cached"]}
{"id": "C74", "title": "The editor works with the file of the document's current text", "statement": "Whatever a user of the fall plugin does in VS Code - opening, changing, closing and switching between any number of documents, asking for highlights, diagnostics, symbols, formatting or actions at any time - parsing and editing do not panic, and the file the plugin works with is exactly the file parsing the document's current text gives; documents of other languages get none. The texts consist of UTF-8 characters; a single change is made where the text up to its end is ASCII, in a text without an identifier r directly before a hash. Without ASCII it is false: the plugin sends offsets in UTF-16 units which the backend takes for bytes, so that a typed letter lands elsewhere or the backend panics.", "quantifier": "all histories of editor events on any number of documents, with any document active at each of them, all Unicode tables that are right on ASCII, all lengths of error tokens, all whitespace binders", "why_tests_cant": "sessions are unbounded and mix edits, closes and rewrites of several documents; a wrong file shows only later", "anchors": ["code/common.ts: documentToFile, updateActiveEditor, isKnownDoc, rangeLength", "code/generic_backend/src/lib.rs: declare_editor_file_class, from_vs_edits, VsEdit", "lang/fall/src/editor/mod.rs: parse, edit", "lang/fall/src/analysis/mod.rs: FileWithAnalysis, try_from", "lang/rust/src/editor/mod.rs: RustEditorFile"]}
{"id": "C75", "title": "Formatting, actions and extended selections do in the editor what the backend meant", "statement": "In an ASCII document, after any history of editor events: the edits the editor gets for an edit of the tree turn the document into the text the edit of the tree stands for; formatting keeps all tokens and all line breaks and gives the text of the formatted tree; extending a selection selects the smallest node that is larger than it, and there is none only when everything is selected; ranges shown are the backend's ranges. In other documents it is false: byte offsets are taken for UTF-16 units, so that formatting can cut a name in two.", "quantifier": "all event histories, all Unicode tables that are right on ASCII, all ASCII documents, all edits of the tree, all non-empty selections, all ranges", "why_tests_cant": "the offsets go through three representations; a wrong conversion shows only for some texts, some edits and some histories", "anchors": ["code/common.ts: toVsRange, toVsEdits, fromVsRange, provideDocumentFormattingEdits, extendSelection, reformat, applyContextAction", "code/generic_backend/src/lib.rs: to_vs_edits, VsEdit", "lang/fall/src/editor/mod.rs: reformat"]}
{"id": "C76", "title": "Rendering the tests of a grammar shows the tree of each of them", "statement": "Rendering the tests of a grammar writes, for every test with a text and in their order, the tree of that text, followed by an empty line; rendering the test under the cursor writes the tree of just that test. The output tells how many tests there were and which tree each of them has. The tests reach the rendering program as they were exactly when there is at least one and none has the separating line in it; otherwise it is false: without tests a tree of the empty text is shown, and a test with the separator is shown as two.", "quantifier": "all lists of tests, all grammar files, all cursors, all whitespace tables, all languages for the tests", "why_tests_cant": "tests of unbounded number and size are sent in one text and cut again; only some contents collide with the separator", "anchors": ["fall/gen/src/lib.rs: TestRenderer, render_all, render_one", "lang/fall/syntax/src/ast_ext.rs: contents", "code/fall/native/src/lib.rs: render_one, TestRenderer"]}
{"id": "C77", "title": "The test helpers pass exactly when the trees are as expected", "statement": "Comparing two files succeeds exactly when they are equal, text and all nodes, and fails otherwise. Checking the syntax of a text succeeds exactly when the tree written in the test, up to whitespace around it, is the tree of the text. Checking the tests inside a grammar against a record succeeds exactly when the record has the tests of the grammar in order with the trees they have now; rewriting makes the check succeed. False for a record that is cut off inside a section, which passes although tests are missing, and for tests that contain the line of dashes.", "quantifier": "all files and texts of the shipped languages, all expected texts, all grammars, all records of earlier tests and trees", "why_tests_cant": "a helper that passes too often hides failures of the tests themselves", "anchors": ["fall/tree/src/test_util.rs: check_syntax, check_syntax_ws, check_equal_files, check_inline_tests, check_file, report_diff, compute_diff, render_tests, collect_tests"]}
{"id": "C78", "title": "The parser generator changes only the file it is meant to write", "statement": "Generating a parser from a grammar file writes the parser to the file of the same name with the extension rs and changes nothing else; if the grammar cannot be read or has errors it fails and changes nothing. Wherever it is stopped (also in the middle of writing), the grammar is as it was, unless its own name has the extension rs, and every other file is as it was; the parser file is as it was or holds a first part of a generated parser. Rendering tests changes only the file with the extension txt and its temporary crate. False: a grammar named with the output extension is overwritten, and a good parser can be replaced by half of one.", "quantifier": "all grammar paths, all contents of all files, all points at which the program can stop", "why_tests_cant": "the effect depends on the name of the file and on the point of the crash, which a test does not reach", "anchors": ["fall/gen/src/lib.rs: process, read_file, Task", "fall/gen/src/bin/gen.rs: main"]}
{"id": "C79", "title": "Rendering is not disturbed by earlier or stopped runs, nor by other renderings of the editor", "statement": "Whatever earlier runs, complete or stopped anywhere, with any grammars, left in the temporary crate: rendering gives what the parser of the present grammar makes of the tests. Rendering again with the same grammar writes no file. In the editor any number of renderings may be asked for at once: in every order of their steps each gets the result it would get alone, and none is blocked for ever, as long as no test makes the parser panic. False: for two processes (one can show trees of the other's grammar), after a panic (the lock stays poisoned) and after a stop inside of a character (rendering fails from then on).", "quantifier": "all file contents, all histories of stopped runs, all numbers of threads, all schedules", "why_tests_cant": "depends on crash points and interleavings of processes and threads that share a directory", "anchors": ["fall/gen/src/lib.rs: render_all, put_text_if_changed, base_directory", "code/fall/native/src/lib.rs: RenderTask"]}
{"id": "C80", "title": "The generated accessors give what the ast block says", "statement": "If the generated module compiles (distinct names, classes not cyclic), then on every file: wrapping a node succeeds exactly for the nodes of the type (for a class: of one of its variants, and the first that fits is taken) and keeps the node; a method for text or a token gives the first child with the token's type, a method for a node or class the first or all children of that type, in order, each wrapped. A required method panics exactly if there is no such child; nothing else panics and everything ends.", "quantifier": "all grammar files the generator accepts, all methods and types, all files and nodes", "why_tests_cant": "all grammars, syntax trees and nodes", "anchors": ["fall/gen/src/generate/mod.rs: fn wrap", "fall/gen/src/generate/codegen.rs: AstChildren", "fall/tree/src/ast.rs: AstNode, AstChildren", "fall/tree/src/search.rs: child_of_type_exn, child_of_type"]}
{"id": "C81", "title": "Accessors of parsed files do not panic", "statement": "Rust and BNF: for every text and every value of an AST type, each accessor returns. Grammar files: for every text without parse errors each accessor returns; with errors only seven accessors can panic (the body of a rule, the string of a verbatim block, the names of ast nodes, classes and traits), and each of them does on some text. False: that Prod::alts and Alt::symbols of BNF list the alternatives and symbols; on a text without errors they are always empty.", "quantifier": "all texts, all nodes of their trees, all accessors of the three modules with an ast block", "why_tests_cant": "depends on every shape the error recovery of the parser can leave", "anchors": ["lang/fall/syntax/src/fall.rs: AstNode", "lang/rust/syntax/src/rust.rs: AstNode", "lang/bnf/src/bnf.rs: alts, symbols", "lang/bnf/src/bnf.fall: alts, symbols"]}
{"id": "C82", "title": "The editor shows the colours and problems of the current text", "statement": "Whatever happened before: the active editor, if it shows a grammar, shows exactly the colours highlighting gives for the document's current text, and the list of problems has exactly the diagnostics of that text and none of other documents. If the text is ASCII and has no parse errors, the ranges in each colour are exactly those of the tokens and names with that colour, and the problems have the ranges, severities and messages of the diagnostics. False for texts with errors: highlighting can panic, and then the colours and problems of an earlier text stay; and false when the plugin starts: nothing is drawn until the first event.", "quantifier": "all histories of editor events on any number of documents and all switches between their editors", "why_tests_cant": "sessions are unbounded; whether an event redraws depends on all events before it", "anchors": ["code/common.ts: updateActiveEditor, setHighlights, diagnostics, toVsRange", "lang/fall/src/editor/mod.rs: fn highlight, fn diagnostics", "code/fall/src/main.ts: fallDiagnostics"]}
{"id": "C83", "title": "Navigation, symbols, context actions and tests in the editor work on the current text", "statement": "Whatever happened before, in an ASCII grammar: go to definition leads exactly to the definition of the reference under the cursor, find references lists exactly the references to the definition meant, and the symbols are the outline of the current text. Exactly the context actions offered can be applied as long as the document is active and its text is the same, and applying one gives the text the action promises. Render test is offered exactly inside tests, and shows the tree of that test. (Definition and references for texts without errors; all of them while the active editor shows a grammar without errors, or one that is not a grammar.) False otherwise: an action chosen after the text changed throws, one chosen when another grammar is active edits that grammar, Render test shows the test with the same number in the active grammar and throws without one, and the first question about a grammar fails while the active editor shows a grammar with errors.", "quantifier": "all histories of editor events on any number of documents, all positions and selections, and all later events between the offer of an action and its choice", "why_tests_cant": "sessions are unbounded; the answer depends on the file held, which depends on all events before", "anchors": ["code/fall/src/main.ts: provideDefinition, provideReferences, provideCodeActions, provideTextDocumentContent, renderTest", "code/common.ts: getFile, applyContextAction, provideDocumentSymbols", "lang/fall/src/editor/mod.rs: fn resolve_reference, fn find_usages, fn structure"]}
{"id": "C84", "title": "Offsets of 32 bits are enough below 4 GiB, and only there", "statement": "Offsets, lengths and node ids are 32-bit numbers. For texts, insertions, trees and results below 4 GiB, slicing, searching, trimming, building and applying edits, building trees, node texts, lexing and relexing give what they would give with unbounded numbers, in debug and in release builds; a tree that would grow past 4 GiB is refused with a panic, and the subtractions of the Rust editor at the start of a file panic in both builds. False beyond: a text of exactly 4 GiB is taken for an empty one and an insertion of 4 GiB inserts nothing, without a panic; and a release build, as the plugins are, accepts an edit whose range ends before it starts and duplicates text.", "quantifier": "all texts, ranges, edits, sequences of builder calls, lexers and token lists, with offsets up to 2^32 and both kinds of builds", "why_tests_cant": "tests use small texts in a debug build; the boundary is at 4 GiB", "anchors": ["fall/text/src/text_unit.rs: TextUnit", "fall/text/src/text_range.rs: from_len, shift_right", "fall/text/src/text.rs: slice, trim, find", "fall/text/src/text_buf.rs: as_text", "fall/text/src/text_edit.rs: fn apply, fn advance_to", "fall/tree/src/node/tree_builder.rs: fn leaf, fn new_node", "fall/parse/src/lex_engine.rs: fn relex", "lang/rust/src/editor/mod.rs: after_space_typed, breadcrumbs, expand"]}
{"id": "C85", "title": "The Rust plugin answers about the current text", "statement": "After any events, if every typed change was reparsed to what parsing the new text gives (always so when documents are only opened, closed and rewritten), every file the plugin holds is the parse of its document's text. Then, in an ASCII document: typing a space puts a semicolon at the cursor exactly if a let was begun there; typing a dollar sign replaces the statement by one that prints it, does nothing without a statement, and throws if the statement is shorter than three bytes; no other character does anything; the status bar shows the items around the cursor with arrows between them; the symbols are the outline, at their places; exactly the actions offered can be applied, and each makes the text it promises. Searching the workspace does not panic, and every answer names a definition of its file, with the lines and columns of its start and end, if the file is ASCII and has no carriage returns. With # in the query, and not too many answers, every definition whose name has the letters of the query in order is found, up to case. Error nodes are marked in the active editor and nothing else is coloured. Other documents are left alone. False: a pasted prefix of an ASCII text may leave a tree that parsing would not give; the bar throws at the start of a file; columns behind longer characters or carriage returns are wrong; a function hides a type of the same name from the search.", "quantifier": "all Unicode tables and error lexers that meet their conditions, all sequences of events, documents, positions, characters, selections, actions, workspaces and queries", "why_tests_cant": "the plugin has no tests; its answers depend on the whole history of events", "anchors": ["code/rust/src/main.ts: provideOnTypeFormattingEdits, provideWorkspaceSymbols, breadcrumbs", "code/rust/native/src/lib.rs: fn after_space_typed, fn expand, fn breadcrumbs, fn query_index", "lang/rust/src/editor/mod.rs: fn highlight, fn structure, fn context_actions, fn apply_context_action"]}
{"id": "C86", "title": "Reparsing never does more parsing work than parsing the new text", "statement": "The numbers of tried expressions and of lexed bytes that a file's metrics report belong to the parse that made the file: counting changes nothing about it, a parse reports its whole text as lexed, and at least one expression is tried. An edit of a fall file reports no more tried expressions and no more lexed bytes than parsing the new text would, also after any number of earlier edits; so does any grammar whose reused rules do not depend on their surroundings. Languages without reused rules report exactly as many tried expressions. False: the reported region may be smaller than what was typed, and 0 when the old text had an error and everything was lexed again.", "quantifier": "all fall texts and edits that meet the conditions of C73, all histories, all Unicode tables, error lexers and whitespace binders; all texts and edits of sexp, bnf, json, arith and weird", "why_tests_cant": "tests compare the numbers of a few edits; that reuse never costs more must hold for every text, edit and history", "anchors": ["fall/parse/src/lib.rs: fn parse, fn reparse, parsing ticks, relexed region", "fall/parse/src/syn_engine/parser.rs: fn tick", "fall/parse/src/syn_engine/expr.rs: fn parse_expr"]}
{"id": "C87", "title": "The metrics of a file report its own parse", "statement": "The metrics of a parsed or reparsed file give the number of tried expressions and of lexed bytes of that very parse and the times of lexing, parsing and building the tree in whole milliseconds, also after anything the editor asks of the file later. Asking for a name gives the value first recorded under it, and nothing exactly if none was; so the times of highlighting and diagnostics are those of the first request. Measuring changes nothing: parsing, reparsing and later requests return exactly when they would without it, with the same file, as long as milliseconds fit 64 bits. The report has one line per value, in order, with its decimal digits, and different metrics of files give different reports. False: that the time of the latest highlighting is given.", "quantifier": "all languages, texts, edits, elapsed times, sequences of later requests, names", "why_tests_cant": "elapsed times differ from run to run, and values stay readable only if nothing recorded later can hide them", "anchors": ["fall/tree/src/metrics.rs: fn record, fn record_time, fn measure_time, fn get", "fall/parse/src/lib.rs: fn parse, fn reparse", "fall/tree/src/lang.rs: fn parse, fn reparse", "lang/fall/src/editor/mod.rs: fn record_analysis", "fall/editor/src/lib.rs: fn metrics"]}
{"id": "C88", "title": "The property tests of incremental parsing cannot fail", "statement": "Every random edit that the generator can draw is a valid edit of every ASCII text: its copies go from left to right inside the text, it inserts parts of that text, and applying it returns a text made of the same characters. The test that applies any number of such edits, reparses after each and compares with parsing the new text succeeds for every ASCII starting text of a grammar without a double quote, in particular for the texts in the repository and for the three recorded failures. More generally, reparsing a grammar without double quotes, after any left-to-right edits that insert none, always agrees with parsing. Conversely, for every language, when the test succeeds the reparsed file is printed like the parse of the text after each of the edits. Every edit with at most one copy before its last insertion can be drawn. False: that all edits from left to right can be drawn, and that the test also succeeds on texts with double quotes or outside ASCII.", "quantifier": "all drawn numbers, ASCII texts, numbers of edits, Unicode tables, error recoveries, whitespace binders", "why_tests_cant": "a random test samples a few hundred of the edits; that no draw fails, and what no draw can reach, is not observable by running it", "anchors": ["fall/text/src/prop.rs: fn arb_text_edit, fn as_text_edit, fn scale_range, fn scale, fn range", "lang/fall/syntax/tests/prop.rs: fn incremental_reparse_is_equivalent_to_full_parse, fn normalize, fn regression1, fn simple_tokens, fn complex", "fall/parse/src/lex_engine.rs: fn relex"]}
{"id": "C89", "title": "A test of an editor action says what the action does", "statement": "A test of an action on a text with a marked selection ends for every text, with or without errors. It succeeds exactly when the action is offered for the selection and applying it gives the expected text, up to whitespace at the ends; for the four actions of the two languages this means that the nodes the action is about are at the marker and the expected text has them exchanged, extracted, braced or followed by an impl block. The test that an action is missing succeeds exactly when no test of the action can succeed. Tests without two markers fail.", "quantifier": "all texts, selections without the marker character before their end, action names and expected texts; all languages of the two grammars", "why_tests_cant": "The test helpers are themselves only run on the seven shipped tests; that a green test means the described effect must hold for every text and expectation a contributor may write.", "anchors": ["fall/editor/src/actions.rs: check_context_action, check_no_context_action", "fall/tree/src/test_util.rs: extract_range, report_diff", "lang/rust/src/editor/actions.rs: add_use_braces, add_impl", "lang/fall/src/editor/actions/extract_rule.rs: extract_rule"]}
{"id": "C90", "title": "A directory of recorded trees is checked completely, and rewriting makes it pass", "statement": "The test of a directory passes exactly when the record of every source (name.rs and name.txt, with something before the dot) has the tree of the source up to whitespace at its ends, and then it writes nothing. With rewriting it passes, writes only records of sources, each with the tree of its source, and leaves records alone that are up to date; afterwards the test passes without rewriting and rewriting again changes nothing. The order of the files and files with other names do not matter. A source that cannot be read makes it fail in both modes.", "quantifier": "all directories, listings of file names in any order with any repetitions, sources and records", "why_tests_cant": "The shipped test runs on one fixed directory, in one mode, in the order of one file system.", "anchors": ["fall/tree/src/test_util.rs: check_directory, check_file", "lang/rust/syntax/tests/test.rs: check_directory"]}
{"id": "C91", "title": "Texts are searched, compared and hashed like the strings they show", "statement": "Every search of a text that shows a string answers about that string: whether it starts or ends with or contains another one, and the first and the last place where it occurs, counted from the start of the text; a place that was found can be sliced and the slice shows the needle. Two texts are equal exactly when they show the same string, whatever their buffers, and comparing with a string on either side gives the same; the order is total, transitive and that of a dictionary, and agrees with equality; equal texts have equal hashes. Copying a text to a buffer keeps its string.", "quantifier": "all texts that begin and end between characters, in any buffer, all needles, including empty ones, and all hashers", "why_tests_cant": "The methods are generic over the position of the view in its buffer; agreement between ==, cmp and hash is needed for every pair of texts, since texts are keys of maps.", "anchors": ["fall/text/src/text.rs: starts_with, ends_with, contains, find, rfind, partial_cmp, cmp, hash", "fall/text/src/text_buf.rs: TextBuf, eq"]}
{"id": "C92", "title": "A test of diagnostics succeeds exactly with the list of the text's diagnostics", "statement": "A test of the analysis fails if the text has a syntax error. Otherwise it succeeds exactly if what is expected is, up to whitespace around it, the list of the diagnostics of the text: one line for each, errors before warnings and then by place, with the letter of its severity, the part of the text it is about and the wording of its message. So a test that expects nothing succeeds exactly if there are no diagnostics, and after a successful test every diagnostic has its line among the expected ones. The test always ends. The sixteen tests that are shipped succeed.", "quantifier": "all texts, expectations and whitespace, and all runs of the analysis that might be compared with the test's", "why_tests_cant": "The tests of the analysis are what its authors rely on; whether they can be green although a diagnostic is missing or wrong is a statement about all texts.", "anchors": ["lang/fall/src/analysis/mod.rs: check_diagnostics, collect_all_diagnostics", "lang/fall/src/analysis/diagnostics.rs: DiagnosticSink", "lang/fall/src/lib.rs: analyse"]}
{"id": "C93", "title": "The test that parsers are up to date accepts exactly those that are, and rewriting makes it pass", "statement": "The test that the generated parsers are up to date succeeds exactly if each grammar can be read and has no errors and the parser beside it is what the generator makes of the grammar, but for whitespace at the ends of lines and empty lines; a missing parser counts as an empty one. The test changes no file. Asked to rewrite, it changes nothing but the parsers, and none of those that are up to date; it fails, without changing anything else, only at a grammar that cannot be read or has errors. After the parsers of all grammars were rewritten, in either order, the test succeeds.", "quantifier": "all grammars, contents of files and whitespace, and all generators", "why_tests_cant": "That a green test means a current parser, and that rewriting is enough to get there, are statements about all texts the generator may produce and all files that may be in place.", "anchors": ["fall/gen/tests/cli.rs: check_by_path, trim_all_ends, test_grammars_are_fresh", "fall/gen/src/lib.rs: process"]}
{"id": "C94", "title": "Sixteen contexts and sixteen parameters are enough room", "statement": "In the table the generator writes for a grammar, the number of a context is the place of its name among the contexts the grammar names, and the number of a parameter is its place among the parameters of all rules of the file. The parser has sixteen slots for either and keeps them. So if a grammar names at most sixteen contexts, and its rules have at most sixteen parameters in all, no instruction of its parser panics because a slot is missing: if entering, leaving or testing a context, using a parameter or calling a rule panics, then what it runs panics or a parameter has no argument.", "quantifier": "all grammar files the generator accepts, all instructions of their tables, and all states, positions and texts of the parser", "why_tests_cant": "A missing slot shows only when a text leads the parser to an instruction with a high number; no test grammar has more than a few contexts.", "anchors": ["fall/parse/src/syn_engine/parser.rs: contexts, args", "fall/parse/src/syn_engine/expr.rs: parse_call, parse_is_in"]}
