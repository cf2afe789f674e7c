# Formal model of matklad/fall in Rocq: design

Source under study: `/repo` (pinned commit of matklad/fall), read as text. Nothing from it is built or run.
The model lives in `rocq/theories/`. Each model definition cites the file and lines it models.

## Conventions

* A Rust function is a total Gallina function. A panic (`assert!`, `unwrap` on `None`, index out of bounds,
  `unreachable!`, `u32` underflow where it matters) is the value `Panic`. A loop or recursion that has no
  structural measure takes fuel and yields `OutOfFuel` when it runs dry; theorems about such functions say
  explicitly which of the three outcomes they exclude.
* `&mut` parameters become returned values. Iterators become lists. Text is a list of bytes (`nat`).
* `u32`/`usize` are `nat`, so overflow above 2^32 is not modelled, except in C84, which says when it does not matter; subtraction that
  would underflow is modelled as `Panic` where the code can reach it.
* External code is a parameter of the model (function argument or section variable), never an axiom:
  the regex lexer `m_lexer`, the user whitespace binder, file contents and file-system state, the `fst` crate's
  stream (represented by its documented contract: the accepted keys in order), hash-map iteration order.

## Layers of the model

| File group | Code | Content |
|---|---|---|
| `Base` | – | `res` monad (Ok / Panic / OutOfFuel), list helpers |
| `TextModel`, `EditModel` | `fall/text` | ranges, text slices, trim, edits, builder, editor edits |
| `TreeModel`, `SearchModel`, `FileEditModel` | `fall/tree` | tree builder over a node table, files, search, file edits |
| `LexModel` | `fall/parse/src/lex_engine.rs` | lex, relex |
| `ParserModel`, `ConvertModel`, `ReparseModel` | `fall/parse/src/syn_engine`, `lib.rs` | grammar, event parser, Pratt, reshuffle, convert, salvage, reparse |
| `EditorModel` ... | `fall/editor`, `lang/*`, `indxr`, `code/generic_backend`, `code/common.ts` | editor functions, symbol index, query database |
| `*Spec` | – | small independent specifications |
| `*Proofs` | – | lemmas |
| `Props*` | – | the property theorems, one-line proofs, `Print Assumptions`, examples |

## Plan per property

* C01, C02: ranges as pairs; compare with membership of offsets; case analysis with `lia`. The empty-range
  anomaly of `partial_cmp` is a `_refuted` theorem.
* C03, C04: text = owned bytes + range; contents compared with `firstn`/`skipn`; whitespace predicate is a parameter.
* C05: builder as state machine over calls; specification = splice by recursion over the sorted list of calls;
  invariant relating segments built so far to the spliced prefix.
* C06: both conversions on the edit model; specification of editor edits = simultaneous replacement; for builder edits exactly
  what the editor gets (`VsSpec.v`, `VsProofs.v`); refutation
  for the trailing deletion.
* C07, C08: builder as state machine over a node table (parent links, child lists, ranges); invariant over all
  call sequences; refinement to an inductive tree; losslessness by induction on the tree.
* C09–C12: search functions on trees/paths with well-formedness; characterisation by leaf intervals.
* C13, C14: recursion over the tree compared with a text-level specification.
* C15, C16: on top of the search results; smallest strictly larger node range, steps bounded by the ancestors of the
  covering node; swap as a two-node structural edit, offered if and only if applicable.
* C17–C19: lexer as oracle `bytes -> token`; relex as the loop nest of the code with fuel; invariant "new tokens
  are the lexing of the processed prefix".
* C20–C24, C26–C28, C30: fuelled interpreter over the event list, exactly as in the code (marks, rollback,
  predicate mode, forward parents); invariants by induction on fuel; refinement to a tree-level interpreter;
  reshuffle and convert proved against the tree encoding; static grammar check proved sound for panic freedom
  and termination; shipped grammars transcribed and checked by computation.
* C25: shape invariant of the tree-level Pratt interpreter.
* C29: salvage + cache model; equality with full parse under the locality hypotheses; counterexamples.
* C31–C33: list models of the index structures; lower-casing, the fst crate's search and the order of the hash map are
  parameters or contracts.
* C34: state machine of notifications against an abstract file system.
* C35: interleaving semantics of the memoising executor (`DbModel.v`): any number of threads, one step per lock
  operation; the query bodies are arbitrary programs that may ask further queries. Done for every schedule.
* C37: direct model of the formatter (`FormatModel.v`) on top of the file edits of C13; specification = a function on trees whose leaves
  carry their text (`FormatSpec.v`).
* C38, C50: direct model of the generator (`CodegenModel.v`): the context handed to the template, computed from the file and
  the answers of the analysis. `CodegenSpec.v` and `AstGenSpec.v` say by nodes which instruction, type, pattern and
  accessor belongs to what; proved by induction on the fuel of the expression compiler, with the growing table as the
  accumulator of an invariant.
* C40: direct model of `references` (`RefModel.v`) over whatever the analysis answers; `RefSpec.v` says by nodes what a
  reference, a definition and the cursor are.
* C42: fold over the bottom-up order against a relational description of the marks of one node; what callbacks colour
  (name resolution) is a parameter.
* C51: `DeriveSpec.v` reads the grammar as a description of trees: which forests of node and token types an expression stands
  for, with errors or (strictly) without. It knows nothing of positions, order of choice, predicates and whitespace. Proved by
  induction over the meaning of the grammar (C23), then along the covering of tokens by the tree (C27).
* C52: a checker (`ShapeCheck.v`) computes, for every expression of a grammar and every choice of rules for its parameters, which
  types its children must and cannot have; it is proved sound for the strict derivations of C51, and the table for fall's own
  grammar (`FallShape.v`) is found by an untrusted search and then checked by the kernel. What the table says about trees is
  carried over to the flat files of the analysis (`CompleteProofs.v`).
* C53: a second checker (`NestCheck.v`) computes which types of nodes each expression can stand for, proved sound for all the
  derivations of C51, also those with errors; the table for fall's grammar (`FallNest.v`) is again found by search and checked.
* C54-C59: `FallEditModel.v` follows lang/fall/src/editor (swap_alternatives.rs, extract_rule.rs, actions/mod.rs, structure.rs,
  test_at_offset and highlighting.rs; `println!` and the empty lists of children in the outline are left out).  The
  specifications `FallEditSpec.v` and `FallHlSpec.v` speak about the nodes of the file only (`AnalysisSpec.v`).  The theorems
  are about every parsed grammar text: C53 gives the rule around an expression and the test among the tests, C52 and the
  honest answers of the analysis (`RefSpec.v`) give the colours.
* C60: `AlwaysSpec.v` says when a token is on every way to the commit point of a rule, `AlwaysProofs.v` proves from the derivations of
  C51 that every node then has it, and a boolean check that is proved sound gives the pairs for the Rust and the fall grammar.
* C61-C68: `RustEditModel.v` follows lang/rust/src/editor (actions.rs, mod.rs, file_symbols.rs) and the whitespace binder in
  lang/rust/syntax/src/rust.rs.  `RustEditSpec.v` is the specification over the nodes of the file.  The theorems hold for every lexer that
  makes progress and yields only tokens (`speaks_rust`); `RustLang.v` has one, for the examples.
* C69, C70: `DumpModel.v` follows fall/tree/src/util.rs, `DumpSpec.v` says what the lines are, `NameData.v` (written by tools/names.py) has
  the names of the node types.  That every node has a declared type follows from C60; that the form determines the tree is proved by
  reading the lines back.  The quoting of texts is a parameter; `NameModel.v` has one for which undoing it is proved.
* C71: `RegexModel.v` has regular expressions as data, what a backtracking search finds at the start of a text, and `RegexLexer`
  (fall/parse/src/lib.rs) over it; `LexData.v` (written by tools/lexers.py) has the rules of the seven generated parsers.  `RegexSpec.v` says
  when characters match.  The Unicode tables are a parameter that must be right on ASCII, the choice among candidates is a parameter
  (`longest` where the longest is claimed), and so is the length of an error token.
* C72: C18 and C29 assume that one byte after a token decides it, which the real lexers do not always meet (an unclosed quote).
  `RelexChars.v` proves relexing from a weaker condition, `local_on`: in texts without errors a token is decided by the text up to one
  character behind it.  `RelexLang.v` has a checker of rule tables for that condition; it accepts the tables of sexp, bnf, json, arith,
  weird and fall.  For fall texts the identifier r before a hash is excluded, and the refutation shows that it must be.
* C73: C29 for cached rules assumes that they are self-contained.  For fall this is proved, in a weaker form that is still enough
  (`movable`): `InsideProofs.v` shows that a rule that looks at no text or context and stays inside its brackets parses the same in
  another file with the same tokens there; `FallCached.v` and `FallMoved.v` apply that to the parts of a fall rule; `FallTokens.v` shows
  that the text of the rule has the same tokens in another text, because it ends with a brace.
  That reparsing returns at all is a second simulation, from the parser without the cache to the one with it (`CacheTotal.v`): the
  lookup panics at the end of the file, and the grammar never tries the cached rule there.
* C74: `SessionModel.v` models the event handlers of code/common.ts and the backend's class of files; documents are lists of
  characters, so that the offsets VS Code counts (UTF-16 units) and those the backend counts (bytes) can differ.  `SessionSpec.v` gives
  the texts of the documents from the events alone.  `SessionProofs.v` keeps the invariant that every file held is the file of the
  document's text, using C06 for the edit and C73 for reparsing.  VS Code itself is not modelled beyond the events it sends: one change
  event per change, sent after the document was changed.
* C75: `ClientModel.v` models what code/common.ts does with the backend's answers; `ClientSpec.v` says what VS Code makes of edits
  (offsets count UTF-16 units, offsets behind the end mean the end).  The proofs combine C06 (edits), C15 (selections), C37
  (formatting), the tree edits of C13 and the sessions of C74.
* C76, C77: `HarnessModel.v` models the test helpers of fall/tree/src/test_util.rs and the test renderer of fall/gen/src/lib.rs on the
  contents of files; reading, writing, building and running the generated crate are outside.  `str::split`, `join` and `trim` are
  written out, with the table of whitespace as a parameter (right on line breaks and on visible ASCII).  `HarnessSpec.v` says when tests
  can be told apart and what "the same but for whitespace around it" means.  `HarnessProofs.v` shows that splitting undoes joining
  and that test, tree and record can be read off the joined texts.  C77 uses C70 (equal forms, equal trees).
* C78, C79: `ToolModel.v` models the parser generator as a program of steps (read a file, write a file, end) on a map from paths to
  contents: `process` and `render_all` of fall/gen/src/lib.rs, the mutex and the threads of code/fall/native/src/lib.rs 64-78.  The
  generator itself, the tests of a grammar, cargo and the UTF-8 check are parameters; cargo is taken to depend on the contents of the
  three files of the crate only (not on times), directories can be made, processes can be started and the child prints nothing on its
  error output.  `ToolSpec.v` has crashes (a write may leave any first part), histories of crashed runs and the expected rendering.
  `ToolProofs.v`: all writes of a program go to few places (`confined`), so a crash changes only these; an invariant on lock, threads and
  files for the schedules.  `C79_trees` connects it with C76.
* C80, C81: `RuntimeModel.v` gives the meaning of the generated AST types (templates in fall/gen/src/generate/mod.rs 96-206 and
  codegen.rs 345-407): `wrap` and the bodies of the methods, as programs over the data that C50 describes.  `RuntimeSpec.v` says from the
  grammar file alone what they should give; Rust's compiler is there as `compiles` (distinct constants and types, variants are known types,
  classes not cyclic).  For C81 `AccessorData.v` (written by tools/accessors.py) has the types and methods of the three generated parsers
  with an ast block; `RuntimeCheck.v` computes which children the methods need, and `OwnsProofs.v` proves for any parse, with errors or
  not, that nodes of a type have such a child if each way of the grammar to make the node has it before the first commit.
* C82: `ScreenModel.v` adds to the session of C74 what common.ts draws: which handlers end in `updateActiveEditor`, the decorations of each
  tag, and the diagnostic collection, which is cleared first.  A panic of the backend is an exception there, after which VS Code goes on
  with what was drawn before.  The invariant: if a file of the active document is held and highlighting answers for it, that answer is on
  the screen.  That such a file is held follows once any event concerned the plugin.  `ScreenSpec.v` says which switches are possible
  (`steady`) and what a mark or diagnostic looks like on the screen.
* C83: `FeatureModel.v` models the providers and commands of code/fall/src/main.ts and the symbols and context actions of code/common.ts
  over the session of C74, with the redraw `getFile` does the first time a file is asked for, which throws if highlighting panics
  (`drawable` excludes this).  Each theorem combines C74 (the file held is that of the current text) with the property of the backend
  function (C40, C54 to C58, C76) and, for ranges and edits, C75.  The language the test renderer builds is a parameter (`generated`).
* C84: `WordModel.v` repeats the functions of the text, edit, tree and lexing models with the arithmetic of `u32`: casts truncate, `+` and
  `-` panic in a debug build and wrap around in a release build.  Each is proved equal to the unbounded one while the numbers fit, by
  bounding every intermediate number (in `relex` from the end of the run backwards, since its counters only grow).  This justifies `nat`
  in the other models; of the functions not repeated, searching
  and formatting only compare and copy offsets, and the parser adds up lengths of tokens, which stays within the length of the text.
* C85: `RustPluginModel.v` is main.ts of the Rust plugin and the functions its native part adds.  The session of C74 is used with a weaker
  invariant, `up_to_date`, since typed changes of Rust texts may be reparsed wrongly; the theorems about answers then follow from C33 and
  C61 to C67, with the edits turned into texts by C75.  `vs_offset` in the specification says what VS Code makes of lines and columns.
* C86: `TickModel.v` is the parser of `ParserModel.v` with the tick counter, as a writer monad.  That it is the same parser is proved
  (`work_of_parse`).  `TickSim.v` follows the two runs of C73, with and without reused rules, and compares their counters.
* C87: `MetricsModel.v` is metrics.rs, and `parse` and `reparse` once more with everything they measure; what the clock says is an argument.
  That they are the parses of C86 is proved, so the values are those of C86.  Decimal digits come from the standard library (`DecimalString`).
* C88: `PropModel.v` is fall/text/src/prop.rs, with what proptest draws as arguments, and the test function of lang/fall/syntax/tests/prop.rs.
  `FallQuotes.v` replaces the rule of raw strings by one for a lone quote; on texts without quotes both lexers agree, and the second looks only
  at the characters of its tokens, so that C72 and C73 hold without their condition on bare `r#`.  The comparison of files is that of C77.
* C89: `ActionTestModel.v` is check_context_action and check_no_context_action over any implementation of EditorFileImpl, and for both languages.
  The meaning of a green test follows from C43 (markers), C54–C56, C61, C62, C66 (actions) and C77 (comparison); the new texts are shown to be made of
  whole characters.
* C90: `DirectoryModel.v` is check_directory on a map from names to contents, with Rust's cutting of file names at the last dot; the file check is
  that of C77.  Induction over the listing.
* C91: `TextOpsModel.v` has the methods of Text and TextBuf that C01–C06 do not need; the searches and the comparison of std are written out over bytes.
* C92: `DiagTestModel.v` has the texts of the messages and the helper of the tests; the analysis is the one of C36, run by a single thread of `DbModel.v`, which is shown to end and to return what C36 allows. All shipped tests of diagnostics are run in the model.
* C93: `FreshModel.v` models fall/gen/tests/cli.rs over the files and the generator of `ToolModel.v`. `FreshSpec.v` says what a text has in its lines; the proof shows that the compared strings are equal exactly if these are, and follows the files through the test.
* C94: the models of the generator (C38) and the parser. An induction over the generator shows that the context numbers in the table are those of the analysis; `SlotSpec.v` lists the other reasons an instruction may have to panic, and the proof goes through the instructions with slots.
* C41, C43, C44, C49: direct models of the scanners and helpers, against byte-level specifications (first occurrence
  of a marker, nesting depth of comments).
* C36, C39, C45–C48: the queries of `analysis` as programs of the database of C35 (`AnalysisModel.v`), so that every
  statement holds for any number of clients and any schedule; `AnalysisSpec.v` describes the answers by the nodes of
  the file.

(The section "Status" below is kept current while the work proceeds.)

## Trusted base

* The kernel of Coq 8.16.1 (and `coqchk` when re-checked). No plugin, no native compilation of proofs;
  `vm_compute` is used for closed computations.
* `Print Assumptions` stands under every property theorem. Every one of them reports
  "Closed under the global context": no axiom, neither of this development nor of the standard library, is used.
  Loading `Lia` pulls in `Coq.ssr.ssrunder.Under_rel.*`, module parameters of the standard library that no theorem uses.
* That the Gallina definitions say what the Rust code says. Each carries the file and lines it models, and says where it
  simplifies. Nothing is extracted or run against the Rust code.
* Not modelled: the code of the `regex` and `m_lexer` crates.  In C01 to C70 a lexer is any function from the rest of the text to a token;
  for C71 to C75 the crates are taken to do what `RegexModel.v` says, with the Unicode tables as a parameter.  Also not modelled: serde,
  `regex::escape`, `str::trim` and Debug formatting (parameters of the models), `has_whitespace_binder`,
  the tera engine and the printing of Rust source (what the printed AST types mean when compiled is modelled, for C80 and C81), VS Code itself and the marshalling of values to it (only the handlers,
  providers and commands of code/common.ts, code/fall/src/main.ts and code/rust/src/main.ts are modelled, for C74, C75, C82, C83 and C85), the Emacs bridge, the clock (a parameter of C87), memory sharing
  (`Arc`, interning), arithmetic overflow of `usize`, and of `u32` outside C84.

## Status: false readings

A property that does not hold as one would first read it has a theorem `..._refuted` with a witness.

| Theorem | What goes wrong |
|---|---|
| `C02_empty_reflexive_refuted` | the empty range is less than itself |
| `C06_trailing_delete_refuted` | an edit that deletes a suffix loses the deletion when sent to the editor |
| `C20_contextual_whitespace_refuted` | a contextual token with a blank in it drops the end of the text |
| `C22_prev_refuted`, `C22_replacement_refuted` | the two registers survive a failed alternative |
| `C22_cached_predicate_refuted` | a cached rule in a predicate leaves events |
| `C27_replaced_root_refuted` | a replaced root loses trailing whitespace |
| `C30_exchange_refuted` | arguments are bound one after the other, not at once |
| `C30_argument_scope_diverges` | an argument mentioning a parameter is evaluated in the callee |
| `C28_json` | json panics on every text whose first token is not a bracket |
| `C28_operator_in_predicate_refuted`, `C28_unbound_refuted` | operators in a predicate, unbound parameters and dangling references panic |
| `C28_empty_repetition_diverges`, `C28_left_recursion_diverges` | the parser never returns |
| `C29_lookahead_refuted`, `C29_last_token_refuted`, `C29_context_refuted` | a cached node is reused although what follows it, its last token or its context changed |
| `C29_end_refuted` | a cached rule tried at the end of the file panics on every edit |
| `C29_identity_refuted` | an edit that changes nothing changes the tree (empty cached nodes) |
| `C15_empty_contains_refuted` | an empty selection in the indentation of a line moves to a range right of the cursor |
| `C42_inside_refuted` | the mark of an empty error node at the end of the file lies past the end |
| `C34_removed_directory_refuted`, `C34_replaced_file_refuted` | files of a removed directory, or replaced by a directory, stay in the index |
| `C36_same_list_refuted` | two errors at the same place are listed in the order in which the queries were asked |
| `C39_duplicate_rules_refuted` | repeated rules are not reported if no reference or call makes the analysis look for a rule |
| `C39_same_text_refuted` | two tokens with the same text are not reported; the text means the last |
| `C37_idempotent_refuted` | with a leading pipe each formatting adds another space before it |
| `C37_clash_refuted` | a pipe directly inside angle brackets makes formatting alternate between two texts |
| `C38_no_errors_refuted` | seven files without analysis errors on which the generator panics or fails |
| `C38_public_rule_refuted` | a public rule with a borrowed type that does not exist silently makes no node |
| `C38_same_type_refuted` | a rule and a token of the same name share one type |
| `C38_alternative_refuted` | only the first part of an alternative of an expression rule counts |
| `C50_unknown_node_refuted` | an accessor for a node no rule makes uses an undefined constant |
| `C51_empty_layer_refuted` | the body of a layer with an empty cover is missing without an error node |
| `C52_with_errors_refuted` | a grammar text with an error node can lack what the analysis looks for |
| `C55_whole_body_refuted` | extracting the body of a rule leaves a rule without a body |
| `C55_name_taken_refuted` | the reference to the extracted rule means an older rule `new_rule` |
| `C59_with_errors_refuted` | highlighting panics on `ast { node a { x y } class` |
| `C60_after_commit_refuted` | a function without a name |
| `C61_alias_refuted` | braces around an import with an alias are a syntax error |
| `C62_innermost_refuted` | at an enum inside a struct the impl is for the struct |
| `C63_start_refuted` | typing a space, expanding and breadcrumbs panic at the start of the file |
| `C63_no_pattern_refuted` | a semicolon is inserted although an equals sign follows |
| `C64_semicolon_refuted`, `C64_short_refuted` | expanding a statement that ends with a semicolon leaves a dot; on short ones it panics |
| `C67_order_refuted` | nested definitions come before the outer ones in the outline |
| `C70_whitespace_refuted` | the form without whitespace is the same for different texts |
| `C71_many_rules_refuted` | the number of a rule is kept in 16 bits: with 65536 rules the last one makes error tokens |
| `C72_fall_refuted` | relexing fall: `r##` followed by an inserted `""##` is a raw string, the relexer keeps the identifier and the hashes |
| `C72_rust_refuted` | relexing Rust: the same, a lone quote that becomes a character, and a string that ends after a backslash |
| `C72_lookahead_refuted` | the lexers of fall and Rust do not meet the condition of C18 and C29 on lookahead |
| `C74_units_refuted` | behind characters that are not ASCII the plugin's offsets (UTF-16 units) are not the backend's (bytes): after typing x at the end of two accented letters the file held has it between them |
| `C74_units_panic_refuted` | the same with one accented letter makes the backend panic |
| `C74_rust_refuted`, `C74_fall_refuted` | after typing the end of a raw string behind r## the file held has another tree than the text |
| `C75_ranges_refuted` | behind an accented letter a range the backend sends is shown elsewhere, even as an empty range |
| `C75_format_refuted` | formatting a rule with an accented letter in a string puts the spaces elsewhere and cuts a name in two |
| `C75_everything_refuted` | the command to extend the selection fails (null is not expected) when everything is selected |
| `C76_none_refuted` | rendering a grammar without tests shows the tree of the empty text |
| `C76_separator_refuted` | a test that contains the separating line is shown as two tests |
| `C77_cut_refuted` | a record cut off before the dashes of a section passes although the later tests are missing in it |
| `C77_dashes_refuted` | a test with the line of dashes in it: a record of eight bytes passes |
| `C78_own_name_refuted` | a grammar whose name ends in .rs is overwritten by its parser, one in .txt by its rendered tests |
| `C78_half_refuted` | stopped while writing, the generator leaves half a parser in the place of a good one |
| `C79_processes_refuted` | two processes rendering at the same time: one shows trees made by the parser of the other |
| `C79_poisoned_refuted` | a test for which the parser panics: all later renderings of the editor panic at the poisoned lock |
| `C79_stuck_refuted` | stopped inside a character, the crate holds a file that is not UTF-8 and rendering fails from then on |
| `C81_errors_refuted` | each of the seven accessors panics on a grammar with errors (`rule a`, `verbatim`, `ast { node` ...) |
| `C81_bnf_lists_refuted` | `Prod::alts` and `Alt::symbols` of BNF are empty on every text without errors: PROD_BODY and SYMBOL nodes are in between |
| `C82_with_errors_refuted` | after `rule a{b}` is replaced by `ast { node a { x y } class` the colours and the problem of the old text are still shown |
| `C82_at_start_refuted` | a grammar open when the plugin starts stays without colours until something happens to a grammar |
| `C83_action_gone_refuted` | an action chosen after the text changed: the backend answers null and the command throws |
| `C83_other_editor_refuted` | an action offered for one grammar and chosen when another is active edits the other one |
| `C83_other_test_refuted` | "Render test" shows the test with the same number in the grammar active then |
| `C83_no_grammar_refuted` | rendering throws when no editor is active, or one with a document of another language |
| `C83_first_question_refuted` | the first question about a grammar fails while the active editor shows a grammar with errors |
| `C84_big_text_refuted` | a text of 2^32 bytes is taken for an empty one, without a panic |
| `C84_big_insert_refuted` | an insertion of 2^32 bytes inserts nothing |
| `C84_backwards_refuted` | deleting [2, 1) in "abc" gives "abbc" in a release build and panics in a debug build |
| `C85_typing_refuted` | after pasting `type T=V<[u;{` before `const C:u=a<b>c;0}]>;` the plugin holds a tree with 59 nodes, parsing gives 61 |
| `C85_start_refuted` | moving the cursor to the start of a Rust file throws, and so does typing `$` as its first character |
| `C85_hidden_refuted` | a function hides a struct of the same name from workspace search |
| `C85_column_refuted` | columns of workspace symbols count bytes, and lines do not end at carriage returns |
| `C86_region_refuted` | the "relexed region" is 0 when the old text had an error token, although the whole text is lexed again |
| `C87_latest_refuted` | a file highlighted in 5 ms and again in 1 s reports 5 ms: `get` finds the first record of a name |
| `C88_reach_refuted` | the generator interleaves at most two insertions with the copies, so copying twice and then inserting is never tried |
| `C88_quotes_refuted` | deleting the space and the second `r` of `r## r""##` lets a raw string begin at a reused `r`: the test fails |
| `C88_chars_refuted` | half of a two-byte character is an offset that the generator draws; slicing there panics |
| `C89_circumflex_refuted` | in `const A: u8 = 1 ^ 2; use foo::^^bar;` the operator is taken for the first marker: the test of an offered action fails, the test that it is missing passes |
| `C90_hidden_refuted` | a source called `.rs` has no extension for Rust and is not checked |
| `C90_orphan_refuted` | a record without its source is not noticed |
| `C91_cut_refuted` | a text may begin inside of a character: it has a length, but comparing it, even with itself, panics |
| `C92_copied_refuted` | two errors at one place are listed in the order in which the queries ran: a test rejects the list of an analysis that was asked something before |
| `C93_literal_refuted` | the test of generated parsers leaves out empty lines also inside of string literals, and rewriting drops them: the parser then has another string |
| `C94_seventeen_refuted` | a grammar without errors that has seventeen parameters in all, or names seventeen contexts: its parser panics |
| `C40_text_accessor_refuted` | a method that takes the text of a token is not among the token's usages |
| `C48_incomplete_refuted` | the analysis panics on a rule without a body, which the parser accepts with an error node |
| `C43_overlapping_marker_refuted` | a marker that overlaps itself is found too early |
| `C49_collect_all_refuted` | a grammar ending in a test header, or a test with too many hashes, panics; a test inside a test is collected twice |

`GrammarData.v` is the output of `tools/grammars.py`, which copies the `parser_json` literals and `node_types` of the
generated parsers; that copy is part of the trusted base. The certificates in it are not: Coq checks them.

`Shipped.v` is the output of `tools/shipped.py`. It checks the model against the code: for five of the seven grammars in
/repo (json, arith, weird, sexp, bnf), the model of the fall parser parses
the grammar source, the model of the generator runs on the result, and what it emits is the rule table, the constants,
the lexer rules, the verbatim code and the accessors of the generated parser next to the source. These are tests of the
model, not claims. The same check for fall's own grammar (`tools/shipped.py /repo fall`) passes in coqc but needs more
memory than coqchk has here, so it is not part of the build; rust's grammar runs out of memory in coqc already.

`Conform.v` is the output of `tools/conform.py /repo sexp arith weird bnf fall`. It replays the shipped parser tests of
these languages: the model lexes and parses each input and gets the recorded tree. The tool also does this for json and
rust; all their recorded trees agree as well (11 and 78 inputs), but coqchk would take too long, so they are not part of
the build. `ConformEditor.v` replays the unit tests of the editors (highlighting, outline, formatting, usages,
selection, the space after `let`, the line index) and the test that counts the ticks of an incremental parse: the model
needs 939 ticks, and 523 after the edit, where the test wants 800 to 1200, and fewer than 800. `ConformCalls.v` replays
the tests of resolving calls, with the `Debug` form of the results. `ConformReparse.v` replays the tests of
relexing and reparsing fall and of building edits. `C89_shipped_*` and `C92_shipped` do the same for the tests of the actions and of the analysis. These are tests of the model, not claims.
The recorded trees were written when `Debug` of a string still escaped single quotes, and the replay does so too.
