{
 "claims": [
  {
   "property": "C01",
   "status": "proved",
   "theorems": [
    "C01_constructors",
    "C01_disjoint",
    "C01_intersects",
    "C01_disjoint_empty",
    "C01_subrange",
    "C01_contains_offset",
    "C01_glue",
    "C01_shift_right"
   ],
   "note": "Ranges as sets of offsets. An empty range counts as disjoint from r unless it lies strictly inside r (C01_disjoint_empty)."
  },
  {
   "property": "C02",
   "status": "proved",
   "theorems": [
    "C02_compare",
    "C02_transitive",
    "C02_antisymmetric",
    "C02_empty_reflexive_refuted"
   ],
   "note": "Partial order on non-empty ranges; the empty range compares Less with itself (C02_empty_reflexive_refuted)."
  },
  {
   "property": "C03",
   "status": "proved",
   "theorems": [
    "C03_slice",
    "C03_slice_compose",
    "C03_suffix",
    "C03_read",
    "C03_whole_buffer"
   ],
   "note": "All slices of all views, composition, panics exactly outside."
  },
  {
   "property": "C04",
   "status": "proved",
   "theorems": [
    "C04_trim",
    "C04_strip_meaning"
   ],
   "note": "Whitespace predicate is a parameter; all valid UTF-8 buffers."
  },
  {
   "property": "C05",
   "status": "proved",
   "theorems": [
    "C05_builder",
    "C05_builder_panics"
   ],
   "note": "Any call sequence; panics exactly when the calls are not in order or out of range."
  },
  {
   "property": "C06",
   "status": "proved",
   "theorems": [
    "C06_from_editor",
    "C06_to_editor",
    "C06_round_trip",
    "C06_segments",
    "C06_trailing_delete_refuted",
    "C06_file_edit"
   ],
   "note": "Exact for every edit made with the builder; a removed end of the text is not sent (C06_trailing_delete_refuted)."
  },
  {
   "property": "C07",
   "status": "proved",
   "theorems": [
    "C07_build",
    "C07_panics",
    "C07_stores"
   ],
   "note": "All call sequences; the links/tiling part for sequences under one root."
  },
  {
   "property": "C08",
   "status": "proved",
   "theorems": [
    "C08_lossless",
    "C08_root"
   ],
   "note": "All stored trees and nodes."
  },
  {
   "property": "C09",
   "status": "proved",
   "theorems": [
    "C09_find_leaf",
    "C09_outside_panics"
   ],
   "note": "All stored trees, nodes and offsets."
  },
  {
   "property": "C10",
   "status": "proved",
   "theorems": [
    "C10_covering",
    "C10_smallest",
    "C10_outside_panics"
   ],
   "note": "Minimality is for non-empty ranges, as the property says."
  },
  {
   "property": "C11",
   "status": "proved",
   "theorems": [
    "C11_subtree",
    "C11_bottom_up",
    "C11_walk",
    "C11_descendants",
    "C11_ancestors"
   ],
   "note": "All stored trees and nodes, any visitor callback."
  },
  {
   "property": "C12",
   "status": "proved",
   "theorems": [
    "C12_sibling",
    "C12_coverage",
    "C12_invertible",
    "C12_adjacent"
   ],
   "note": "All nodes of all stored trees."
  },
  {
   "property": "C13",
   "status": "proved",
   "theorems": [
    "C13_file_edit",
    "C13_untouched",
    "C13_insert_after_deleted_refuted",
    "C13_second_insert_refuted"
   ],
   "note": "Node boundaries are assumed to be character boundaries. Lost insertions are refutations of the naive reading."
  },
  {
   "property": "C14",
   "status": "proved",
   "theorems": [
    "C14_replace_substring",
    "C14_outside_panics"
   ],
   "note": "Range ends must be character boundaries, otherwise the code panics."
  },
  {
   "property": "C15",
   "status": "proved",
   "theorems": [
    "C15_extend",
    "C15_reaches_root",
    "C15_outside_panics",
    "C15_empty",
    "C15_empty_none",
    "C15_empty_contains_refuted"
   ],
   "note": "Whole statement for non-empty selections, with minimality; empty selections characterised (C15_empty), and the reading that their result contains the cursor refuted."
  },
  {
   "property": "C16",
   "status": "proved",
   "theorems": [
    "C16_offered",
    "C16_swaps",
    "C16_by_id",
    "C16_outside_panics"
   ],
   "note": "Offered iff applicable iff two nodes of one type surround the comma; the exact new text; the calls by action id. Node boundaries must be character boundaries (true of parsed files)."
  },
  {
   "property": "C17",
   "status": "proved",
   "theorems": [
    "C17_lex",
    "C17_unique",
    "C17_tiles",
    "C17_empty_token_hangs"
   ],
   "note": "lex over an arbitrary lexer; an empty token makes it hang"
  },
  {
   "property": "C18",
   "status": "proved",
   "theorems": [
    "C18_relex",
    "C18_long_lookahead_refuted"
   ],
   "note": "one-byte lookahead suffices; refuted without it. The real fall and Rust lexers do not meet it (C72_lookahead_refuted); C72 proves relexing for the real lexers where it is right."
  },
  {
   "property": "C19",
   "status": "proved",
   "theorems": [
    "C19_relex_covers"
   ],
   "note": "any lookahead, any old tokens of the right total length"
  },
  {
   "property": "C20",
   "status": "proved",
   "theorems": [
    "C20_lossless",
    "C20_returns",
    "C20_spelled_length",
    "C20_contextual_whitespace_refuted"
   ],
   "note": "For texts for which the grammar prescribes a tree (peg_file; C28 gives a static condition), the start rule is an unreplaceable pub rule and contextual tokens contain no whitespace byte; false without the last (C20_contextual_whitespace_refuted). C20_returns: parsing does return if the lexer cuts between characters."
  },
  {
   "property": "C21",
   "status": "proved",
   "theorems": [
    "C21_position",
    "C21_window",
    "C21_layer"
   ],
   "note": "All grammars, tokens and windows."
  },
  {
   "property": "C22",
   "status": "proved",
   "theorems": [
    "C22_failure",
    "C22_restores",
    "C22_predicate",
    "C22_prev_refuted",
    "C22_replacement_refuted",
    "C22_cached_predicate_refuted"
   ],
   "note": "Events and positions are restored; prev and replacement registers are not (refutations), nor are events of a cached rule in a predicate."
  },
  {
   "property": "C23",
   "status": "proved",
   "theorems": [
    "C23_file",
    "C23_unique",
    "C23_expression",
    "C23_only"
   ],
   "note": "Against the fuel-free relation of PegSpec.v; without cache (a fresh parse). C23_only is the converse, for runs where no operator or suffix is attached to a non-node."
  },
  {
   "property": "C24",
   "status": "proved",
   "theorems": [
    "C24_commit",
    "C24_no_commit"
   ],
   "note": "All sequences and commit positions."
  },
  {
   "property": "C25",
   "status": "proved",
   "theorems": [
    "C25_groups",
    "C25_right_operand",
    "C25_left_operand",
    "C25_longest"
   ],
   "note": "Left-operand tightness needs operators that do not look at the previous node (memoryless)."
  },
  {
   "property": "C26",
   "status": "proved",
   "theorems": [
    "C26_nesting",
    "C26_first_child",
    "C26_balanced",
    "C26_keeps"
   ],
   "note": "All attached forests (what the parser emits, PegFacts.file_attached); C26_keeps for arbitrary event lists."
  },
  {
   "property": "C27",
   "status": "proved",
   "theorems": [
    "C27_convert",
    "C27_file",
    "C27_replaced_root_refuted"
   ],
   "note": "All binders that bind at most what they are shown; C27_replaced_root_refuted shows the root must keep its type."
  },
  {
   "property": "C28",
   "status": "proved",
   "theorems": [
    "C28_returns",
    "C28_parse",
    "C28_shipped",
    "C28_shipped_parse",
    "C28_ends",
    "C28_other_grammars",
    "C28_json",
    "C28_empty_repetition_diverges",
    "C28_left_recursion_diverges",
    "C28_operator_in_predicate_refuted",
    "C28_unbound_refuted",
    "C28_rejected"
   ],
   "note": "The check takes a certificate (WellFormed.v), found by tools/grammars.py and verified by Coq. Returns for every text: fall, rust, sexp, bnf. json, arith and weird pass all but the condition on the start rule; json is characterised exactly (C28_json: panics unless the first token is a bracket). Dropping conditions is shown to diverge or panic."
  },
  {
   "property": "C29",
   "status": "proved",
   "theorems": [
    "C29_text",
    "C29_uncached",
    "C29_uncached_history",
    "C29_cached",
    "C29_cached_history",
    "C29_builder",
    "C29_shipped_uncached",
    "C29_shipped_history",
    "C29_fall",
    "C29_lookahead_refuted",
    "C29_end_refuted",
    "C29_last_token_refuted",
    "C29_identity_refuted",
    "C29_context_refuted"
   ],
   "note": "Any history of edits. Without cached rules: equality of results, panics included (C29_uncached; all shipped grammars but fall and rust). With cached rules: whatever edits return is the result of a fresh parse, under self_contained and quiet; the bracket language of ReparseExample.v meets them. For fall the condition on its one cached rule stays a hypothesis (C29_fall). Lexers look one byte ahead, as in C18. Five refutations show the conditions matter. The real lexers need not meet that: C72 restates the property for them. C73 proves the property for the shipped fall language without the condition on cached rules."
  },
  {
   "property": "C30",
   "status": "proved",
   "theorems": [
    "C30_call",
    "C30_bound",
    "C30_variable",
    "C30_exchange_refuted",
    "C30_argument_scope_diverges"
   ],
   "note": "Dynamic scope and sequential binding as in the code; simultaneous binding is refuted."
  },
  {
   "property": "C31",
   "status": "proved",
   "theorems": [
    "C31_translate",
    "C31_unique",
    "C31_monotone"
   ],
   "note": "Every offset of every UTF-8 text, also past the end; positions strictly increase with offsets. ordslice's upper_bound is modelled by its contract; u32 overflow is not modelled."
  },
  {
   "property": "C32",
   "status": "proved",
   "theorems": [
    "C32_accepts",
    "C32_never_panics",
    "C32_can_match",
    "C32_will_always_match"
   ],
   "note": "Acceptance is exactly the subsequence relation; can_match is constant true; will_always_match is exact for every reachable state."
  },
  {
   "property": "C33",
   "status": "proved",
   "theorems": [
    "C33_file_index",
    "C33_symbols",
    "C33_query",
    "C33_sound",
    "C33_complete",
    "C33_limit"
   ],
   "note": "Index of a parsed file from its tree (types, names, ranges, line/column ranges), sorted distinct keys, first symbol per name; queries sound, complete up to the limit, limit plus one file. Lower-casing of names and of queries are two arbitrary functions; the fst crate's search is modelled by its contract."
  },
  {
   "property": "C34",
   "status": "proved",
   "theorems": [
    "C34_entry",
    "C34_current",
    "C34_filter",
    "C34_removed_directory_refuted",
    "C34_replaced_file_refuted",
    "C34_race"
   ],
   "note": "Exact per-path history semantics; agreement with the file when its last change was notified; the exact effect of a notification, and filter, uniqueness and provenance, under arbitrary races; removed directories and files replaced by directories stay in the index (refuted readings)."
  },
  {
   "property": "C35",
   "status": "proved",
   "theorems": [
    "C35_stored_once",
    "C35_equal_results",
    "C35_diagnostics_once",
    "C35_snapshot",
    "C35_no_deadlock",
    "C35_terminates"
   ],
   "note": "Interleaving semantics for any number of threads and any schedule, with nested queries. At most one stored value per key, equal answers, diagnostics of each key recorded once, no deadlock and termination for acyclic queries."
  },
  {
   "property": "C36",
   "status": "proved",
   "theorems": [
    "C36_collect",
    "C36_same_diagnostics",
    "C36_returns",
    "C36_same_list_refuted"
   ],
   "note": "For any number of clients and any schedule on a complete file: sorted, the diagnostics of exactly the reported queries, each once, stable; equal up to order across runs (equal lists refuted); a result exists."
  },
  {
   "property": "C37",
   "status": "proved",
   "theorems": [
    "C37_exact",
    "C37_content",
    "C37_spacing",
    "C37_stable",
    "C37_twice",
    "C37_idempotent_refuted",
    "C37_clash_refuted"
   ],
   "note": "Exact result of the formatter on every well-formed file; solid tokens preserved; spacing established where no pipe stands directly inside an angle bracket; well spaced files fixed; second formatting is the identity when the formatted text parses to the formatted tree. Unconditional idempotence is refuted twice (leading pipe grows, pipe inside angle brackets oscillates)."
  },
  {
   "property": "C38",
   "status": "proved",
   "theorems": [
    "C38_faithful",
    "C38_accepts",
    "C38_clean",
    "C38_no_errors_refuted",
    "C38_public_rule_refuted",
    "C38_same_type_refuted",
    "C38_alternative_refuted"
   ],
   "note": "Generator output characterised by the nodes of the grammar file; accepted files characterised; termination; regex::escape, Debug formatting and str::trim are parameters; the text of the Rust template and has_whitespace_binder are not modelled. The reading \"no analysis errors, hence accepted\" is refuted by seven files; three further readings refuted."
  },
  {
   "property": "C39",
   "status": "proved",
   "theorems": [
    "C39_resolve",
    "C39_unresolved",
    "C39_duplicate_tokens",
    "C39_duplicate_rules",
    "C39_unused",
    "C39_duplicate_rules_refuted",
    "C39_same_text_refuted"
   ],
   "note": "Exact resolution with uniqueness; exact sets of unresolved, duplicate and unused diagnostics in the result. Duplicate rules are reported only if some query looks for rules, and tokens of equal text are not reported (refuted readings). Files must be complete (no accessor of the AST panics)."
  },
  {
   "property": "C40",
   "status": "proved",
   "theorems": [
    "C40_definition",
    "C40_usages",
    "C40_agree",
    "C40_from_name",
    "C40_unique",
    "C40_analysis",
    "C40_text_accessor_refuted"
   ],
   "note": "Exact results of both functions at every offset of a complete file, for any source of answers the analysis can give (C40_analysis: one exists, and all agree). A usage jumps to the definition and vice versa. Text accessors are not references (refuted reading). Offsets past the end panic in find_leaf_at_offset."
  },
  {
   "property": "C41",
   "status": "proved",
   "theorems": [
    "C41_block_comment",
    "C41_raw_string",
    "C41_raw_string_unclosed",
    "C41_raw_string_panics"
   ],
   "note": "Block comments nest exactly as their openers and closers say; raw strings end at the first quote with as many hashes; unclosed strings and the panic on too many hashes characterised."
  },
  {
   "property": "C42",
   "status": "proved",
   "theorems": [
    "C42_highlight",
    "C42_ranges",
    "C42_errors_marked",
    "C42_inside_refuted"
   ],
   "note": "Exact list of highlights in bottom-up order for any mapping and callbacks (name resolution is a parameter), ranges, error nodes marked; past-the-end mark refutes \"inside the file\"."
  },
  {
   "property": "C43",
   "status": "proved",
   "theorems": [
    "C43_extract_offset",
    "C43_extract_range",
    "C43_offset_panics",
    "C43_range_panics",
    "C43_overlapping_marker_refuted"
   ],
   "note": "Insertion followed by extraction is the identity for markers that do not overlap themselves; a self-overlapping marker is found too early (refuted reading); panics exactly when markers are missing."
  },
  {
   "property": "C44",
   "status": "proved",
   "theorems": [
    "C44_scale"
   ],
   "note": "Arithmetic on N (u32 inputs, u64 product)."
  },
  {
   "property": "C45",
   "status": "proved",
   "theorems": [
    "C45_call",
    "C45_contexts"
   ],
   "note": "One meaning per call, answered in every run, with its diagnostics in every result; context numbers and single-use warnings exact."
  },
  {
   "property": "C46",
   "status": "proved",
   "theorems": [
    "C46_variant"
   ],
   "note": "One variant per rule, answered in every run; its diagnostics are in every result."
  },
  {
   "property": "C47",
   "status": "proved",
   "theorems": [
    "C47_traits",
    "C47_method"
   ],
   "note": "Traits and methods resolve by name; unique meaning."
  },
  {
   "property": "C48",
   "status": "proved",
   "theorems": [
    "C48_answers",
    "C48_terminates",
    "C48_incomplete_refuted"
   ],
   "note": "Complete files: no panic, no deadlock, no infinite run for any API clients. Without completeness the parser output for a rule without body makes the analysis panic (refuted)."
  },
  {
   "property": "C49",
   "status": "proved",
   "theorems": [
    "C49_collect_tests",
    "C49_collect_all_refuted"
   ],
   "note": "Exact list of tests found; str::trim is a parameter. The readings that every grammar is accepted and that no text is collected twice are refuted."
  },
  {
   "property": "C50",
   "status": "proved",
   "theorems": [
    "C50_accessors",
    "C50_camel",
    "C50_closed",
    "C50_unknown_node_refuted"
   ],
   "note": "Exact accessors; names and implementors; methods refer to generated constants and types. That every node definition has a node type is refuted."
  },
  {
   "property": "C51",
   "status": "proved",
   "theorems": [
    "C51_tree",
    "C51_well_formed",
    "C51_shipped",
    "C51_empty_layer_refuted"
   ],
   "note": "For any language and text for which the grammar prescribes a tree (C51_tree), hence for every text with a well-formed grammar and for the shipped grammars. Silent empty layers are shown by C51_empty_layer_refuted."
  },
  {
   "property": "C52",
   "status": "proved",
   "theorems": [
    "C52_complete",
    "C52_analysis",
    "C52_generator",
    "C52_references",
    "C52_fall_lang",
    "C52_with_errors_refuted"
   ],
   "note": "From any text to the analysis, the generator and the references. The lexer is any lexer that makes progress, starts whitespace with a blank, slash or non-ASCII byte and quotes simple strings; the lexer of the concrete cases is one (C52_fall_lang). C52_with_errors_refuted shows that the absence of errors is needed."
  },
  {
   "property": "C53",
   "status": "proved",
   "theorems": [
    "C53_nesting",
    "C53_parsed",
    "C53_top_level",
    "C53_in_rule",
    "C53_table_is_tight"
   ],
   "note": "For every text and every lexer that makes progress and yields token types (the lexer of the concrete cases does). C53_table_is_tight shows that no pair of the table is superfluous."
  },
  {
   "property": "C54",
   "status": "proved",
   "theorems": [
    "C54_swap",
    "C54_same_length"
   ],
   "note": "Offered exactly at bars between alternatives; the text is exchanged."
  },
  {
   "property": "C55",
   "status": "proved",
   "theorems": [
    "C55_extract",
    "C55_unique",
    "C55_whole_body_refuted",
    "C55_name_taken_refuted"
   ],
   "note": "Two over-strong readings are refuted (C55_whole_body_refuted, C55_name_taken_refuted)."
  },
  {
   "property": "C56",
   "status": "proved",
   "theorems": [
    "C56_actions"
   ],
   "note": "List and application by name agree."
  },
  {
   "property": "C57",
   "status": "proved",
   "theorems": [
    "C57_outline",
    "C57_all_rules"
   ],
   "note": "The outline is the list of the definitions."
  },
  {
   "property": "C58",
   "status": "proved",
   "theorems": [
    "C58_test"
   ],
   "note": "For every offset of every text."
  },
  {
   "property": "C59",
   "status": "proved",
   "theorems": [
    "C59_highlight",
    "C59_reference",
    "C59_with_errors_refuted"
   ],
   "note": "For error-free texts; with errors it may panic (C59_with_errors_refuted)."
  },
  {
   "property": "C60",
   "status": "proved",
   "theorems": [
    "C60_before_commit",
    "C60_rust",
    "C60_rust_lang",
    "C60_after_commit_refuted",
    "C60_fall"
   ],
   "note": "For every grammar that passes the check, with the instances for Rust and fall; the name of a function may be missing (C60_after_commit_refuted)."
  },
  {
   "property": "C61",
   "status": "proved",
   "theorems": [
    "C61_add_braces",
    "C61_alias_refuted"
   ],
   "note": "Exactly when offered; the result may have an error if there is an alias (C61_alias_refuted)."
  },
  {
   "property": "C62",
   "status": "proved",
   "theorems": [
    "C62_add_impl",
    "C62_innermost_refuted"
   ],
   "note": "Never panics, using C60; an enum inside a struct is not found (C62_innermost_refuted)."
  },
  {
   "property": "C63",
   "status": "proved",
   "theorems": [
    "C63_space",
    "C63_no_pattern_refuted",
    "C63_start_refuted"
   ],
   "note": "Panics at offset 0 (C63_start_refuted); an equals sign without a pattern is not seen (C63_no_pattern_refuted)."
  },
  {
   "property": "C64",
   "status": "proved",
   "theorems": [
    "C64_expand",
    "C64_semicolon_refuted",
    "C64_short_refuted"
   ],
   "note": "Complete case analysis; see C64_semicolon_refuted and C64_short_refuted."
  },
  {
   "property": "C65",
   "status": "proved",
   "theorems": [
    "C65_breadcrumbs"
   ],
   "note": "For all offsets but 0."
  },
  {
   "property": "C66",
   "status": "proved",
   "theorems": [
    "C66_actions"
   ],
   "note": "List and application by name agree."
  },
  {
   "property": "C67",
   "status": "proved",
   "theorems": [
    "C67_outline",
    "C67_order_refuted"
   ],
   "note": "Bottom-up order; the order of the text fails (C67_order_refuted)."
  },
  {
   "property": "C68",
   "status": "proved",
   "theorems": [
    "C68_binder"
   ],
   "note": "The binder takes the longest run."
  },
  {
   "property": "C69",
   "status": "proved",
   "theorems": [
    "C69_types",
    "C69_lines",
    "C69_names"
   ],
   "note": "Exact lines for every quoting function; names checked against the tables of all seven generated parsers."
  },
  {
   "property": "C70",
   "status": "proved",
   "theorems": [
    "C70_same",
    "C70_parsed",
    "C70_whitespace_refuted"
   ],
   "note": "An equivalence; without whitespace it fails (C70_whitespace_refuted)."
  },
  {
   "property": "C71",
   "status": "proved",
   "theorems": [
    "C71_token",
    "C71_longest",
    "C71_many_rules_refuted",
    "C71_shipped",
    "C71_panics",
    "C71_raw_strings",
    "C71_fall",
    "C71_rust",
    "C71_named"
   ],
   "note": "The regular expressions are those of the generated parsers (tools/lexers.py); that the regex and m_lexer crates do what RegexModel.v says is assumed. With 65536 rules or more it fails (C71_many_rules_refuted)."
  },
  {
   "property": "C72",
   "status": "proved",
   "theorems": [
    "C72_relex",
    "C72_fall_relex",
    "C72_fall_refuted",
    "C72_rust_refuted",
    "C72_lookahead_refuted",
    "C72_reparse",
    "C72_history"
   ],
   "note": "For json, arith and weird the statement about histories is for edits that return; their grammars do not give every text a tree. Relexing is refuted for fall without its condition and for Rust (C72_fall_refuted, C72_rust_refuted)."
  },
  {
   "property": "C73",
   "status": "proved",
   "theorems": [
    "C73_reparse",
    "C73_history",
    "C73_total",
    "C73_edits"
   ],
   "note": "Every text without an identifier r directly before a hash, all histories of UTF-8 edits whose copies ascend. C73_reparse and C73_history: what reparsing returns is what parsing the new text returns. C73_total and C73_edits: reparsing does return, with any fuel with which parsing returns (C73_edits also proves that parsing returns, for binders that claim no more tokens than they are shown). C72_fall_refuted shows why texts with an identifier r before a hash are excluded."
  },
  {
   "property": "C74",
   "status": "proved",
   "theorems": [
    "C74_session",
    "C74_units_refuted",
    "C74_units_panic_refuted",
    "C74_rust_refuted",
    "C74_fall_refuted"
   ],
   "note": "For single changes behind ASCII text; C74_units_refuted and C74_units_panic_refuted show what happens behind other text, C74_rust_refuted and C74_fall_refuted what happens around raw strings."
  },
  {
   "property": "C75",
   "status": "proved",
   "theorems": [
    "C75_edits",
    "C75_ranges",
    "C75_format",
    "C75_selection",
    "C75_ranges_refuted",
    "C75_format_refuted",
    "C75_everything_refuted"
   ],
   "note": "For ASCII documents; C75_ranges_refuted and C75_format_refuted show what happens in others. C75_everything_refuted: the command fails when everything is selected."
  },
  {
   "property": "C76",
   "status": "proved",
   "theorems": [
    "C76_split",
    "C76_all",
    "C76_one",
    "C76_legible",
    "C76_none_refuted",
    "C76_separator_refuted"
   ],
   "note": "For tests without the separator (C76_split: exactly then they arrive); C76_none_refuted and C76_separator_refuted show the others. Building and running the generated crate is taken to succeed."
  },
  {
   "property": "C77",
   "status": "proved",
   "theorems": [
    "C77_diff",
    "C77_equal_files",
    "C77_syntax",
    "C77_syntax_ws",
    "C77_file",
    "C77_rewrite",
    "C77_inline",
    "C77_cut_refuted",
    "C77_dashes_refuted"
   ],
   "note": "For records without dashes inside the tests; C77_cut_refuted and C77_dashes_refuted show what passes wrongly. Files are taken to be written as asked."
  },
  {
   "property": "C78",
   "status": "proved",
   "theorems": [
    "C78_generate",
    "C78_stopped",
    "C78_examples_stopped",
    "C78_own_name_refuted",
    "C78_half_refuted"
   ],
   "note": "Files are a map from paths to contents; a stop inside a write leaves a prefix. C78_own_name_refuted and C78_half_refuted show what is lost."
  },
  {
   "property": "C79",
   "status": "proved",
   "theorems": [
    "C79_render",
    "C79_recover",
    "C79_unchanged",
    "C79_threads",
    "C79_examples",
    "C79_trees",
    "C79_processes_refuted",
    "C79_poisoned_refuted",
    "C79_stuck_refuted"
   ],
   "note": "Cargo is taken to depend on the contents of the crate only. Recovery assumes that cut-off texts are UTF-8 (C79_stuck_refuted), threads that no test panics (C79_poisoned_refuted), and one process (C79_processes_refuted)."
  },
  {
   "property": "C80",
   "status": "proved",
   "theorems": [
    "C80_answers",
    "C80_wrap",
    "C80_panics"
   ],
   "note": "That the module compiles is a hypothesis (distinct constants and type names, class variants known and not cyclic); the case shows it for an example grammar."
  },
  {
   "property": "C81",
   "status": "proved",
   "theorems": [
    "C81_rust",
    "C81_bnf",
    "C81_fall",
    "C81_constants",
    "C81_errors_refuted",
    "C81_bnf_lists_refuted"
   ],
   "note": "C81_errors_refuted: the seven accessors do panic while a grammar is being typed. C81_bnf_lists_refuted: two lists of BNF are always empty."
  },
  {
   "property": "C82",
   "status": "proved",
   "theorems": [
    "C82_current",
    "C82_screen",
    "C82_with_errors_refuted",
    "C82_at_start_refuted"
   ],
   "note": "C82_with_errors_refuted: on a text with errors the old colours and problems stay. C82_at_start_refuted: nothing is drawn when the plugin starts."
  },
  {
   "property": "C83",
   "status": "proved",
   "theorems": [
    "C83_definition",
    "C83_references",
    "C83_symbols",
    "C83_actions",
    "C83_test",
    "C83_action_gone_refuted",
    "C83_other_editor_refuted",
    "C83_other_test_refuted",
    "C83_no_grammar_refuted",
    "C83_first_question_refuted"
   ],
   "note": "C83_action_gone_refuted, C83_other_editor_refuted, C83_other_test_refuted, C83_no_grammar_refuted and C83_first_question_refuted: what goes wrong when the text or the active editor is another one when the answer is used, or the active grammar has errors."
  },
  {
   "property": "C84",
   "status": "proved",
   "theorems": [
    "C84_text",
    "C84_text_debug",
    "C84_ranges",
    "C84_edits",
    "C84_edits_panic",
    "C84_apply",
    "C84_tree",
    "C84_node_text",
    "C84_tree_overflow",
    "C84_lex",
    "C84_relex",
    "C84_rust_start",
    "C84_big_text_refuted",
    "C84_big_insert_refuted",
    "C84_backwards_refuted"
   ],
   "note": "C84_big_text_refuted, C84_big_insert_refuted and C84_backwards_refuted: what happens at 4 GiB, and with a reversed range in a release build."
  },
  {
   "property": "C85",
   "status": "proved",
   "theorems": [
    "C85_session",
    "C85_untyped",
    "C85_drawn",
    "C85_foreign",
    "C85_space",
    "C85_dollar",
    "C85_other",
    "C85_bar",
    "C85_symbols",
    "C85_actions",
    "C85_workspace",
    "C85_typing_refuted",
    "C85_start_refuted",
    "C85_column_refuted",
    "C85_hidden_refuted"
   ],
   "note": "C85_typing_refuted, C85_start_refuted, C85_column_refuted and C85_hidden_refuted: a stale tree after pasting, the start of a file, columns of non-ASCII text, and types hidden by functions. What C85_session assumes of typed changes is what C22 to C25 and C72 discuss."
  },
  {
   "property": "C86",
   "status": "proved",
   "theorems": [
    "C86_same",
    "C86_determined",
    "C86_fall",
    "C86_history",
    "C86_cached",
    "C86_uncached",
    "C86_region_refuted"
   ],
   "note": "C86_region_refuted: the reported region is 0 after an error in the old text. The conditions of C86_fall are those of C73. Rust has a reused rule but no theorem like C73, so it is not covered."
  },
  {
   "property": "C87",
   "status": "proved",
   "theorems": [
    "C87_parse",
    "C87_reparse",
    "C87_harmless",
    "C87_get",
    "C87_asked",
    "C87_lines",
    "C87_report",
    "C87_latest_refuted"
   ],
   "note": "C87_latest_refuted: only the first highlighting of a file is reported. The clock is a parameter; the mutex is left out, as each lock covers one push or one search."
  },
  {
   "property": "C88",
   "status": "proved",
   "theorems": [
    "C88_drawn",
    "C88_edit",
    "C88_covers",
    "C88_late",
    "C88_reach_refuted",
    "C88_quoteless",
    "C88_normalize",
    "C88_test",
    "C88_detects",
    "C88_shipped",
    "C88_quotes_refuted",
    "C88_chars_refuted"
   ],
   "note": "C88_reach_refuted: two copies followed by an insertion are never drawn. C88_quotes_refuted and C88_chars_refuted: with a double quote in the text the test finds a wrong reparse, and outside ASCII an edit may cut a character and panic. What proptest draws is an argument."
  },
  {
   "property": "C89",
   "status": "proved",
   "theorems": [
    "C89_unmarked",
    "C89_fall",
    "C89_alternatives",
    "C89_extract",
    "C89_rust",
    "C89_braces",
    "C89_impl",
    "C89_shipped_fall",
    "C89_shipped_rust",
    "C89_circumflex_refuted"
   ],
   "note": "C89_circumflex_refuted: a circumflex of the text before the selection is taken for a marker. The messages of panics are not modelled."
  },
  {
   "property": "C90",
   "status": "proved",
   "theorems": [
    "C90_check",
    "C90_rewrite",
    "C90_then_check",
    "C90_order",
    "C90_unreadable",
    "C90_hidden_refuted",
    "C90_orphan_refuted"
   ],
   "note": "C90_hidden_refuted: a file called .rs has no extension and is skipped. C90_orphan_refuted: records without a source are not looked at. Reading the directory and writing are taken to succeed."
  },
  {
   "property": "C91",
   "status": "proved",
   "theorems": [
    "C91_search",
    "C91_found",
    "C91_compare",
    "C91_order",
    "C91_buffers",
    "C91_cut_refuted"
   ],
   "note": "C91_cut_refuted: a text that begins inside of a character has a length, but cannot be compared even with itself. Casts to u32 are those of C84."
  },
  {
   "property": "C92",
   "status": "proved",
   "theorems": [
    "C92_errors",
    "C92_verdict",
    "C92_clean",
    "C92_lines",
    "C92_ends",
    "C92_shipped",
    "C92_copied_refuted"
   ],
   "note": "C92_copied_refuted: the lines of an analysis that was asked something before may not be accepted. What the failed test prints is not modelled."
  },
  {
   "property": "C93",
   "status": "proved",
   "theorems": [
    "C93_lines",
    "C93_check",
    "C93_rewrite",
    "C93_all",
    "C93_then_check",
    "C93_literal_refuted"
   ],
   "note": "C93_literal_refuted: empty lines inside of string literals are not compared, and are lost by rewriting. What the failed test prints is not modelled."
  },
  {
   "property": "C94",
   "status": "proved",
   "theorems": [
    "C94_numbers",
    "C94_enough",
    "C94_seventeen_refuted"
   ],
   "note": "C94_seventeen_refuted: with a seventeenth parameter or context the generator reports nothing and the parser panics."
  }
 ]
}