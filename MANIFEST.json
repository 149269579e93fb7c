{
 "claims": [
  {
   "property": "C01",
   "status": "proved",
   "theorems": [
    "C01_parse_total",
    "C01_terminates"
   ],
   "note": "Totality and absence of panics for every query; the fuel of the model is proved irrelevant (C01_terminates)."
  },
  {
   "property": "C02",
   "status": "proved",
   "theorems": [
    "C02_depth_linear"
   ],
   "note": "Bound 50*(length+1) on nested rule calls of the generated parser."
  },
  {
   "property": "C03",
   "status": "proved",
   "theorems": [
    "C03_rule_implements",
    "C03_matches_function",
    "C03_same_rules"
   ],
   "note": "Each generated rule, started in any machine state, gives the outcome of the published rule in the declarative PEG semantics; that semantics is a total function on the grammar's rules."
  },
  {
   "property": "C04",
   "status": "proved",
   "theorems": [
    "C04_machine_refines",
    "C04_parse_from_matches"
   ],
   "note": "Refinement of the token-array machine for every PEG, and Parse computed from the declarative matches alone."
  },
  {
   "property": "C05",
   "status": "proved",
   "theorems": [
    "C05_accepts",
    "C05_rejects",
    "C05_tree"
   ],
   "note": "Acceptance iff a layout derivation with fitting integers; exact tree for json-free expressions; PESyntax iff no derivation."
  },
  {
   "property": "C06",
   "status": "proved",
   "theorems": [
    "C06_unambiguous"
   ],
   "note": "Unique reading of every text."
  },
  {
   "property": "C07",
   "status": "proved",
   "theorems": [
    "C07_outer",
    "C07_lead",
    "C07_operators",
    "C07_parens",
    "C07_commas"
   ],
   "note": "Outer blanks, blanks around operators, inside parentheses and around commas."
  },
  {
   "property": "C08",
   "status": "proved",
   "theorems": [
    "C08_chain",
    "C08_left_nested"
   ],
   "note": "Chains of any length; and nothing to the right of a logic operator is itself a chain."
  },
  {
   "property": "C09",
   "status": "proved",
   "theorems": [
    "C09_parens",
    "C09_groups",
    "C09_converse_refuted"
   ],
   "note": "Bracketing any parseable query; grouping of bracketed operands; the converse (a bracketed text parses => the inner text parses) is refuted."
  },
  {
   "property": "C10",
   "status": "proved",
   "theorems": [
    "C10_verbatim",
    "C10_ends"
   ],
   "note": "Verbatim content and end at the first matching quote."
  },
  {
   "property": "C11",
   "status": "proved",
   "theorems": [
    "C11_exact",
    "C11_leading_zero"
   ],
   "note": "Exact value up to 2^63-1, PERange above, leading zeros rejected."
  },
  {
   "property": "C12",
   "status": "proved",
   "theorems": [
    "C12_array",
    "C12_in",
    "C12_value"
   ],
   "note": "Array literals, in/not in lists, Value()."
  },
  {
   "property": "C13",
   "status": "proved",
   "theorems": [
    "C13_not_prefix",
    "C13_literal_prefix",
    "C13_literal_prefix_refuted",
    "C13_columns_refuted"
   ],
   "note": "'not' + identifier rune always rejected; literal word + identifier rune rejected unless an operator follows directly (unconditional form refuted by 'truein (1)'); usability of every column name refuted."
  },
  {
   "property": "C14",
   "status": "proved",
   "theorems": [
    "C14_compare",
    "C14_lg_refuted",
    "C14_gte_lte_refuted"
   ],
   "note": "Every reachable spelling maps to its canonical name (proved); for <>, gte, lte the claim is refuted for all operands."
  },
  {
   "property": "C15",
   "status": "proved",
   "theorems": [
    "C15_idempotent",
    "C15_exact",
    "C15_case",
    "C15_outer_blanks",
    "C15_inner_blanks",
    "C15_table",
    "C15_words"
   ],
   "note": "Idempotence under two stated facts about unicode.ToLower; case, inner and outer blanks; table of symbols."
  },
  {
   "property": "C16",
   "status": "proved",
   "theorems": [
    "C16_vocabulary",
    "C16_from_query",
    "C16_vocabulary_refuted"
   ],
   "note": "Holds for queries without comment markers; refuted in general; in general every operation is the normal form of an operator text of the query."
  },
  {
   "property": "C17",
   "status": "proved",
   "theorems": [
    "C17_stack_size",
    "C17_whole",
    "C17_json_refuted"
   ],
   "note": "Stack size formula for all queries, single tree for json-free ones; refuted for every -> path."
  },
  {
   "property": "C18",
   "status": "proved",
   "theorems": [
    "C18_build",
    "C18_string",
    "C18_reachable",
    "C18_safe",
    "C18_value"
   ],
   "note": "Every reachable node of every parse result (-> paths included) has exactly the fields of its type and non-nil sub-nodes; Value, Build and String never panic on such trees. For gormq see C34."
  },
  {
   "property": "C19",
   "status": "proved",
   "theorems": [
    "C19_span",
    "C19_farthest",
    "C19_unique"
   ],
   "note": "Span, farthest token of the run, line/column of both ends, no slice panic. The text of the error is in C66 and C71."
  },
  {
   "property": "C20",
   "status": "proved",
   "theorems": [
    "C20_roundtrip",
    "C20_injective",
    "C20_escape_refuted",
    "C20_nested_call_refuted",
    "C20_call_names_refuted",
    "C20_comment_refuted"
   ],
   "note": "Round trip for every json-free query whose tree is printable; each of the three conditions is shown necessary by a refutation (escapes: for every string that %q escapes). -> paths are outside the positive theorem: their trees are malformed (C17)."
  },
  {
   "property": "C21",
   "status": "proved",
   "theorems": [
    "C21_conjunction",
    "C21_all_blank",
    "C21_single",
    "C21_none",
    "C21_json_refuted"
   ],
   "note": "Lists of any length, blank entries skipped; entries without -> path (with one the claim is refuted)."
  },
  {
   "property": "C22",
   "status": "proved",
   "theorems": [
    "C22_escape_refuted",
    "C22_isolation_refuted"
   ],
   "note": "Refuted: for every guard p and all queries x, y the entry 'x) or (y' escapes the guard."
  },
  {
   "property": "C23",
   "status": "proved",
   "theorems": [
    "C23_classify",
    "C23_value"
   ],
   "note": "For every node reachable from any parse result."
  },
  {
   "property": "C24",
   "status": "proved",
   "theorems": [
    "C24_dispatch",
    "C24_function_refuted",
    "C24_reference_refuted",
    "C24_unused_hooks"
   ],
   "note": "Dispatch proved for all types but function (goes to BetweenExpression) and reference (error), where it is refuted; FunctionExpression and TerminateExpression are never used."
  },
  {
   "property": "C25",
   "status": "proved",
   "theorems": [
    "C25_init_refuted",
    "C25_init_no_effect",
    "C25_copy_defaults",
    "C25_copy_function_refuted"
   ],
   "note": "Refuted for every visitor and node whose hook is nil. Also what Init's discarded copy does."
  },
  {
   "property": "C26",
   "status": "proved",
   "theorems": [
    "C26_pieces",
    "C26_marks",
    "C26_comment_refuted"
   ],
   "note": "Text as a list of pieces with one ? per value, for all queries; no further ? in the text for queries without comment markers and quoting without ?; refuted in general by a comment holding ?."
  },
  {
   "property": "C27",
   "status": "proved",
   "theorems": [
    "C27_vocabulary",
    "C27_injection_refuted"
   ],
   "note": "Holds for queries without comment markers; refuted in general: any comment text of visible non-capital characters inside an operator reaches the SQL."
  },
  {
   "property": "C28",
   "status": "proved",
   "theorems": [
    "C28_literal_free"
   ],
   "note": "All pairs of queries with trees equal up to literals (also panics and errors agree)."
  },
  {
   "property": "C29",
   "status": "proved",
   "theorems": [
    "C29_all_or_nothing",
    "C29_joins_refuted"
   ],
   "note": "One Where or one error, never both; joins of a failing query stay (refutation)."
  },
  {
   "property": "C30",
   "status": "proved",
   "theorems": [
    "C30_columns",
    "C30_exact",
    "C30_empty_column_refuted"
   ],
   "note": "Columns of a wired query; a query is wired exactly when all its names resolve and its functions are date. That a resolved column is never empty is refuted (relation fields)."
  },
  {
   "property": "C31",
   "status": "proved",
   "theorems": [
    "C31_joins",
    "C31_once",
    "C31_order",
    "C31_two_queries_refuted"
   ],
   "note": "Joins are the relations of the query, each once, in order of first reference; per call only (refutation for two calls)."
  },
  {
   "property": "C32",
   "status": "proved",
   "theorems": [
    "C32_lookup",
    "C32_unique",
    "C32_unresolved"
   ],
   "note": "Lookup equals the inductive rule of precedence; the rule is functional; when it fails."
  },
  {
   "property": "C33",
   "status": "proved",
   "theorems": [
    "C33_text",
    "C33_regular",
    "C33_or_and_refuted"
   ],
   "note": "Text is the flat form of the expression; SQL reads it with the same grouping exactly when no 'and' has an unparenthesised 'or' to its left; semantic counterexample. -> paths excluded (their tree is malformed, C17)."
  },
  {
   "property": "C34",
   "status": "proved",
   "theorems": [
    "C34_no_panic",
    "C34_functions",
    "C34_nil_schema_refuted"
   ],
   "note": "No panic for all queries and db states whose relations have a schema (otherwise refuted); functions other than date fail."
  },
  {
   "property": "C35",
   "status": "proved",
   "theorems": [
    "C35_separated_refuted"
   ],
   "note": "Refuted for all argument lists: arguments are concatenated."
  },
  {
   "property": "C36",
   "status": "proved",
   "theorems": [
    "C36_conjunction",
    "C36_failure",
    "C36_blank",
    "C36_none",
    "C36_single"
   ],
   "note": "Conjunction of any list, first failing query decides, blank lists, none, single."
  },
  {
   "property": "C37",
   "status": "proved",
   "theorems": [
    "C37_predicate",
    "C37_nil",
    "C37_syntax",
    "C37_verdict",
    "C37_calls",
    "C37_no_panic_refuted"
   ],
   "note": "Exact: predicate, nil and syntax error by iff; call-free trees get the outcome of fate_of; calls below the top are never accepted. That it never panics is refuted."
  },
  {
   "property": "C38",
   "status": "proved",
   "theorems": [
    "C38_mirror",
    "C38_unique",
    "C38_meaning"
   ],
   "note": "Existence, shape and uniqueness of the predicate on the fragment, and its meaning on integers."
  },
  {
   "property": "C39",
   "status": "proved",
   "theorems": [
    "C39_negation_refuted",
    "C39_meaning_refuted"
   ],
   "note": "Refuted for every query: not (q) builds the predicate of q."
  },
  {
   "property": "C40",
   "status": "proved",
   "theorems": [
    "C40_entql_between",
    "C40_entql_not_between_refuted",
    "C40_entsql_between",
    "C40_entsql_not_between_refuted"
   ],
   "note": "Both backends: between proved, not between refuted, on integer operands."
  },
  {
   "property": "C41",
   "status": "proved",
   "theorems": [
    "C41_prefix",
    "C41_success"
   ],
   "note": "Prefix of predicates in order, outcome of the first failing query; success iff all succeed."
  },
  {
   "property": "C42",
   "status": "proved",
   "theorems": [
    "C42_pieces",
    "C42_success",
    "C42_arguments",
    "C42_marks",
    "C42_number"
   ],
   "note": "Exact pieces in both directions, arguments in order, number of placeholder characters (for quoting without that character)."
  },
  {
   "property": "C43",
   "status": "proved",
   "theorems": [
    "C43_vocabulary"
   ],
   "note": "Fixed vocabulary, identifiers of the query, and text of the edge library."
  },
  {
   "property": "C44",
   "status": "proved",
   "theorems": [
    "C44_no_text",
    "C44_recorded",
    "C44_reason",
    "C44_syntax",
    "C44_nested_refuted"
   ],
   "note": "No text for constructs outside edge conditions; error recorded anywhere; no other errors; refuted for the text inside an edge condition."
  },
  {
   "property": "C45",
   "status": "proved",
   "theorems": [
    "C45_no_panic",
    "C45_refuted"
   ],
   "note": "No panic without the listed hazards; refuted by date() and has_edge without node."
  },
  {
   "property": "C46",
   "status": "proved",
   "theorems": [
    "C46_repeat_refuted",
    "C46_twice"
   ],
   "note": "Refuted for every query with text; exact second result."
  },
  {
   "property": "C47",
   "status": "proved",
   "theorems": [
    "C47_format",
    "C47_disable",
    "C47_dialect"
   ],
   "note": "Formatter, effect of DisableTypeCasting on whole queries without null."
  },
  {
   "property": "C48",
   "status": "proved",
   "theorems": [
    "C48_lower_refuted",
    "C48_row_refuted"
   ],
   "note": "Refuted for all operands and bounds."
  },
  {
   "property": "C49",
   "status": "proved",
   "theorems": [
    "C49_twins",
    "C49_strings_refuted",
    "C49_predicates_refuted",
    "C49_between_refuted",
    "C49_parsed_refuted"
   ],
   "note": "Refuted: predicates lose operand and operator, between loses left operand and operator, literals are bare; for plain literals the trees with one text are characterised."
  },
  {
   "property": "C50",
   "status": "proved",
   "theorems": [
    "C50_sound",
    "C50_apply",
    "C50_complete",
    "C50_unique"
   ],
   "note": "Rendering relation per construct; sound, complete and functional."
  },
  {
   "property": "C51",
   "status": "proved",
   "theorems": [
    "C51_reuse",
    "C51_stale_refuted"
   ],
   "note": "Holds for queries that yield a predicate; refuted for function calls."
  },
  {
   "property": "C52",
   "status": "proved",
   "theorems": [
    "C52_external_refuted",
    "C52_edge_refuted"
   ],
   "note": "Refuted for all edge-free queries; edges split the text."
  },
  {
   "property": "C53",
   "status": "proved",
   "theorems": [
    "C53_text",
    "C53_regular",
    "C53_or_and_refuted",
    "C53_operand_refuted"
   ],
   "note": "Text is the flat form of the expression; meaning preserved for regular expressions; refutations for the others. -> paths excluded (C17)."
  },
  {
   "property": "C54",
   "status": "proved",
   "theorems": [
    "C54_date_refuted"
   ],
   "note": "Refuted for all argument lists."
  },
  {
   "property": "C55",
   "status": "proved",
   "theorems": [
    "C55_names"
   ],
   "note": "All nodes of all parsed trees."
  },
  {
   "property": "C56",
   "status": "proved",
   "theorems": [
    "C56_linear"
   ],
   "note": "Every query, accepted or not, every recursion limit of the model; explicit constant (31 million per rune, far from tight)."
  },
  {
   "property": "C57",
   "status": "proved",
   "theorems": [
    "C57_tokens",
    "C57_uint32"
   ],
   "note": "Failed runs included; the constant 17 is attained."
  },
  {
   "property": "C58",
   "status": "proved",
   "theorems": [
    "C58_tree"
   ],
   "note": "All parsed trees, -> paths included."
  },
  {
   "property": "C59",
   "status": "proved",
   "theorems": [
    "C59_gorm",
    "C59_entsql",
    "C59_entsql_refuted"
   ],
   "note": "gormq linear; entsql linear up to 2^nesting of between, and refuted with exact exponential growth."
  },
  {
   "property": "C60",
   "status": "proved",
   "theorems": [
    "C60_tree",
    "C60_unique",
    "C60_print",
    "C60_no_panic"
   ],
   "note": "All accepted queries (tree, print); printing total for all queries. Both forms of print."
  },
  {
   "property": "C61",
   "status": "proved",
   "theorems": [
    "C61_reuse",
    "C61_stale_refuted"
   ],
   "note": "Every leftover token array; refuted for printing after a rejected query."
  },
  {
   "property": "C62",
   "status": "proved",
   "theorems": [
    "C62_same",
    "C62_keywords",
    "C62_between_refuted",
    "C62_is_refuted",
    "C62_literal_refuted"
   ],
   "note": "Same tree for all spellings; every spelling exists but those of between and is; refutations for these and for literal words."
  },
  {
   "property": "C63",
   "status": "proved",
   "theorems": [
    "C63_tables",
    "C63_tables_refuted"
   ],
   "note": "All tables, queries without comment markers; refuted with a comment in an operator."
  },
  {
   "property": "C64",
   "status": "proved",
   "theorems": [
    "C64_parse",
    "C64_actions",
    "C64_stable",
    "C64_returned",
    "C64_one"
   ],
   "note": "Memory model with backing arrays and pointers refines the functional model, for all action sequences; stability of trees."
  },
  {
   "property": "C65",
   "status": "proved",
   "theorems": [
    "C65_total",
    "C65_decode",
    "C65_encode",
    "C65_valid",
    "C65_verbatim",
    "C65_literals",
    "C65_invalid_refuted",
    "C65_join"
   ],
   "note": "All byte sequences; refuted for literals of ill-formed queries."
  },
  {
   "property": "C66",
   "status": "proved",
   "theorems": [
    "C66_message",
    "C66_unique",
    "C66_when",
    "C66_literal",
    "C66_lines",
    "C66_late_refuted"
   ],
   "note": "All rejected queries; the message is determined by the specification; refuted for late calls."
  },
  {
   "property": "C67",
   "status": "proved",
   "theorems": [
    "C67_text",
    "C67_total",
    "C67_nodes",
    "C67_unique"
   ],
   "note": "All nodes of all parsed queries; the text is unique."
  },
  {
   "property": "C68",
   "status": "proved",
   "theorems": [
    "C68_first",
    "C68_effect",
    "C68_unique"
   ],
   "note": "Exactly the first fault; effect on the database. For schemas without nil related schemas (else C34)."
  },
  {
   "property": "C69",
   "status": "proved",
   "theorems": [
    "C69_last",
    "C69_only",
    "C69_kept",
    "C69_unique"
   ],
   "note": "For all queries on which Query does not panic (C45); exactly one error without has_edge, the last one with it."
  },
  {
   "property": "C70",
   "status": "proved",
   "theorems": [
    "C70_first",
    "C70_unique"
   ],
   "note": "For all queries on which BuildEntQL does not panic (C37)."
  },
  {
   "property": "C71",
   "status": "proved",
   "theorems": [
    "C71_parse",
    "C71_gorm",
    "C71_entql",
    "C71_apply",
    "C71_entsql",
    "C71_unique",
    "C71_told_apart",
    "C71_names",
    "C71_controls"
   ],
   "note": "The error of gorm's Statement.Parse is not the code's; lower-casing is assumed to yield 32-bit runes. Texts of entsql errors that quote a node are not injective (C49)."
  },
  {
   "property": "C72",
   "status": "proved",
   "theorems": [
    "C72_returned",
    "C72_in_place",
    "C72_new",
    "C72_success",
    "C72_fault",
    "C72_syntax",
    "C72_model",
    "C72_stays",
    "C72_shared_refuted"
   ],
   "note": "Exact: when the handle given is changed and when not; the plain claim is refuted (C72_shared_refuted). getInstance, AddError, Joins and Where of gorm are transcribed, not verified."
  },
  {
   "property": "C73",
   "status": "proved",
   "theorems": [
    "C73_means",
    "C73_unique",
    "C73_quotes",
    "C73_loose_refuted"
   ],
   "note": "From the text to the meaning, by an independent lexer, binder and precedence reader. How the dialect reads quoted names is a parameter with stated requirements; C73_quotes discharges them for gorm's part-by-part quoting. Refuted without the restriction on 'and' (C73_loose_refuted)."
  },
  {
   "property": "C74",
   "status": "proved",
   "theorems": [
    "C74_means",
    "C74_unique",
    "C74_quotes",
    "C74_not_between_refuted",
    "C74_empty_refuted"
   ],
   "note": "Same reader as C73, with casts and numbered placeholders. How Ident's output is read back is a parameter with stated requirements; C74_quotes discharges them for quoting after any conversion of names. Two restrictions are shown necessary (C74_not_between_refuted, C74_empty_refuted)."
  },
  {
   "property": "C75",
   "status": "proved",
   "theorems": [
    "C75_means",
    "C75_agree",
    "C75_not_refuted"
   ],
   "note": "C75_means also shows that a predicate is built. C75_agree compares the two conditions as read by the database with the predicate tree. Negation is refuted (C75_not_refuted)."
  },
  {
   "property": "C76",
   "status": "proved",
   "theorems": [
    "C76_means",
    "C76_clauses",
    "C76_exact"
   ],
   "note": "Same reader as C73. C76_clauses gives the flat description of db_means, C76_exact says where it is the meaning of the query (the only-if direction uses the world of uninterpreted conditions)."
  },
  {
   "property": "C77",
   "status": "proved",
   "theorems": [
    "C77_means",
    "C77_exact",
    "C77_covers"
   ],
   "note": "Same reader as C74, without any assumption on the interpretation. C77_exact: the only-if direction uses a lawful world in which values are lists of conditions. C77_covers: the queries of C74 are included."
  },
  {
   "property": "C78",
   "status": "proved",
   "theorems": [
    "C78_scope",
    "C78_narrow",
    "C78_escape"
   ],
   "note": "Joins C21 (how Join is parsed) with C76. Narrowing (C78_narrow) holds for every notion of truth for which a true 'and' has two true sides. That entries which are no queries are kept apart is false of the code: C78_escape and C78_ex_escape."
  },
  {
   "property": "C79",
   "status": "proved",
   "theorems": [
    "C79_query",
    "C79_where",
    "C79_guard",
    "C79_unmarked",
    "C79_empty_refuted"
   ],
   "note": "gorm's clause builder is modelled in GormSQL.v after gorm v1.31.1, whose source is not in the repository. That arrays may be empty is false: C79_empty_refuted."
  },
  {
   "property": "C80",
   "status": "proved",
   "theorems": [
    "C80_query",
    "C80_where",
    "C80_guard",
    "C80_after",
    "C80_before",
    "C80_exact",
    "C80_parens",
    "C80_guard_refuted"
   ],
   "note": "And, mayWrap, Where and Join of ent are modelled in EntWhere.v after ent v0.14.5, whose source is not in the repository. That the clause is the 'and' of the conditions and the query is false for queries with a top-level 'or': C80_exact, C80_guard_refuted."
  },
  {
   "property": "C81",
   "status": "proved",
   "theorems": [
    "C81_calls",
    "C81_covers",
    "C81_determined",
    "C81_numbers",
    "C81_parse",
    "C81_queries",
    "C81_twice",
    "C81_whole_refuted",
    "C81_stale_refuted"
   ],
   "note": "Calls before Init, Init with options, and what holds after a recovered panic are not modelled. That Parse with a rule reads the whole text, and that Execute runs only what the last Parse matched, are refuted: C81_whole_refuted, C81_stale_refuted."
  },
  {
   "property": "C82",
   "status": "proved",
   "theorems": [
    "C82_same",
    "C82_errors",
    "C82_types_refuted",
    "C82_null_refuted"
   ],
   "note": "Ident and the text of the edge predicates are arbitrary functions of the names. That types and null do not show either is refuted: C82_types_refuted, C82_null_refuted."
  },
  {
   "property": "C83",
   "status": "proved",
   "theorems": [
    "C83_image",
    "C83_parts",
    "C83_json_refuted"
   ],
   "note": "For queries without a JSON path; C83_json_refuted shows that the grammar of trees does not cover the others. Names of operators are given through op_name (C15, C16), since comments between the words of an operator become part of the name."
  },
  {
   "property": "C84",
   "status": "proved",
   "theorems": [
    "C84_template",
    "C84_delivered",
    "C84_gorm",
    "C84_entsql",
    "C84_entql",
    "C84_quote_refuted",
    "C84_comment_refuted"
   ],
   "note": "Holes are for the contents of string literals. C84_delivered is for queries without a JSON path, since such a path can leave operands outside of the tree (C83). C84_quote_refuted and C84_comment_refuted show that the two conditions on a hole are needed."
  },
  {
   "property": "C85",
   "status": "proved",
   "theorems": [
    "C85_reads",
    "C85_parse",
    "C85_means",
    "C85_gorm",
    "C85_entsql",
    "C85_operand_refuted",
    "C85_clash_refuted",
    "C85_foreign_refuted"
   ],
   "note": "C85_reads is about the text; C85_parse gives the tree, for queries without a JSON path; C85_means, C85_gorm and C85_entsql the meaning. The conditions on what may be put where are needed: C85_operand_refuted, C85_clash_refuted, C85_foreign_refuted."
  },
  {
   "property": "C86",
   "status": "proved",
   "theorems": [
    "C86_accepts",
    "C86_means",
    "C86_exact",
    "C86_comment_refuted",
    "C86_apply",
    "C86_join",
    "C86_same",
    "C86_escape"
   ],
   "note": "C86_accepts and C86_means cover every query without a JSON path; C86_exact says when this is the meaning of the query. A comment inside the operator 'not between' makes it 'between' (C86_comment_refuted)."
  },
  {
   "property": "C87",
   "status": "proved",
   "theorems": [
    "C87_join",
    "C87_guard",
    "C87_escape",
    "C87_single_refuted"
   ],
   "note": "C87_join and C87_guard; the two ways out are C87_escape and C87_single_refuted."
  },
  {
   "property": "C88",
   "status": "proved",
   "theorems": [
    "C88_home",
    "C88_exact",
    "C88_fresh",
    "C88_ambiguous_refuted",
    "C88_twice_refuted"
   ],
   "note": "C88_home, and C88_exact as an equivalence; that it can fail is C88_ambiguous_refuted and C88_twice_refuted."
  },
  {
   "property": "C89",
   "status": "proved",
   "theorems": [
    "C89_lookup",
    "C89_grown",
    "C89_exact",
    "C89_capture_refuted"
   ],
   "note": "C89_grown and, as an equivalence, C89_lookup and C89_exact; C89_capture_refuted shows a query that changes its meaning."
  },
  {
   "property": "C90",
   "status": "proved",
   "theorems": [
    "C90_edge",
    "C90_neighbour",
    "C90_neighbour_refuted"
   ],
   "note": "C90_edge for every condition without has_edge inside, C90_neighbour without top-level or; that it fails with one is C90_neighbour_refuted. That the edge library of ent writes its own condition first, followed by AND, is a hypothesis on the edge text."
  },
  {
   "property": "C91",
   "status": "proved",
   "theorems": [
    "C91_same",
    "C91_plain",
    "C91_spellings",
    "C91_comment_refuted",
    "C91_json_refuted"
   ],
   "note": "C91_same as an equivalence, C91_spellings for operators; what it excludes is needed: C91_comment_refuted, C91_json_refuted."
  },
  {
   "property": "C92",
   "status": "proved",
   "theorems": [
    "C92_balanced",
    "C92_parentheses",
    "C92_entries",
    "C92_joined",
    "C92_listing_refuted"
   ],
   "note": "C92_balanced, C92_parentheses; for Join C92_entries (the exact condition under which C22 holds) and C92_joined. That entries may also be lists of literals is C92_listing_refuted."
  },
  {
   "property": "C93",
   "status": "proved",
   "theorems": [
    "C93_lines",
    "C93_readable",
    "C93_parsed",
    "C93_postorder"
   ],
   "note": "C93_lines with C93_readable, C93_parsed, C93_postorder. Standard output is the text that is returned."
  },
  {
   "property": "C94",
   "status": "proved",
   "theorems": [
    "C94_means",
    "C94_unique",
    "C94_wanted",
    "C94_exact",
    "C94_or_refuted"
   ],
   "note": "C94_means with C94_unique, C94_wanted, C94_exact (exactly the queries without the listed constructs); C94_or_refuted. The text of an edge up to its condition is one word, given by the library; what it selects is a parameter of the meaning."
  },
  {
   "property": "C95",
   "status": "proved",
   "theorems": [
    "C95_local",
    "C95_home_refuted"
   ],
   "note": "C95_local; C95_home_refuted. The library's text is as in C94; which column a name is, is the usual rule of SQL, as a hypothesis on the rows."
  },
  {
   "property": "C96",
   "status": "proved",
   "theorems": [
    "C96_session",
    "C96_steady",
    "C96_rescued_refuted",
    "C96_new",
    "C96_size",
    "C96_bounded_refuted",
    "C96_same"
   ],
   "note": "C96_session with C96_steady, C96_new, C96_size, C96_same; C96_rescued_refuted, C96_bounded_refuted. Only the size in the log record is modelled."
  },
  {
   "property": "C97",
   "status": "proved",
   "theorems": [
    "C97_last",
    "C97_column",
    "C97_misbuilt",
    "C97_lost",
    "C97_entql",
    "C97_entsql",
    "C97_gorm_refuted"
   ],
   "note": "The wish is refuted (C97_gorm_refuted, C97_lost); what happens instead is proved for all queries: C97_last, C97_column, C97_misbuilt, C97_entql, C97_entsql."
  },
  {
   "property": "C98",
   "status": "proved",
   "theorems": [
    "C98_unread",
    "C98_where",
    "C98_last"
   ],
   "note": "C98_unread: the token sequence has a name directly before a name, a parenthesis, or not with such behind it, and the reader of SqlSpec accepts no such sequence. (Some dialects read a quoted name before a parenthesis as a function call; in these conditions another name or an operator without a left operand stands before it.) C98_where: the same for the clause as a whole. C98_last for the others."
  },
  {
   "property": "C99",
   "status": "proved",
   "theorems": [
    "C99_rule",
    "C99_machine",
    "C99_machine_only",
    "C99_parse",
    "C99_parse_only",
    "C99_names"
   ],
   "note": "GoRules.v is written by tools/go2v.py from the Go file, one statement for each; GoStmt.v says what the statements do. C99_rule: every buffer and state, panics included. C99_parse and C99_parse_only: the whole of Parse."
  },
  {
   "property": "C100",
   "status": "proved",
   "theorems": [
    "C100_file",
    "C100_rule",
    "C100_actions"
   ],
   "note": "PegText.v is the text of the file; PegRead.v reads it. C100_file for Parse, C100_rule for single rules, C100_actions for the actions."
  },
  {
   "property": "C101",
   "status": "proved",
   "theorems": [
    "C101_methods",
    "C101_stack",
    "C101_normalize",
    "C101_parse",
    "C101_parse_only"
   ],
   "note": "GoxMini.v is written by tools/gofunc2v.py from the Go files; Gox.v says what the statements do. C101_methods: the 19 methods the grammar calls; C101_stack, C101_normalize: the functions these call; C101_parse, C101_parse_only: the whole of Parse. AddFloat is translated, but nothing calls it and strconv.ParseFloat is not modelled."
  },
  {
   "property": "C102",
   "status": "proved",
   "theorems": [
    "C102_value",
    "C102_is",
    "C102_string",
    "C102_build",
    "C102_pretty",
    "C102_join",
    "C102_nil"
   ],
   "note": "Over the same interpreter as C101. The fuel needed is given as a bound in the height of the node (ndepth), so no run is endless; C102_nil: a nil node panics. is_print (strconv.IsPrint) and fmt_float (fmt of a float64) are arbitrary."
  },
  {
   "property": "C103",
   "status": "proved",
   "theorems": [
    "C103_visit",
    "C103_nil",
    "C103_normalize",
    "C103_wire"
   ],
   "note": "Over the interpreter of C101. The four function literals WireMiniQuery puts into the queryBuilder (addValue, mapName, quote, join) and getDBName, GetOrParseSchema are not run statement by statement: they are the definitions of Gorm.v. strings.EqualFold and QuoteTo are arbitrary. C103_wire assumes a query that parses and a schema that was found; the other cases of WireMiniQuery are treated on Gorm.v, in C29, C34 and C36."
  },
  {
   "property": "C104",
   "status": "proved",
   "theorems": [
    "C104_stack",
    "C104_visit",
    "C104_nil",
    "C104_build"
   ],
   "note": "Over the interpreter of C101. miniquery.Parse is the model's (C101 relates that one to its statements); of entgo.io/ent/entql the constructors of EntQL.v are taken, slog writes nothing that matters. BuildEntQL and ApplyEntQL, which make a builder and loop over queries, are only in EntQL.v."
  }
 ]
}