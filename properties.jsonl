{"id": "C01", "title": "Parse is total", "statement": "For every query string, miniquery.Parse returns in finitely many steps, does not panic (no out-of-range read of the rune buffer, no out-of-range slice of the stack or mark stack), and returns either a non-nil node and a nil error, or a nil node and a non-nil error.", "quantifier": "all finite rune sequences (any length, any nesting)", "why_tests_cant": "Inputs are unbounded; a test only samples strings and cannot exclude a looping or panicking one.", "anchors": ["miniquery/parse.go: Parse", "miniquery/miniquery.peg.go: Init, Parse, Execute", "miniquery/tree.go: Pop, PopMark, popMarked"]}
{"id": "C02", "title": "Recursion depth is linear in the input", "statement": "The depth of nested rule calls made by Parse is bounded by a constant times (length of the query + 1): no input makes the parser recurse without consuming input.", "quantifier": "all query strings", "why_tests_cant": "A stack blow-up shows only on adversarial inputs of unbounded size.", "anchors": ["miniquery/miniquery.peg.go: _rules", "miniquery/miniquery.peg"]}
{"id": "C03", "title": "Generated parser implements the published grammar", "statement": "For every input and every grammar rule, the checked-in generated parser (with its switch-optimised alternatives) accepts the same prefix and records the same actions as the ordered-choice grammar in miniquery.peg.", "quantifier": "all rules, all inputs", "why_tests_cant": "The optimiser reorders alternatives; equality must hold for every input rune sequence.", "anchors": ["miniquery/miniquery.peg", "miniquery/miniquery.peg.go: _rules"]}
{"id": "C04", "title": "Abandoned alternatives leave no trace", "statement": "The semantic actions Execute runs are exactly those of the alternatives that matched, in input order: tokens written while trying an alternative that was later abandoned are never executed and never change a captured text.", "quantifier": "all inputs, all backtracking histories of the parser", "why_tests_cant": "Backtracking histories are unbounded; the token buffer is overwritten in place.", "anchors": ["miniquery/miniquery.peg.go: add, tokens32.Add, Trim, Execute"]}
{"id": "C05", "title": "Accepted language and tree", "statement": "Parse(q) succeeds exactly when q, read completely from first to last rune, is a layout of some expression of the documented grammar whose integers fit in an int; and (when no -> path is used) the returned tree is the tree of that expression. No trailing or leading rune is ignored.", "quantifier": "all query strings, all expressions", "why_tests_cant": "It is an equivalence between an infinite set of strings and an infinite set of trees.", "anchors": ["miniquery/parse.go: Parse", "miniquery/miniquery.peg: Grammar"]}
{"id": "C06", "title": "No ambiguity", "statement": "A query has at most one reading: two expressions that both describe the same query text are the same expression.", "quantifier": "all query strings, all pairs of expressions", "why_tests_cant": "Quantifies over all pairs of derivations.", "anchors": ["miniquery/miniquery.peg"]}
{"id": "C07", "title": "Layout does not matter", "statement": "Blanks and closed comments before, after and between the tokens of a query do not change the tree: Parse(w+q+w') = Parse(q) for every blank text w, w', and the blanks around a binary logic or comparison operator, after '(' , before ')' and around ',' can be replaced by any other blanks.", "quantifier": "all queries and all blank texts", "why_tests_cant": "Infinite family of layouts.", "anchors": ["miniquery/miniquery.peg: _, __, SpaceComment, Comment"]}
{"id": "C08", "title": "Logic chains are left-associative with equal precedence", "statement": "A chain e0 op1 e1 ... opn en of and/or (&&, ||) over operands that are not themselves logic chains parses to (((e0 op1 e1) op2 e2) ... opn en): and does not bind tighter than or.", "quantifier": "all operands, all operators, all chain lengths", "why_tests_cant": "Unbounded chain length.", "anchors": ["miniquery/miniquery.peg: LogicExpression", "miniquery/tree.go: PopLogic"]}
{"id": "C09", "title": "Parentheses group", "statement": "For every query q that parses to n, '(' q ')' parses to a parentheses node around n; two bracketed queries combined by a logic or comparison operator parse to that operation on the two bracketed trees, whatever is inside. (The converse, that q parses whenever '(' q ')' does, is violated.)", "quantifier": "all parseable queries", "why_tests_cant": "All queries.", "anchors": ["miniquery/miniquery.peg: PrimaryExpression", "miniquery/tree.go: PopParentheses"]}
{"id": "C10", "title": "String literals are verbatim", "statement": "For every text s without a single quote, Parse(\"'\"+s+\"'\") is a string value equal to s rune for rune (backslashes, newlines, comment markers and keywords included), and likewise for double quotes; a literal ends at the first matching quote.", "quantifier": "all rune sequences without the quote", "why_tests_cant": "Unbounded set of contents, all Unicode.", "anchors": ["miniquery/miniquery.peg: String", "miniquery/tree.go: AddString"]}
{"id": "C11", "title": "Integer literals are exact or rejected", "statement": "A decimal literal without leading zeros parses to exactly the integer it denotes when that is at most 2^63-1 and makes Parse return an error otherwise; it is never truncated or wrapped.", "quantifier": "all digit strings", "why_tests_cant": "Values near and beyond the 64-bit limit, all lengths.", "anchors": ["miniquery/tree.go: AddInteger", "miniquery/parse.go: Parse"]}
{"id": "C12", "title": "Array literals keep elements and order", "statement": "[l1,...,ln] and, after in / not in, (l1,...,ln), with optional trailing comma, yields an array value whose elements are exactly the literals in order; Value() returns their Go values in order.", "quantifier": "all literal lists", "why_tests_cant": "Unbounded lengths.", "anchors": ["miniquery/miniquery.peg: Array", "miniquery/tree.go: PopArray, popMarked", "miniquery/node.go: Value"]}
{"id": "C13", "title": "Identifiers beginning with not, true, false, null cannot be used", "statement": "Every query that begins with an identifier starting (in any letter case) with 'not' followed by an identifier rune, is rejected; a query that begins with an identifier starting with true/false/null/TRUE/FALSE/NULL followed by an identifier rune is rejected unless an operator follows the word directly (as in 'truein (1)'). (A user relies on every schema column being usable: that expectation is refuted.)", "quantifier": "all identifiers, all continuations of the query", "why_tests_cant": "All column names.", "anchors": ["miniquery/miniquery.peg: Identifier, Boolean, Null"]}
{"id": "C14", "title": "Every documented comparison operator is usable", "statement": "Each spelling listed in the grammar's Compare rule (>=, <=, ==, !=, >, <, <>, =, gt, lt, gte, lte, eq, neq, like, not like) compares its two operands and maps to its canonical operation. The spellings <>, gte and lte violate this for every right operand that is a value.", "quantifier": "all operands, all spellings", "why_tests_cant": "All operand texts; ordered-choice shadowing is invisible to example tests.", "anchors": ["miniquery/miniquery.peg: Compare", "miniquery/tree.go: AddCompare, NormalizeOperation"]}
{"id": "C15", "title": "Operator normalisation is canonical", "statement": "NormalizeOperation is idempotent, insensitive to ASCII letter case and to the amount and kind of inner and outer blanks, and maps the symbolic spellings to the same canonical name as the words.", "quantifier": "all strings", "why_tests_cant": "All strings and all Unicode case mappings.", "anchors": ["miniquery/tree.go: NormalizeOperation, normalize"]}
{"id": "C16", "title": "Operations in a parsed tree come from a closed vocabulary", "statement": "Every Operation text in the tree returned by Parse is one of the fixed canonical operation names. (Violated when a comment sits inside a multi-word operator; holds for every query without comment markers.)", "quantifier": "all queries, all operation nodes of the tree", "why_tests_cant": "All queries; depends on captured text containing layout.", "anchors": ["miniquery/tree.go: AddOperation, AddCompare, AddMatch", "miniquery/miniquery.peg: Match, Compare, BetweenExpression, CompareInExpression"]}
{"id": "C17", "title": "Parse uses the whole expression", "statement": "The tree returned by Parse represents the whole query: the parser stack holds exactly one node at the end. (Violated by every -> path; holds for every query without one.)", "quantifier": "all queries", "why_tests_cant": "All nestings of -> in all contexts.", "anchors": ["miniquery/miniquery.peg: JsonReference", "miniquery/tree.go", "miniquery/parse.go: Parse"]}
{"id": "C18", "title": "Parsed trees are structurally safe", "statement": "Every node reachable from a Parse result has the sub-nodes its Type documents (non-nil Left/Op/Right, two Params for between, non-nil Expression, non-nil array elements and function parameters), so Build, String, Value and gormq's visit never dereference nil or index out of range on it.", "quantifier": "all query strings (including -> paths), all reachable nodes", "why_tests_cant": "All trees.", "anchors": ["miniquery/node.go: Node, Build, String, Value", "miniquery/tree.go"]}
{"id": "C19", "title": "Syntax error positions are real", "statement": "When Parse returns a syntax error, the reported token span lies inside the query, its reported line/symbol pairs are the true line (1 + newlines up to and including the position) and column of its ends, the farthest matched position is reported, and formatting the error does not panic.", "quantifier": "all rejected queries", "why_tests_cant": "All inputs including empty and multi-line ones.", "anchors": ["miniquery/miniquery.peg.go: parseError.Error, translatePositions, add"]}
{"id": "C20", "title": "Build then Parse round-trips", "statement": "For every query q that parses to n, Parse(Build(n)) succeeds and equals n. (Violated by function calls below the root, by strings that %q escapes, and by operators with inner comments; holds for all other trees.)", "quantifier": "all parse results", "why_tests_cant": "All trees.", "anchors": ["miniquery/node.go: Build, buildValue, printPretty", "miniquery/parse.go: Parse"]}
{"id": "C21", "title": "Join is conjunction", "statement": "If every query in a list parses, Parse(Join(list)) is the left-nested 'and' chain of the parenthesised individual trees (blank ones skipped, a single one unchanged, none gives \"\"). (Refuted for entries with a -> path, see C97; proved for all others.)", "quantifier": "all lists of parseable queries", "why_tests_cant": "Unbounded lists of unbounded queries.", "anchors": ["miniquery/join.go: Join"]}
{"id": "C22", "title": "Join isolates its inputs", "statement": "A malformed query in the list handed to Join can not change how another entry is combined: if Parse(Join(list)) succeeds then each entry parses on its own. (Violated.)", "quantifier": "all lists of strings", "why_tests_cant": "Adversarial inputs.", "anchors": ["miniquery/join.go: Join"]}
{"id": "C23", "title": "Node.Value, IsValue and IsExpression classify correctly", "statement": "On every parse result, IsValue holds exactly for value nodes, IsExpression exactly for nodes that are neither value, operation, identifier nor reference, and Value returns the Go value of the literal.", "quantifier": "all parse results", "why_tests_cant": "All trees.", "anchors": ["miniquery/node.go: Value, IsValue, IsExpression"]}
{"id": "C24", "title": "Visitor dispatches to the hook of the node's type", "statement": "Visit calls exactly the hook documented for the node's type. (Violated for function nodes, which go to BetweenExpression, and for reference nodes, which are an error.)", "quantifier": "all visitors, all nodes", "why_tests_cant": "All hook combinations and nodes.", "anchors": ["miniquery/visitor.go: Visit"]}
{"id": "C25", "title": "Visitor.Init installs defaults", "statement": "After v.Init(), visiting a node whose hook was left nil performs the default traversal instead of failing. (Violated: Init has a value receiver, so it changes nothing and Visit panics.)", "quantifier": "all visitors, all nodes", "why_tests_cant": "All hook combinations.", "anchors": ["miniquery/visitor.go: Init"]}
{"id": "C26", "title": "gormq: one placeholder per bound value, in order", "statement": "In the SQL condition gormq hands to gorm, the placeholders stand, left to right, for exactly the literal values of the query left to right (an array is one value), and no literal's content appears in the SQL text. (Violated by a comment with ? inside an operator; holds for queries without comment markers.)", "quantifier": "all parsed queries, all schemas with column names free of '?'", "why_tests_cant": "All queries.", "anchors": ["gormq/miniquery.go: visit, addValue"]}
{"id": "C27", "title": "gormq: SQL text is built only from a fixed vocabulary and schema columns", "statement": "Apart from quoted column names resolved through the schema, every piece of the SQL text comes from a fixed finite vocabulary. (Violated by comments inside multi-word operators, whose text is copied to the SQL; holds for queries without comment markers.)", "quantifier": "all queries, all schemas", "why_tests_cant": "SQL injection is a for-all claim.", "anchors": ["gormq/miniquery.go: visit, normalizeSQL", "miniquery/tree.go: NormalizeOperation"]}
{"id": "C28", "title": "gormq: literals do not influence the SQL text", "statement": "Two queries whose trees differ only in literal values produce the same SQL text, the same joins and the same success or failure.", "quantifier": "all pairs of trees equal up to literal values", "why_tests_cant": "Relational property over pairs of inputs.", "anchors": ["gormq/miniquery.go: visit"]}
{"id": "C29", "title": "gormq: all or nothing", "statement": "WireMiniQuery either adds exactly one Where condition and no error, or adds exactly one error and no Where condition; with the empty query it changes nothing.", "quantifier": "all queries, all db states, all schemas", "why_tests_cant": "All failure points inside a query.", "anchors": ["gormq/miniquery.go: WireMiniQuery"]}
{"id": "C30", "title": "gormq: only known fields reach SQL", "statement": "Every identifier in a successfully wired query resolves to a field of the model, every a.b reference to a relation of the model and a field of its schema, and what is quoted is that field's database column; an unresolved name makes the whole query fail.", "quantifier": "all queries, all schemas", "why_tests_cant": "All names and schemas.", "anchors": ["gormq/miniquery.go: visitIdentifier, visitReference, getDBName, WireMiniQuery"]}
{"id": "C31", "title": "gormq: relations are joined exactly once and only when referenced", "statement": "A successfully wired query joins exactly the relations it references, each once, in order of first reference, however often it is referenced.", "quantifier": "all queries, all schemas", "why_tests_cant": "All multiplicities and orders.", "anchors": ["gormq/miniquery.go: WireMiniQuery.join"]}
{"id": "C32", "title": "gormq: field lookup precedence", "statement": "A name resolves to an exact database column first, then to an exact field name, then to the first field in declaration order whose name matches case-insensitively; otherwise it is unresolved.", "quantifier": "all schemas, all names", "why_tests_cant": "All schemas.", "anchors": ["gormq/miniquery.go: getDBName"]}
{"id": "C33", "title": "gormq: SQL grouping equals the tree's grouping", "statement": "Read with SQL precedence (not over and over or), the emitted condition has the grouping of the parsed tree. (Violated by 'a or b and c'; holds when no 'and' has an unparenthesised 'or' as an operand.)", "quantifier": "all parsed queries", "why_tests_cant": "Semantic equivalence over all trees.", "anchors": ["gormq/miniquery.go: visit", "miniquery/miniquery.peg: LogicExpression"]}
{"id": "C34", "title": "gormq never panics and rejects unknown functions", "statement": "For every query, and every schema whose relations have a schema of their own, WireMiniQuery does not panic (refuted for other schemas); any function other than date makes it fail.", "quantifier": "all queries, all schemas", "why_tests_cant": "All queries.", "anchors": ["gormq/miniquery.go: visit, visitFunction"]}
{"id": "C35", "title": "gormq: function arguments stay separated", "statement": "The arguments of a function call are separated in the emitted SQL. (Violated: date(a,b) concatenates them.)", "quantifier": "all argument lists", "why_tests_cant": "All lengths.", "anchors": ["gormq/miniquery.go: visitFunction"]}
{"id": "C36", "title": "MiniQuery scope equals the conjunction", "statement": "MiniQuery{Query: qs}.Scope adds one condition whose tree is the conjunction of the given queries (if none of them has a -> path), or leaves db unchanged when all of several (or none) are blank.", "quantifier": "all lists of parseable queries", "why_tests_cant": "Unbounded lists.", "anchors": ["gormq/miniquery.go: Scope", "miniquery/join.go"]}
{"id": "C37", "title": "entql: exact panic and result classification", "statement": "For every query BuildEntQL behaves as one of: nil predicate, predicate, error, panic; for queries without function calls a simple rule on the tree decides which; a query with function calls below the top is never accepted, and panics if nothing else is wrong with it. In particular the expectation that it never panics is violated.", "quantifier": "all queries", "why_tests_cant": "All trees.", "anchors": ["entmq/entql.go: Build, visit"]}
{"id": "C38", "title": "entql: translation mirrors the tree", "statement": "On trees built from identifiers, values, parentheses, supported comparisons, and/or, the predicate is the same tree with parentheses removed, operands in order.", "quantifier": "all trees of the fragment", "why_tests_cant": "All trees.", "anchors": ["entmq/entql.go: visit, entqlOpMap"]}
{"id": "C39", "title": "entql: not negates", "statement": "The predicate built for 'not e' is the negation of the predicate built for e. (Violated: the negation is dropped on every success.)", "quantifier": "all operands e", "why_tests_cant": "All operands.", "anchors": ["entmq/entql.go: visit"]}
{"id": "C40", "title": "between and not between mean what they say", "statement": "On integers, in both ent backends 'x between a and b' holds exactly for a <= x <= b, and 'x not between a and b' exactly for x < a or x > b. (The second is violated: the built condition is x < a and x > b, false whenever a <= b.)", "quantifier": "all values", "why_tests_cant": "All integers.", "anchors": ["entmq/entql.go: visit", "entmq/entsql.go: visit"]}
{"id": "C41", "title": "ApplyEntQL applies a prefix", "statement": "ApplyEntQL adds the predicates of the queries in order and stops at the first failing one, returning its error; on success one Where per query.", "quantifier": "all query lists", "why_tests_cant": "Unbounded lists.", "anchors": ["entmq/entql.go: ApplyEntQL"]}
{"id": "C42", "title": "entsql: arguments match placeholders", "statement": "In the SQL returned by Query on a fresh builder the i-th placeholder stands for the i-th returned argument, the arguments are the query's literal values in order (between's left operand counted twice, null array elements inlined as NULL); on postgres placeholders are numbered $1..$n without gap.", "quantifier": "all queries", "why_tests_cant": "All queries.", "anchors": ["entmq/entsql.go: visit, Query", "entmq/entsql_util.go"]}
{"id": "C43", "title": "entsql: SQL text vocabulary", "statement": "Apart from quoted snake-cased identifiers, the SQL text comes from a fixed vocabulary; comments or other query text never reach it.", "quantifier": "all queries", "why_tests_cant": "SQL injection is a for-all claim.", "anchors": ["entmq/entsql.go: visit, entsqlOpMap"]}
{"id": "C44", "title": "entsql: unsupported constructs are errors", "statement": "References, unknown functions, unknown predicate operations (is true, is not false, ...) and malformed has_edge calls make Query return the empty string and record an error. (Inside the condition of has_edge a text is returned nevertheless, with the error recorded.)", "quantifier": "all queries containing such a construct", "why_tests_cant": "All positions of the construct.", "anchors": ["entmq/entsql.go: visit, Query"]}
{"id": "C45", "title": "entsql: Query never panics", "statement": "Query does not panic. (Violated by date() without argument, and by has_edge without a schema node; holds otherwise.)", "quantifier": "all queries", "why_tests_cant": "All queries.", "anchors": ["entmq/entsql.go: visit"]}
{"id": "C46", "title": "entsql: Query is repeatable", "statement": "Calling Query twice on the same builder returns the same SQL and arguments. (Violated for every query that emits text.)", "quantifier": "all queries", "why_tests_cant": "All call histories.", "anchors": ["entmq/entsql.go: Query"]}
{"id": "C47", "title": "Type casts only decorate placeholders", "statement": "The cast formatter leaves the value unchanged and appends a cast for int, bool and float values on postgres only; on other dialects the placeholder is unchanged.", "quantifier": "all values, dialects, placeholders", "why_tests_cant": "All values.", "anchors": ["entmq/entsql_util.go: FormatParam, Value"]}
{"id": "C48", "title": "entsql: not applies to the whole between", "statement": "'not x between a and b' excludes exactly the rows 'x between a and b' selects. (Violated: NOT binds only to the lower bound in the emitted SQL.)", "quantifier": "all values", "why_tests_cant": "Semantic property over all rows.", "anchors": ["entmq/entsql.go: visit"]}
{"id": "C49", "title": "Node.String distinguishes trees", "statement": "Two different parsed trees have different String() texts, as debugging and error messages assume. (Violated: a predicate loses its operand and operator, a between its left operand and operator; literals are shown bare. Proved: without parentheses and commas in literals these are the only ways in which two trees have one text.)", "quantifier": "all pairs of parse results", "why_tests_cant": "Injectivity over all pairs of trees.", "anchors": ["miniquery/node.go: String"]}
{"id": "C50", "title": "gormq: exact rendering of every construct", "statement": "The condition of a wired query is, construct by construct, the prescribed text: operand, blank, operator spelled in SQL, blank, operand; both bounds of between with ' and '; brackets around a bracketed expression; 'not ' before a negation; date( ) around its arguments; a column or placeholder for a name or literal.", "quantifier": "all queries, all schemas", "why_tests_cant": "Functional correctness for all trees.", "anchors": ["gormq/miniquery.go: visit"]}
{"id": "C51", "title": "entql: a builder can be used again", "statement": "Build on a builder that has been used before (Query reassigned) returns what a fresh builder returns and leaves the builder as it found it. (Holds for every query that yields a predicate; violated by a query that is a function call, which returns a predicate left over from an earlier failed query.)", "quantifier": "all queries, all builder histories", "why_tests_cant": "Unbounded call histories.", "anchors": ["entmq/entql.go: MiniQLToEntQLBuilder, Build, pop, push"]}
{"id": "C52", "title": "entsql: Query returns the SQL it writes", "statement": "When the field SQLBuilder is set, Query returns the SQL and the arguments of the query. (Violated: the text goes to SQLBuilder, Query returns what the builder's own sql.Builder held, and the text of an edge goes there, apart from the rest.)", "quantifier": "all queries, all states of both builders", "why_tests_cant": "All builder states.", "anchors": ["entmq/entsql.go: Query, visit"]}
{"id": "C53", "title": "entsql: SQL grouping equals the tree's grouping", "statement": "Read with SQL precedence, the emitted condition means what the parsed tree means. (Violated by 'a or b and c', by 'not x between', by 'not between', and by a between as operand of a comparison; holds otherwise.)", "quantifier": "all parsed queries, all valuations of atomic conditions", "why_tests_cant": "Semantic equivalence over all trees.", "anchors": ["entmq/entsql.go: visit", "miniquery/miniquery.peg: LogicExpression"]}
{"id": "C54", "title": "entsql: every argument of date counts", "statement": "Two date calls that differ in any argument are told apart, or the superfluous arguments are rejected. (Violated: all arguments after the first are ignored, even unsupported ones.)", "quantifier": "all argument lists", "why_tests_cant": "All lengths and contents.", "anchors": ["entmq/entsql.go: visit"]}
{"id": "C55", "title": "Names in the tree are identifiers of the query", "statement": "Every name of an identifier, function or reference node in a parsed tree is an identifier of the grammar (a letter, then letters, digits or underscores) and a substring of the query; no other node has a name.", "quantifier": "all queries, all nodes", "why_tests_cant": "All queries; needed for the safety of quoting.", "anchors": ["miniquery/miniquery.peg: Identifier, Reference, Function", "miniquery/tree.go: AddName, PopIdentifierReference, PopFunction"]}
{"id": "C56", "title": "Parsing time is linear", "statement": "The number of steps Parse executes (character tests, loop rounds, alternatives and rule calls, abandoned ones included) is at most a constant times (length of the query + 1): although the parser backtracks and has no memo table, no query makes it exponential, nor even quadratic.", "quantifier": "all query strings", "why_tests_cant": "Exponential backtracking shows only on adversarial inputs; no finite set of timings bounds all inputs.", "anchors": ["miniquery/miniquery.peg.go: _rules, Init", "miniquery/miniquery.peg"]}
{"id": "C57", "title": "The token array is linear and uint32 positions suffice", "statement": "The parser's token array never holds more than 17*(length+1)+2 tokens, a successful parse keeps at most 17 per rune, every token lies inside the query; so for queries of up to 250 million runes no uint32 position or token index wraps.", "quantifier": "all query strings", "why_tests_cant": "Bounds over all inputs including failed parses; overflow inputs are too large to test.", "anchors": ["miniquery/miniquery.peg.go: token32, tokens32.Add, add"]}
{"id": "C58", "title": "The parsed tree is linear in the query", "statement": "A parsed tree has fewer than 2*length nodes, and its height (the recursion depth of Build, String and the back ends) is at most its size.", "quantifier": "all queries", "why_tests_cant": "All trees.", "anchors": ["miniquery/tree.go", "miniquery/parse.go: Parse"]}
{"id": "C59", "title": "The SQL condition is linear in the query", "statement": "The number of pieces of SQL text and arguments produced for a query is linear in its length. (Holds for gormq; violated by entsql, which renders the left operand of between twice: nested between gives exponentially many arguments; linear up to the factor 2^(between nesting).)", "quantifier": "all queries", "why_tests_cant": "Blow-up needs unbounded nesting.", "anchors": ["entmq/entsql.go: visit", "gormq/miniquery.go: visit"]}
{"id": "C60", "title": "The syntax tree is the parse tree of the published grammar", "statement": "For an accepted query, AST() is the unique parse tree of the query under miniquery.peg without the nodes of empty text: same rules, same texts, spans nested and ordered, the root spanning the whole query; SprintSyntaxTree prints one line per node, indented by depth; printing never panics, not even after a failed parse.", "quantifier": "all queries", "why_tests_cant": "The token stack algorithm must be right for every nesting and for every backtracking run.", "anchors": ["miniquery/miniquery.peg.go: AST, print, SprintSyntaxTree, Trim, Tokens"]}
{"id": "C61", "title": "A parser can be used again after Reset", "statement": "A parser that has parsed another query and is given a new buffer and Reset yields the tokens or the error of a new parser, whatever the earlier query left in its token array. (Holds; but printing the syntax tree of a used parser after a rejected query panics.)", "quantifier": "all queries and all leftover tokens", "why_tests_cant": "All pairs of queries, including leftovers of failed runs.", "anchors": ["miniquery/miniquery.peg.go: Init, Reset, parse, add, Add"]}
{"id": "C62", "title": "Letter case of keywords does not matter", "statement": "Changing the letter case of the operator words of a query does not change the parsed tree. (Holds for and, or, not, in, like, gt, lt, eq, neq; violated by between, is, isnull, notnull, and by the words true, false and null.)", "quantifier": "all queries and all choices of letter case", "why_tests_cant": "2^n spellings in every context.", "anchors": ["miniquery/miniquery.peg", "miniquery/tree.go: NormalizeOperation"]}
{"id": "C63", "title": "Parsing does not depend on Unicode case tables", "statement": "Two builds with different unicode.ToLower tables parse every query alike. (Holds without comment markers in the query; violated by a comment inside an operator.)", "quantifier": "all queries and all tables", "why_tests_cant": "Quantifies over future Unicode versions.", "anchors": ["miniquery/tree.go: NormalizeOperation"]}
{"id": "C64", "title": "Shared slices never corrupt the tree", "statement": "Push appends in place, Pop leaves the element in the array, popMarked copies and PopFunction passes on the very slice of the array node; still, whatever the growth policy of append, Parse returns the tree it would return without any sharing, and no later action changes a tree already built.", "quantifier": "all queries, all action sequences, all growth policies", "why_tests_cant": "Aliasing bugs depend on capacities and on the order of pushes and pops.", "anchors": ["miniquery/tree.go: Push, Pop, popMarked, PopFunction, PopArray, PopBetween"]}
{"id": "C65", "title": "Queries as bytes", "statement": "A query is a sequence of bytes. Whatever they are, Parse returns; well-formed UTF-8 is read character by character, every byte that is part of no character as U+FFFD; a string literal of a well-formed query arrives in the tree byte for byte, and no other string does. (Violated for queries that are not well-formed: distinct literals become equal and the string in the tree does not occur in the query.)", "quantifier": "all byte sequences", "why_tests_cant": "All byte sequences, overlong, surrogate and truncated ones included.", "anchors": ["miniquery/miniquery.peg.go: Init, Execute", "miniquery/parse.go: Parse", "miniquery/join.go: Join"]}
{"id": "C66", "title": "The message of a syntax error", "statement": "Error() of a syntax error returns, without panic, the name of the rule, line and symbol of the begin and end, and the text in question as a Go string literal, all determined by the query and the published grammar; whatever the query contains, the message is two lines of printable characters. (Violated if Error is called after the parser was given another buffer: it panics or returns another message.)", "quantifier": "all rejected queries", "why_tests_cant": "All queries; injection of control characters into logs is a for-all claim.", "anchors": ["miniquery/miniquery.peg.go: parseError, Error, translatePositions, rul3s"]}
{"id": "C67", "title": "The text of Node.String", "statement": "String of a node of a parsed query never panics and is the kind of the node with, in parentheses, what the specification shows of it: the name, the joined names, the operator, the literal as fmt prints it (strings bare, arrays in brackets separated by blanks), or the texts of the operands in the order given there.", "quantifier": "all parsed queries and all their nodes", "why_tests_cant": "Functional correctness for all trees.", "anchors": ["miniquery/node.go: String", "miniquery/node.go: Value"]}
{"id": "C68", "title": "gormq: the error reported is the first fault", "statement": "If a parsed query has faults (unknown columns, relations or relation fields, references of more than two names, functions other than date), the one error recorded is that of the first faulty construct in the order in which the query is written, a call before its arguments; the joins left behind are those of the relations referred to before it.", "quantifier": "all queries, all schemas", "why_tests_cant": "Precedence among arbitrarily many faults.", "anchors": ["gormq/miniquery.go: WireMiniQuery, visit, visitReference, visitIdentifier, visitFunction"]}
{"id": "C69", "title": "entsql: the error reported is the first fault in order of precedence", "statement": "If constructs of a query have no SQL form and Query does not panic, the last error recorded is that of the first of them in the order: an operator before its operands, a call before its argument, left before right; without has_edge it is the only one. Errors the builder had before are kept, and everything added is a fault of some node of the query.", "quantifier": "all queries, all schema graphs, all builder states", "why_tests_cant": "Precedence among arbitrarily many faults.", "anchors": ["entmq/entsql.go: Query, visit"]}
{"id": "C70", "title": "entql: the error reported is the first fault", "statement": "If constructs of a query have no entql form and BuildEntQL does not panic, it returns the error of the first of them in evaluation order: operands before their operator, left before right.", "quantifier": "all queries", "why_tests_cant": "Precedence among arbitrarily many faults.", "anchors": ["entmq/entql.go: BuildEntQL, Build, visit"]}
{"id": "C71", "title": "The texts of the errors", "statement": "err.Error() of what Parse, gormq, entql and entsql return or record is the text the specification gives the error, naming the offending name, operator, literal or query as a Go string literal; formatting it never panics; errors of gormq and of entql with different data have different texts; and no control character of the query gets into a text other than that of a syntax error.", "quantifier": "all queries, all schemas, all tables of printable characters", "why_tests_cant": "Injection of control characters and ambiguity of messages are for-all claims.", "anchors": ["miniquery/parse.go", "gormq/miniquery.go: WireMiniQuery, visit", "entmq/entql.go: ApplyEntQL, BuildEntQL, visit", "entmq/entsql.go: Query, visit, visitFunction"]}
{"id": "C72", "title": "gormq: what happens to a reusable handle", "statement": "WireMiniQuery on a reusable *gorm.DB (one that makes a new statement when used) leaves its conditions, joins and errors alone if the query has no fault, or if a relation was joined before the first fault; a syntax error, a missing model, and a fault with no relation joined before it are recorded on the handle given, and errors stay for everything wired to it later. (That a reusable handle is always left alone is refuted: after one query with an unknown field every later query through the same handle fails.) A statement under construction is changed in place, and what is returned agrees with C26-C36 and C68.", "quantifier": "all queries, all databases, the three kinds of handle", "why_tests_cant": "Sharing across calls: an error in one request shows in later ones.", "anchors": ["gormq/miniquery.go: WireMiniQuery, GetOrParseSchema"]}
{"id": "C73", "title": "gormq: the condition, as the database reads it, means what the query means", "statement": "Take a query whose comparisons have simple operands, whose functions are date with one argument, without comments inside operators, and without an 'and' that has an unparenthesised 'or' to its left. If WireMiniQuery accepts it, the text and values it adds can be read as an SQL condition (characters to tokens, placeholders to values, tokens to a tree by SQL precedence), in exactly one way, and in every row and under every interpretation of the operators that condition has the value of the query. (Without the restriction on 'and' this is refuted by a query that is false where its condition is true.)", "quantifier": "all queries, all schemas, all rows, all interpretations of values and operators", "why_tests_cant": "End-to-end meaning over all queries, schemas and rows.", "anchors": ["gormq/miniquery.go: WireMiniQuery, visit, normalizeSQL", "miniquery/miniquery.peg: LogicExpression"]}
{"id": "C74", "title": "entsql: the condition, as the database reads it, means what the query means", "statement": "Take a query as in C73 that moreover uses no references, has lists only after 'in' and not empty, tests only for null, and has no negated 'between' nor a 'between' directly under 'not'. If the builder records no error, its text and arguments can be read as an SQL condition (question marks, or numbered placeholders with casts for PostgreSQL), in exactly one way, and in every row and under every interpretation in which between is two comparisons it has the value of the query. (Refuted without the restrictions: the condition of 'not a between 1 and 2' negates only one comparison; that of 'a in []' cannot be read.)", "quantifier": "all queries, all schema graphs, both placeholder styles, all rows, all interpretations of values and operators", "why_tests_cant": "End-to-end meaning over all queries and rows; tests compare texts.", "anchors": ["entmq/entsql.go:27-45 Query, visit", "miniquery/miniquery.peg: LogicExpression"]}
{"id": "C75", "title": "entql predicates mean the query, and the three back ends agree", "statement": "From a condition without negation, functions, references, tests and like, BuildEntQL builds a predicate whose value, in every row and under every interpretation, is that of the query, with the query's own grouping. On the queries that are also covered by C74 the condition of gormq, the condition of entsql and the predicate of entql have the same value in every row. (With negation this is refuted: entql drops it.)", "quantifier": "all queries, all schemas, all rows, all interpretations of values and operators", "why_tests_cant": "Agreement of three back ends over all queries and rows.", "anchors": ["entmq/entql.go: BuildEntQL, visit", "entmq/entsql.go: Query, visit", "gormq/miniquery.go: WireMiniQuery"]}
{"id": "C76", "title": "gormq: what the condition means when 'and' and 'or' are mixed", "statement": "Take a query as in C73 with any mix of 'and' and 'or'. If it is accepted, the added condition can be read as SQL and has, in every row and under every interpretation, the value of the or of its clauses: the query is cut at its top-level 'or's (parentheses protect), each piece is the and of its parts, and so on inside parentheses, functions and 'not'. This is the value of the query in every interpretation exactly when no 'and' has an unparenthesised 'or' to its left.", "quantifier": "all queries, all schemas, all rows, all interpretations of values and operators", "why_tests_cant": "Says exactly for which queries the database does something else than the query says; a test shows one case.", "anchors": ["gormq/miniquery.go: WireMiniQuery, visit", "miniquery/miniquery.peg: LogicExpression"]}
{"id": "C77", "title": "entsql: what the condition means for any mix of and, or, not and between", "statement": "Take a query whose comparisons have simple operands, with lists only after 'in' and not empty, without comments inside operators and without has_edge. If the builder records no error, the text and arguments can be read as an SQL condition, and in every row and under every interpretation its value is this: the query is cut at its top-level 'or's and then at its 'and's; 'between' is two conditions joined by 'and' (>= and <=; for 'not between' < and >); 'not' in front of it negates only the first. This equals the value of the query, in all interpretations in which between is two comparisons and 'and' is associative, exactly when no 'and' has an unparenthesised 'or' to its left and there is neither a 'not between' nor a 'between' directly under 'not'.", "quantifier": "all queries, all schema graphs, both placeholder styles, all rows, all interpretations of values and operators", "why_tests_cant": "Exact description of the faulty cases over all queries.", "anchors": ["entmq/entsql.go: MiniQLToEntSQLBuilder.Query, visit", "miniquery/miniquery.peg: LogicExpression, NotExpression, BetweenExpression"]}
{"id": "C78", "title": "gormq: what the condition of MiniQuery.Scope means for a list of queries", "statement": "Take a list of two or more texts whose non-blank entries are queries with simple comparisons, in any mix of 'and' and 'or'. If Scope accepts it, it adds one condition, which can be read as SQL and whose value in every row and under every interpretation is the 'and', from left to right, of the values of the entries; a row that meets the condition therefore meets every entry. An entry that is not a query but two queries around ') or (' is accepted too, and then the condition is ((first and x) or y): y alone is enough, whatever the other entry says.", "quantifier": "all lists of queries, all schemas, all rows, all interpretations of values and operators", "why_tests_cant": "Universally quantified over lists, queries and interpretations; the escape is an input that tests written for valid entries do not contain.", "anchors": ["gormq/miniquery.go: MiniQuery.Scope", "miniquery/join.go: Join", "miniquery/miniquery.peg: LogicExpression, PrimaryExpression"]}
{"id": "C79", "title": "gormq: the WHERE clause gorm builds from a query and the conditions before it", "statement": "Take a handle whose conditions so far each keep their meaning wherever gorm puts them (as the conditions of accepted queries do), and a query with simple comparisons, non-empty arrays only after 'in', and any mix of 'and' and 'or'. If WireMiniQuery accepts it, the WHERE clause that gorm then builds, with ? or with $n placeholders, can be read as SQL, and its value in every row and under every interpretation is the 'and' of the values of the earlier conditions and of the query. So a query never lets a row through that an earlier condition keeps out. For an empty array the clause is another condition: 'a not in []' becomes not in (NULL).", "quantifier": "all handles and earlier conditions, all queries of the fragment, both placeholder styles, all rows, all interpretations of values and operators", "why_tests_cant": "Whether gorm puts a condition in parentheses depends on its text; universally quantified over queries, earlier conditions and interpretations.", "anchors": ["gormq/miniquery.go: WireMiniQuery, queryBuilder.visit", "miniquery/miniquery.peg: LogicExpression"]}
{"id": "C80", "title": "entmq: the condition of a query beside other conditions in ent", "statement": "Let a selector have conditions, added by Where, that keep their meaning wherever they stand, and add the condition of a query as entsql.go does it (sql.P with Join of the builder). The text can be read as SQL with ? and with $n placeholders. For a query without a top-level 'or' it is the 'and' of the other conditions and the query, so a row meets the clause exactly if it meets all of them. For any other query nothing is put in parentheses: a condition before it counts for its first alternative only, one after it for its last, and in no such query is the clause the 'and' of both. So a query such as 'a = 1 or b = 2' lets rows through that the conditions before it keep out. In parentheses every query is safe.", "quantifier": "all lists of conditions, all queries of the fragment, both placeholder styles, all rows, all interpretations of values and operators", "why_tests_cant": "Whether a guard survives depends on the shape of the query; universally quantified over queries, guards and interpretations.", "anchors": ["entmq/entsql.go: MiniQLToEntSQLBuilder, Query, visit"]}
{"id": "C81", "title": "The generated parser used call by call", "statement": "For every sequence of the calls Init, Reset, Parse(rule...), Execute and assignments to Buffer: Parse(rule) matches the rule of that number, of the published grammar, at the place where the last successful Parse stopped; if it matches, the place moves and its texts and actions are added to those Execute will run; if not, neither changes and the error range lies in the text; it panics exactly for the numbers below 1, above 63 and for 36. Reset and Init start again with the text in Buffer, whatever tokens and texts were there before; the tree is kept, so one parser used for many queries collects the trees of those accepted. A second Parse without Reset always fails. miniquery.Parse is Parse and Execute on a new parser. (Violated: Parse with a rule does not check that the whole text is read; Execute after a failed Parse runs actions of abandoned attempts, and after Reset it can panic.)", "quantifier": "all texts, all sequences of calls, all rule numbers, all lists of queries", "why_tests_cant": "State left over from earlier calls can show up arbitrarily later; tests try a few sequences.", "anchors": ["miniquery/miniquery.peg.go: Init, Reset, Parse, Execute, Trim", "miniquery/parse.go: Parse"]}
{"id": "C82", "title": "entsql: what is written inside literals does not influence the SQL", "statement": "For any two accepted queries whose trees are the same once their literals are emptied (same types of literals, same lengths of arrays, same places of null), and for any builder, whatever it wrote before, Query panics for both or for neither, returns the same text, as many arguments of the same types in the same order, and reports as many errors of the same kinds; outside Postgres the types of the literals may differ too. So no text from inside a literal is ever in the SQL. (Violated without the condition on types: on Postgres a cast shows the type of a literal, and null inside an array is written into the text.)", "quantifier": "all pairs of queries, all dialects, both settings of DisableTypeCasting, all schema graphs and names", "why_tests_cant": "A relation between two runs (non-interference); tests look at one run at a time and at few literals.", "anchors": ["entmq/entsql.go: visit, Query", "entmq/entsql_util.go: FormatParam"]}
{"id": "C83", "title": "Exactly which trees Parse returns", "statement": "A node is the tree of some accepted query without a JSON path exactly if it follows this grammar: literals are strings that lack one of the two quotes, integers from 0 to the largest int, booleans, null and arrays of these; names are identifiers that start with none of not, true, false, null; comparisons, in, predicates, between, not and logic nodes have operands of a lower level (on the left of comparisons and logic also of the same level), operation nodes named after an operator of that kind, and nothing else in any field. Every operand in a parsed tree is again the tree of a query. (Violated with JSON paths: 'a and b->c' is accepted and returns a logic node whose operation is an identifier.)", "quantifier": "all nodes, all queries", "why_tests_cant": "Says what can never be returned, over all queries; tests see the trees of their queries only.", "anchors": ["miniquery/parse.go: Parse", "miniquery/miniquery.peg.go: Execute", "miniquery/tree.go: PopLogic, PopCompare, PopBetween"]}
{"id": "C84", "title": "Query templates: string contents cannot change the query", "statement": "Take a query text with any number of holes, each in single or double quotes, standing outside of other strings and of comments. Whatever is put into the holes, as long as no content contains the quote of its hole, the outcome of Parse is the same up to the contents: one fixed tree in which the contents are put in place of the holes, or one fixed error (a syntax error may be at another position). Without a JSON path the contents arrive in the tree unchanged, each once and in order. The SQL text of gormq, the SQL text and cast types of entsql and the shape of the entql predicate are the same for every filling. (Violated if a content contains its quote, or if the hole stands in a comment: then contents can add conditions.)", "quantifier": "all templates, all fillings, all schemas and dialects", "why_tests_cant": "A statement about all contents at once; injection tests try a list of strings.", "anchors": ["miniquery/parse.go: Parse", "miniquery/miniquery.peg.go: Execute", "gormq/miniquery.go: WireMiniQuery", "entmq/entql.go: BuildEntQL"]}
{"id": "C85", "title": "Query templates: whole queries put into a query stay together", "statement": "Take a query in which some names, each occurring in its text only once, stand for parts to be filled in. Put queries in the place of these names in the text: any query where the name stands alone in parentheses or as an argument of a function, elsewhere a single operand (a literal, name, function call or anything in parentheses). The result is accepted, and its tree is the tree of the template with the trees of the queries in the place of the names, whatever blanks and comments the queries contain. Its meaning, and that of the conditions of gormq and entsql as the database reads them, is that of the template where the names have the values of the queries. (Refuted for other operands, for a literal after 'between [1, 2] and', and for texts that are not queries themselves.)", "quantifier": "all templates, all queries put into them, all worlds and rows", "why_tests_cant": "A statement about all templates and all queries; tests fill in some.", "anchors": ["miniquery/parse.go: Parse", "miniquery/tree.go: PopParentheses", "gormq/miniquery.go: WireMiniQuery", "entmq/entsql.go: Query"]}
{"id": "C86", "title": "entql: what the predicates mean, for every query and for lists", "statement": "A query without a JSON path gives a predicate exactly if its integers fit, it is a condition, and it uses no function, reference, predicate or 'like', and no comment inside the operators of 'in'. The value of the predicate in every row and under every interpretation is that of the query, grouped as written, with every 'not' left out, 'between' as >= and <=, and 'not between' as < and >. This is the value of the query, in all interpretations in which between is two comparisons, exactly when the query has neither 'not' nor 'not between'. ApplyEntQL adds predicates with these values; joining the queries with Join gives one predicate whose value is their 'and', so the same rows are selected. (Violated: 'not' and 'not between' with a comment in between are taken for 'between'; in a joined list an entry such as 'x) or (y' gets out, where ApplyEntQL rejects it.)", "quantifier": "all queries, lists of queries, interpretations and rows", "why_tests_cant": "A statement about all queries, interpretations and rows; tests see some of each.", "anchors": ["entmq/entql.go: Build", "entmq/entql.go: ApplyEntQL", "miniquery/join.go: Join"]}
{"id": "C87", "title": "entsql: what the condition of a joined list of queries means", "statement": "Take a list of two or more texts whose non-blank entries are queries as in C77, and give the builder the text Join makes of it. If it records no error, the condition can be read as SQL, and its value in every row and under every interpretation is the 'and', from left to right, of the values (C77) of the entries. Added to a selector after other conditions, as entsql.go does it, a row meets the clause exactly if it meets these conditions and every entry. An entry that is not a query but two queries around ') or (' gets out. (Violated for lists of one entry: Join leaves it as it is, and an 'or' in it lets rows through that the other conditions keep out.)", "quantifier": "all lists of queries, selectors, interpretations and rows", "why_tests_cant": "A statement about all lists, interpretations and rows; tests see some of each.", "anchors": ["miniquery/join.go: Join", "entmq/entsql.go: Query"]}
{"id": "C88", "title": "gormq: which table each column of the condition belongs to", "statement": "If the fields of the model and of its relations lead to columns without a dot, then every column in the condition of an accepted query can be read as one of the table its name belongs to: the model's table, or the joined relation. The database can read it in no other way exactly if no joined relation has a column that the query uses without a relation, and no relation that it references is joined twice. (Violated in general: names of the model are written without its table, so 'id = 1 and Profile.age = 2' is ambiguous if profiles have an id; two queries on one db join a relation twice.)", "quantifier": "all queries, schemas and earlier joins", "why_tests_cant": "A statement about all schemas and queries; the tests have one schema and no two tables with the same column in a query.", "anchors": ["gormq/miniquery.go: visitIdentifier", "gormq/miniquery.go: visitReference", "gormq/miniquery.go: WireMiniQuery"]}
{"id": "C89", "title": "gormq: what adding fields to a model does to old queries", "statement": "If fields and relations are added to a model or to the models it is related to, every query that was accepted is accepted, with the same joins. Its condition is the same exactly if none of its names is captured: a name that was not a column is captured by a new column of that name, and one that was found only by ignoring case also by a new field of that name. (So an old query can silently change its meaning: 'name', so far the column of the field Name, becomes the column of a new field whose column is called name.)", "quantifier": "all queries, schemas and added fields", "why_tests_cant": "A statement about all pairs of schemas; a test has one schema.", "anchors": ["gormq/miniquery.go: getDBName", "gormq/miniquery.go: WireMiniQuery"]}
{"id": "C90", "title": "entsql: the condition of an edge beside the edge's own condition", "statement": "Wherever an accepted query asks for an edge with a condition, has_edge(p, e), also inside the condition of another edge, the text contains the text of that edge with e's text in it, and that means e. If the edge library writes a condition of its own before it (the row belongs to this one), the two together are the edge's condition 'and' e without parentheses; so for e without a top-level 'or' a row meets them if and only if it meets both. (Violated for others: has_edge(pets, a = 1 or b = 2) is true if anyone's pet has b = 2.)", "quantifier": "all queries, schema graphs, dialects, edge libraries, worlds and rows", "why_tests_cant": "A statement about all conditions and what a database makes of the text; the repository has no test of has_edge.", "anchors": ["entmq/entsql.go: visit", "entmq/entsql.go: Query"]}
{"id": "C91", "title": "Exactly which queries have the same tree", "statement": "Two accepted queries (without -> paths and without comments inside operators) have the same tree if and only if they differ only in layout, in the spelling of operators (letter case, =, ==, eq; && and and; blanks between words; isnull and is null), in the kind of quotes around a string, in the brackets of an array and a comma at its end, in the case of true, false and null, and in the form of between. (Violated otherwise: a comment between the words of an operator changes the operation, and a->b = 1 and c->b = 1 have the same tree.)", "quantifier": "all pairs of queries", "why_tests_cant": "A statement about all pairs of queries in both directions; tests compare a few trees.", "anchors": ["miniquery/parse.go: Parse", "miniquery/tree.go: AddOperation"]}
{"id": "C92", "title": "Brackets: what parentheses hold, and when Join isolates its entries", "statement": "A scanner that knows only brackets, quotes and comments finds the brackets of every accepted query matched. If a text with matched brackets stands between parentheses (outside strings and comments) in an accepted query, then it is itself a query, a list of literals or, behind a name, a list of arguments; it can not reach outside the parentheses. So if Parse accepts Join of a list of two or more texts, the brackets of the non-blank entries match if and only if each entry is a query or a list of literals, and then the joined query is their 'and', each in its parentheses. (Refuted without the lists of literals: 1, 2 is not a query but accepted as an entry.)", "quantifier": "all queries, all texts put between parentheses, all lists of texts", "why_tests_cant": "The claim is about all texts that could be put into parentheses; tests try a few attacks.", "anchors": ["miniquery/join.go: Join", "miniquery/parse.go: Parse"]}
{"id": "C93", "title": "The listing of the tokens", "statement": "tokens32.Print writes one line for each token with the name of its rule and its span, so that the tokens can be read back from the text: different token lists have different listings. After Parse, successful or not, it does not panic and every span lies in the query. For an accepted query the lines with a non-empty span are the nodes of the syntax tree in post-order, the last of them the whole query.", "quantifier": "all token lists; all queries", "why_tests_cant": "Injectivity over all token lists and the post-order of all trees; tests print single examples.", "anchors": ["miniquery/miniquery.peg.go: token32.String, tokens32.Print, tokens32.AST"]}
{"id": "C94", "title": "entsql: what a query with has_edge means, at any depth", "statement": "Take the text of every edge's subselect, up to the condition wanted of its rows, as one word. If a query with has_edge, also inside the conditions of other edges, is accepted, the database can read the text in one way: every subselect has a condition of its own, with its arguments. has_edge(p, e) then asks for a row of p's table that meets the edge's own conditions and e, where nothing is put in parentheses. For e without 'or' outside parentheses (or edges without conditions of their own), and the queries of C77, that is: there is a neighbour that meets e; and for no others: for every other accepted query there are a database and a table where the answer differs. (Refuted for others: has_edge(pets, c = 3 or c = 3) is true if anyone's pet has c = 3.)", "quantifier": "all queries, schema graphs, dialects, edge libraries, worlds, tables and rows", "why_tests_cant": "A statement about all nestings of edges and all tables; the repository has no test of has_edge.", "anchors": ["entmq/entsql.go: visit", "entmq/entsql.go: Query"]}
{"id": "C95", "title": "entsql: whose column a name in the condition of an edge is", "statement": "entsql writes columns without their tables, and a database takes the column of the innermost subselect that has one of the name. So if every name in the condition of an edge is a column of the edge's target, at every depth, the accepted query means that about the rows of the target, whatever the columns of the rows outside are. (Refuted for other names: if pets have no column a, has_edge(pets, a = 1) asks for users with a = 1 that have a pet.)", "quantifier": "all queries, schema graphs, dialects, edge libraries, worlds, tables and rows", "why_tests_cant": "A statement about all nestings of edges and all tables; tests of the text do not see which column the database takes.", "anchors": ["entmq/entsql.go: visit", "entmq/entsql.go: Query"]}
{"id": "C96", "title": "entql: one builder used for many queries", "statement": "Build leaves the expressions of a failed query on the stack, also when it panics and the caller recovers. If a new builder neither runs out of expressions nor gives nil for a query, Build on a used builder gives the same error, predicate or panic, after any such queries; what they leave piles up, and the message 'unexpected MiniQLBuilder stack size' is logged exactly by the calls that give a predicate while two or more expressions are left, with their number. A new builder never logs it. One call leaves at most twice the query's length; (refuted:) the stack is not bounded over many calls, and for other queries, like not (c.d = 2), a new builder panics where a used one gives an error.", "quantifier": "all sequences of queries, all stacks", "why_tests_cant": "A statement about all histories of a builder; tests use a new builder for each query.", "anchors": ["entmq/entql.go: Build", "entmq/entql.go: visit", "entmq/entql.go: pop"]}
{"id": "C97", "title": "What becomes of a -> path", "statement": "A query with a path a->b means what it says, or is refused. (False:) the names of a path but the last stay on the parser's stack. If no right operand begins with a path, the tree is that of the query with each path replaced by its last name (the names before become arguments of their own in a function's arguments), and all three backends treat b->c = 2 as c = 2. If some right operand does, and only then, the tree has a comparison or logical expression whose operator is no operator; everything left of a right operand with a path in it is lost, whatever it is: a = 1 and (b->c = 2) gives the same tree as anything and (b->c = 2). The backends of ent return no condition for such a query; gormq hands gorm the condition and `b` `c` = ? without an error.", "quantifier": "all queries with -> paths", "why_tests_cant": "A statement about every expression a path can be in; the tests have no query with a path.", "anchors": ["miniquery/miniquery.peg: JsonReference", "miniquery/tree.go: AddCompare, AddLogic", "gormq/miniquery.go: visit"]}
{"id": "C98", "title": "SQL does not read the condition of a query whose right operand begins with a -> path", "statement": "C97 says that gormq hands gorm a condition for such a query, with part of the query lost, and no error. For every such query (no comment inside an operator; each function has one argument without such a path), every schema and every quoting that can be read back, SQL does not read that condition, nor (with non-empty arrays, only after 'in') the WHERE clause gorm builds from it and the conditions before it, with ? or with $n: the loss is noticed by the database at the latest, and no condition with the guard missing ever takes effect. For all other queries with paths (of the fragment of C73) SQL reads the condition, and it means what the query means with each path replaced by its last name.", "quantifier": "all queries with -> paths, all schemas, all quotings", "why_tests_cant": "Every placement of a path at any depth; the tests never run a condition with a path in it.", "anchors": ["miniquery/tree.go: AddCompare, AddLogic", "gormq/miniquery.go: WireMiniQuery, visit"]}
{"id": "C99", "title": "The statements of the generated file do what the parsing machine of the model does", "statement": "The 63 functions in _rules of miniquery.peg.go, taken statement by statement (goto, labels, blocks, switch, break, local variables, calls through the array by the value of the constant), give for every buffer and every state the result, position, tokenIndex, token array and max that the machine of the model gives for the rule; on every query they return, without a panic, and Parse with them and with the switch of Execute as written returns what the model of Parse returns. The names in rul3s are in the order of the constants.", "quantifier": "all buffers, all states, all rules, all queries", "why_tests_cant": "A wrong label or a restore of the wrong variable in one of 3000 generated lines shows only on inputs that fail at that place; the tests run a few dozen queries.", "anchors": ["miniquery/miniquery.peg.go: _rules, pegRule constants, rul3s, Execute, parse"]}
{"id": "C100", "title": "The generated file implements the text of miniquery.peg", "statement": "The text of miniquery.peg reads, by a reader of the notation of its own, as a grammar that defines each of the 32 rules once. For every query, what the generated functions and Execute return is what this grammar records on the query (ordered choice, greedy repetition) followed by its actions, taken from the text in braces; each rule function alone, at any place of any query, matches what the rule matches. The actions of the file are, in order, the cases of Execute: the generated file is not out of date.", "quantifier": "all queries, all rules, all places", "why_tests_cant": "The tests compare results of a few queries; none compares the generated file with the grammar.", "anchors": ["miniquery/miniquery.peg", "miniquery/miniquery.peg.go: _rules, Execute"]}
{"id": "C101", "title": "The statements of tree.go and parse.go do what the model says", "statement": "The functions of tree.go and Parse of parse.go, taken statement by statement (assignments, slices, range, switch, calls, struct literals, early returns), give for every tree and every text the tree, the error list and the marks that the model gives for the method, and panic exactly where it does. Parse made of the statements of parse.go, of the generated file and of tree.go returns for every query what the model of Parse returns.", "quantifier": "all trees, marks, error lists, texts and queries", "why_tests_cant": "A slice bound off by one or a pop in the wrong order shows only for certain stacks; the tests see only results of whole queries.", "anchors": ["miniquery/tree.go: NormalizeOperation, Tree.*", "miniquery/parse.go: Parse"]}
{"id": "C102", "title": "The statements of node.go and join.go do what the model says", "statement": "Value, IsValue, IsExpression, String, Build (its closure visit, which calls itself and writes the name of the root for every function), buildValue, printPretty and Join, taken statement by statement, return for every node, whatever its fields, and for every list of texts what the model returns, panic exactly where it panics (nil child, missing bound), and leave all other builders and the tree alone.", "quantifier": "all nodes (also ones no query gives), all lists of texts", "why_tests_cant": "The tests print a few parsed queries; nodes built by hand, with fields missing, are never printed.", "anchors": ["miniquery/node.go: Node.Value, IsValue, IsExpression, String, Build, buildValue, printPretty", "miniquery/join.go: Join"]}
{"id": "C103", "title": "The statements of gormq's queryBuilder do what the model says", "statement": "visit, visitIdentifier, visitReference, visitFunction and normalizeSQL, taken statement by statement, do for every node, whatever its fields, every schema and every state of the builder what the model does: same text written (also before an error and by the deferred writing of the closing parenthesis), same values and joins, same error, a panic in the same cases; and what WireMiniQuery hands to the database follows from the run of these statements.", "quantifier": "all nodes (also ones no query gives), all schemas, all states of the builder", "why_tests_cant": "The tests run a few queries on one schema and look at the final SQL only; what is left in the builder on an error or a panic is never looked at.", "anchors": ["gormq/miniquery.go: queryBuilder.visit, visitIdentifier, visitReference, visitFunction, normalizeSQL, WireMiniQuery"]}
{"id": "C104", "title": "The statements of entmq's MiniQLToEntQLBuilder do what the model says", "statement": "pop, push, visit and Build, with entqlOpMap, taken statement by statement, do for every node, whatever its fields, every query and every stack the builder may have what the model does: same predicate, same stack afterwards (also after an error), same error, a panic in the same cases (pop of an empty stack, nil child, a stack top that is no predicate).", "quantifier": "all nodes (also ones no query gives), all queries, all stacks", "why_tests_cant": "The tests build a few queries on a fresh builder; a stack left by an error, nodes built by hand and pops of an empty stack do not occur in them.", "anchors": ["entmq/entql.go: MiniQLToEntQLBuilder.pop, push, visit, Build, entqlOpMap"]}
