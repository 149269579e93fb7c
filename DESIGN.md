# Formal model of wenerme/go-miniquery in Rocq (Coq 8.16.1)

## Approach

The Go sources are read as text and transcribed, function by function, into
total computable Gallina functions.  Every definition of the model cites the
file and lines it models.  Strings are lists of runes (`list N`), pointers are
`option node`, error returns are values, a Go panic is an explicit outcome,
unbounded loops and recursion use fuel with an explicit out-of-fuel outcome
which a theorem excludes (C01).

Every property is stated with a vocabulary of its own (`Vocab`, `Syntax`,
`PegSpec`, `GormSpec`, `EntQLSpec`, `EntSQLSpec`): the files of the model do
not import these, and they use of the model only data types (`node`, `gval`,
`token`, `sarg`, ...), so that a mistake in the model can not hide in a
statement.

A full statement that the code violates is refuted by a theorem `..._refuted`
with a concrete query, or a whole family of queries, as witness; the strongest
positive part found is proved beside it.  Beside the theorems stand `Example`s
that meet their hypotheses on a query with several constructs.

## Files (`rocq/theories`, in build order)

| files | content |
|-------|---------|
| `Base` | strings, `outcome`, association lists |
| `Peg` | parsing expressions; the machine the generator emits (buffer with end symbol, `position`, `tokenIndex`, token array overwritten in place, `max`); a functional semantics used in proofs |
| `Grammar` | the rule bodies of `miniquery.peg` and of `miniquery.peg.go` (`-switch`) |
| `Node`, `Tree`, `Parse` | model of `node.go` (struct, `Value`, ...), `tree.go`, `parse.go`, `reset`/`Execute`/`parseError` |
| `Vocab`, `Syntax`, `PegSpec` | specification of trees, of the query language, of PEGs |
| `PegProofs` ... `TreeFacts` | proofs about the parser |
| `PropsParse` | statements C01-C19 |
| `Build`, `Visitor` | model of `String`, `Build`, `Join`, `visitor.go` |
| `BuildProofs` ... `NodeFacts`, `PropsNode` | proofs; statements C18, C20-C25, C49 |
| `Gorm`, `GormSpec`, `Gorm*`, `PropsGorm` | model, specification, proofs, statements C26-C36, C50 |
| `EntQL`, `EntQLSpec`, `EntQLProofs`, `PropsEntQL` | the same for `entql.go`: C37-C41, C51 |
| `NameFacts`, `EntSQL`, `EntSQLSpec`, `EntSQL*`, `PropsEntSQL` | the same for `entsql.go`: C40, C42-C48, C52-C55 |
| `StepSpec`, `Steps`, `Steps2`, `Lin1`-`Lin8`, `StepsMain`, `Tokens`, `SizeSpec`, `Size`, `SizeFacts`, `PropsSize` | running time and sizes: C56-C59 |
| `Ast`, `AstSpec`, `AstProofs`, `PropsAst` | syntax tree of the generated parser: C60, C61 |
| `CaseSpec`, `CaseFacts`, `PropsCase` | letter case: C62, C63 |
| `Heap`, `HeapSpec`, `HeapProofs`, `PropsHeap` | `tree.go` with Go's memory: C64 |
| `Utf8`, `Utf8Spec`, `Utf8Proofs`, `PropsUtf8` | byte strings: C65 |
| `QuoteSpec`, `QuoteProofs`, `TrailSpec`, `TrailProofs`, `Report`, `ReportSpec`, `ReportProofs`, `PropsReport` | `strconv.Quote`, syntax errors: C19, C66 |
| `ShowSpec`, `ShowProofs` | the text of `Node.String`: C67, C49 |
| `BlameSpec`, `BlameProofs` | which error the back ends report: C68-C70 |
| `Message`, `MessageSpec`, `MessageProofs`, `PropsBlame` | the texts of the errors: C71 |
| `Session`, `SessionSpec`, `SessionProofs`, `PropsSession` | the handles of gorm, what is done to the one given: C72 |
| `SqlSpec`, `SqlDialect`, `SqlProofs`, `SqlProofs2`, `SqlGorm`, `PropsSql` | a reader of SQL conditions, their meaning and that of queries, and the conditions of gormq: C73 |
| `SqlProofs3`, `SqlEnt`, `PropsSqlEnt` | the conditions of entsql read as SQL: C74 |
| `SqlSpecQL`, `SqlAll`, `PropsSqlAll` | the meaning of entql predicates; the three back ends together: C75 |
| `SqlSpecDb`, `SqlLoose`, `SqlDbFacts`, `PropsSqlDb` | gormq conditions with any mix of and/or: C76 |
| `SqlSpecEntDb`, `SqlEntLoose`, `SqlEntDbFacts`, `PropsSqlEntDb` | entsql conditions with any mix of and/or/not/between: C77 |
| `SqlScope`, `PropsSqlScope` | the condition of MiniQuery.Scope for lists of queries: C78 |
| `GormSQL`, `SqlSpecWhere`, `SqlWhere`, `SqlWhere2`, `SqlWhere3`, `PropsSqlWhere` | gorm's WHERE clause from several conditions: C79 |
| `EntWhere`, `SqlSpecEntWhere`, `SqlEntWhere`, `PropsSqlEntWhere` | conditions beside each other in ent: C80 |
| `ParserApi`, `ApiSpec`, `ApiProofs`, `PropsApi` | the generated parser as an object, call by call: C81 |
| `LitSpec`, `LitProofs`, `LitFacts`, `PropsLit` | entsql and the contents of literals: C82 |
| `ImageSpec`, `ImageProofs`, `ImageFacts`, `PropsImage` | which trees Parse returns: C83 |
| `TemplateSpec`, `Template`, `TemplateFacts`, `PropsTemplate` | query templates with holes for the contents of strings: C84 |
| `InsertSpec`, `Insert`, `InsertFacts`, `InsertSample`, `PropsInsert` | whole queries put into a query in the place of names: C85 |
| `Reader` | an executable reader for `reads`, for examples |
| `SqlSpecQL2`, `SqlQL`, `PropsSqlQL` | the meaning of every entql predicate, ApplyEntQL, Join: C86 |
| `SqlEntScope`, `PropsSqlEntScope` | the conditions of entsql for joined lists: C87 |
| `SchemaSpec`, `SchemaFacts`, `PropsSchema` | tables of the columns in a condition, schemas that grow: C88, C89 |
| `EdgeSpec`, `EdgeFacts`, `PropsEdge` | conditions of edges: C90 |
| `SameSpec`, `SameFacts`, `PropsSame` | queries with the same tree: C91 |
| `BracketSpec`, `BracketFacts`, `PropsBracket` | brackets: C92 |
| `Listing` (model), `ListingSpec`, `ListingFacts`, `PropsListing` | `token32.String`, `tokens32.Print`: C93 |
| `NestSpec`, `NestFacts`-`NestFacts5`, `PropsNest` | SQL with subselects; has_edge at any depth: C94 |
| `ScopeSpec`, `ScopeFacts`, `PropsScope` | whose column a name in the condition of an edge is: C95 |
| `Builder`, `BuilderSpec`, `BuilderFacts`, `PropsBuilder` | the builder of entql used for many queries, its stack after errors and panics, its log message: C96 |
| `PathSpec`, `PathFacts`, `PathUse`, `PropsPath` | what a -> path does to the tree and in the backends: C97 |
| `PathSqlSpec`, `PathSql`, `PropsPathSql` | whether SQL reads the condition of a query with a -> path: C98 |
| `RepoTests` | every case of the repository's own tests, and the query of its README, evaluated in the model: a check of the model |
| `GoStmt`, `GoRules`, `GoCheck`, `GoProofs`, `GoParse`, `GoMain` | the generated Go file statement by statement (`GoRules` is written by `tools/go2v.py`), a checker that matches code with parsing expressions, its correctness: C99 |
| `PegText`, `PegRead`, `PegFileSpec`, `PegFile`, `PropsGo` | the text of `miniquery.peg` (`tools/peg2v.py`), a reader of its notation: C100 |
| `Gox`, `GoxStep`, `GoxMini`, `GoxMiniLib` | a small interpreter of Go functions (expressions, statements, closures, builders), the functions of `tree.go`, `node.go`, `join.go`, `parse.go` (`GoxMini` is written by `tools/gofunc2v.py`), the library functions they call |
| `GoxTreeProofs`, `GoxParse`, `GoxParseProofs`, `PropsGox` | tree.go and parse.go: C101 |
| `GoxNodeProofs`, `GoxStringProofs`, `GoxBuildProofs`, `GoxJoinProofs`, `PropsGox2` | node.go and join.go: C102 |
| `GoxGorm` (generated), `GoxGormLib`, `GoxGormProofs`, `PropsGox3` | queryBuilder of gormq/miniquery.go: C103 |
| `GoxEntQL` (generated), `GoxEntQLLib`, `GoxEntQLProofs`, `GoxEntQLBuild`, `PropsGox4` | MiniQLToEntQLBuilder of entmq/entql.go: C104 |

`Props*.v` hold statements, examples and `Print Assumptions` only (the proofs
are a few lines at most).  `seeded/LOG.jsonl` records the wrong programs the
theorems were tested against.

## Per property

| id | modelled | proof |
|----|----------|-------|
| C01 | machine parser, Execute, Tree, Parse | fuel bound by (length, rank) measure; buffer index invariant; stack-height invariant of the action sequence of every derivation |
| C02 | same fuel = call depth | same measure, explicit bound |
| C03 | both grammars | local equivalence of each switch with its ordered choice, lifted through the interpreter |
| C04 | token array machine | refinement: machine run = functional PEG run, for every grammar |
| C05 | Parse vs. inductive layout relation | soundness by induction on input length and level; completeness by induction on the derivation |
| C06 | layout relation | the actions of a layout determine the expression; completeness and determinism |
| C07 | layout relation | corollary of C05 |
| C08, C09 | Parse | corollaries of C05 |
| C10-C12 | literals, Atoi with 64-bit limit | corollaries of C05 plus decimal arithmetic |
| C13, C14 | Parse | soundness of C05 (no derivation exists) |
| C15, C16 | NormalizeOperation with Unicode case mapping as an arbitrary function | direct; invariant over action sequences |
| C17, C18 | Tree machine | stack invariant over all action sequences of derivations |
| C19 | `max` bookkeeping, translatePositions | machine invariant; loop invariant |
| C20 | Build with `%q` | induction on the tree through C05 completeness |
| C21, C22 | Join | append lemma for the layout relation; witness |
| C23-C25, C49 | node predicates, Visitor, String | case analysis, induction on trees |
| C26-C36, C50 | queryBuilder, gorm.DB as a record of joins/wheres/errors, schema as finite maps | every visit is the replay of a list of events; induction on safe trees |
| C37-C41, C51 | entql builder with its expression stack | induction on trees with stack-height invariant |
| C42-C48, C52-C54 | entsql builder over a model of ent's sql.Builder | induction on trees, with the builder's state as accumulator |
| C55 | names in trees | induction on layouts |
| C56 | steps of the machine | big-step relation with cost; each non-recursive rule costs a constant per rune it reads, or a constant if it fails early; blanks, comments and unterminated strings, which cost as much as they are long although nothing is read, are charged to the rest and paid for by what is read after them; amortised induction on length for the recursive rules: a rule that fails after much work leaves an unread bracket or operator behind, which makes all enclosing rules fail too, so that much work is lost only once |
| C57 | token array of the machine | static table: credit of 17 tokens per rune |
| C58, C59 | trees and rendered pieces | induction on layouts, on renderings |
| C60 | AST and print of the generated parser | the machine run with its tokens refines a derivation with parse trees; the stack loop of AST rebuilds the forest of each sub-run |
| C61 | the machine started with leftover tokens | simulation between the two runs |
| C62, C63 | letter case, Unicode tables | induction on layouts |
| C64 | tree.go with pointers, backing arrays and arbitrary growth of append | simulation; invariant: no node's slice shares the stack's array |
| C65 | `[]rune(string)`, `string([]rune)` | Unicode table 3-7 as specification; decoding and encoding are inverse on well-formed sequences |
| C66 (and C19) | `parseError.Error` | the machine run refines a relational semantics of the published grammar that records every match; `max` is the first farthest one |
| C67, C49 | `Node.String` | relation between tree and text; unique reading of the texts of plain trees |
| C68-C70 | the errors of gormq, entsql, entql | first element with a fault in a list of the nodes of the tree, by induction on the tree |
| C71 | texts of errors | relation between error and text, by cases; wide runes by induction on the tree |
| C72 | WireMiniQuery on gorm handles | two variables (the handle given, the handle made from it) related to C68 |
| C73 | WireMiniQuery's condition, read back | rules for the fuelled reader; per construct, the tokens of its pieces and the tree they read as, in every context |
| C74 | entsql's condition, read back | as C73; each construct also says what it makes of a condition in front of it, since between writes an unbracketed AND |
| C75 | entql's predicate and agreement | induction on layouts; C73 and C74 |
| C76 | gormq's condition, any mix of and/or | as C73, each construct also carrying what stands before its last or; uninterpreted world for exactness |
| C77 | entsql's condition, any mix | chains of conditions read one after the other; for exactness equal starts of lists of conditions, by induction |
| C78 | Scope on lists | the joined text reads as a left-nested "and" of parenthesised entries; induction on the list |
| C79 | gorm's WHERE clause | as C76 for the text gorm builds; what is not put in parentheses is no "and"/"or", so it is read whole |
| C80 | conditions beside each other in ent | as C77, with the tokens of a run of conditions before or after; exactness in the world of lists |
| C81 | the parser used call by call | simulation of an abstract reader by the machine, modulo left-over tokens (`alike` of C61); induction over the calls |
| C82 | entsql: contents of literals do not show in the SQL | relation between the runs of a tree and of its emptied form, by induction on the size of the tree |
| C83 | exactly which trees Parse returns | induction on the layout; for the converse, a text is written for every tree of the grammar, by induction on its size |
| C84 | string contents cannot change a query | one derivation of the grammar is carried over to all fillings at once (induction on the derivation); the actions commute with plugging |
| C85 | whole queries put into a query stay together | induction on the reading of the template; the places of the names are determined by the text because each occurs once |
| C86 | entql: what the predicates mean, for every query and for lists | induction on the reading of the query; a world that only sees negation shows that the criterion is exact |
| C87 | entsql: what the condition of a joined list of queries means | C77 and C80 on the reading of the joined text |
| C88 | gormq: which table each column of the condition belongs to | lookup of every column among the tables of the statement |
| C89 | gormq: what adding fields to a model does to old queries | induction on the rendering (C50) under both schemas |
| C90 | entsql: the condition of an edge beside the edge's own condition | induction on where the edge is asked for; the reader of C80 at an offset |
| C91 | Exactly which queries have the same tree | mutual induction on layout (C05) and on the spelling relation |
| C92 | Brackets: what parentheses hold, and when Join isolates its entries | a scanner with a stack; induction on layout, first return to the same depth |
| C93 | The listing of the tokens | cutting at separators; the stack of AST keeps the post-order |
| C94 | What a query with has_edge means, at any depth | the tokens of C77 with the subselects cut out and numbered; induction on the query, also after the edge's own conditions; exactness in a world of formal conditions |
| C95 | Whose column a name in the condition of an edge is | induction on the query |
| C96 | entql: one builder used for many queries | what lies below on the stack does not matter to visit, by induction on the tree; then induction on the queries |
| C97 | what becomes of a -> path | what each expression leaves on the stack, by induction on the layout: names of the path, then a tree that is misbuilt exactly if a right operand begins with a path |
| C98 | conditions of misbuilt trees are not SQL | induction on the layout over what an expression leaves on the stack: the tokens of the top have a name in a place where the reader never accepts one |
| C99 | statements of the generated file | correctness of the checker by induction on the fuel of the machine (code with a failure label falls through or jumps to it, and keeps the variables below its own); the checker evaluated on all rules |
| C100 | text of the grammar | the reader evaluated on the text; then C03/C04 and C99 |
| C101 | statements of tree.go, parse.go | symbolic execution of each function; induction on the list in the one loop; on tokens for Execute; then C99 |
| C102 | statements of node.go, join.go | symbolic execution; induction on the height of the node, on lists in the loops |
| C103 | statements of gormq's queryBuilder | symbolic execution; induction on the height of the node, on lists in the loops |
| C104 | statements of entmq's MiniQLToEntQLBuilder | symbolic execution; induction on the height of the node |

Concurrency: Parse and the back ends share no mutable global state (the maps
`normalize`, `pretties`, `entqlOpMap`, ... are never written), so there is no
schedule to quantify over; no property is listed for it.

## Trusted base

1. The Coq 8.16.1 kernel and `coqc` (`vm_compute` is used in examples and in
   refutation witnesses).
2. `Print Assumptions` after every theorem of the `Props*.v` files prints
   "Closed under the global context", for all 392 theorems: no axiom is
   used, neither of this development nor of the standard library.  Only the
   standard library is imported (`List`, `NArith`, `ZArith`, `Arith`, `Lia`,
   `Bool`).  No `Admitted`, no `Axiom`, no section-less
   `Variable`, no functor, no plugin.
3. That the model is the code: the transcription, checked by reading, and by
   evaluating every case of the repository's own tests in the model
   (`RepoTests.v`).  For the generated `miniquery.peg.go` and `miniquery.peg`
   nothing is transcribed by hand: two scripts (`tools/go2v.py`, `tools/peg2v.py`)
   write down the statements and the text, and C99 and C100 prove that the model's
   machine and grammar agree with them; to be trusted there are the meaning of the
   sixteen kinds of statement (`GoStmt.v`) and the scripts, which stop at any
   line they do not know.  The handwritten functions of the miniquery package are
   in the model twice: as Gallina functions, and statement by statement as written
   by `tools/gofunc2v.py`, a parser for the part of Go they use that stops at
   anything else; C101 to C104 prove that the two agree.  To be trusted there are the
   meaning of the statements (`Gox.v`, with its simplifications in the header), the
   library functions (`GoxMiniLib.v`) and the script.  The Go code was neither built
   nor run.

### What is modelled exactly

- `miniquery.peg.go`: the closure machine of `Init`, construct by construct
  (`mrun`) and, statement by statement, the functions of `_rules` (`GoRules`); every
  rule body including the switches of the generator; `reset`,
  `parse`, `Trim`, `Execute` with its thirty actions, `translatePositions`, 
  `parseError.Error`; `AST`, `print` and the functions that call it.
- `tree.go`: all methods except `AddFloat` (no rule calls it).
- `node.go`, `join.go`, `visitor.go`, `parse.go`: all functions.
- `gormq/miniquery.go`: all functions.
- `entmq/entql.go`, `entmq/entsql.go`, `entmq/entsql_util.go`: all functions.

### Simplifications and what is not modelled

- A Go string is the list of its runes, except in `Utf8`, where it is the list
  of its bytes and C65 connects the two: the parser converts to `[]rune` first,
  where an invalid byte becomes U+FFFD.  The other properties, the back ends'
  included, compare texts as runes and count lengths in runes; statements about
  queries assume `valid_runes`: no rune equals the parser's end symbol 0x110000
  (true of every decoded query, `C65_valid`).
- `uint32` positions and token counts are natural numbers: inputs of 2^32 runes
  or tokens are out of scope (C57: up to 250 million runes nothing wraps); so are memory and stack exhaustion.
- `unicode.ToLower` above 127 (`lo`), `strconv.IsPrint` (`ip`), the `fmt` of a
  float (`ff`), `strings.EqualFold` (`fold_eq`), `db.QuoteTo` (`quote`), ent's
  identifier quoting and `ToSnakeCase` (`ident_sql`), and the text of
  `sqlgraph.HasNeighbors` (`edge_sql`) are arbitrary functions, universally
  quantified in the theorems.  A theorem that needs a fact about one of them has
  it as hypothesis.
- `strings.TrimSpace`, regexp `\s+`, `strings.ToLower` on ASCII, `Atoi` (without
  sign: the grammar has none; 64-bit `int`), `ParseBool`, `%q`, `Fprint` of ints,
  bools, nil, slices are transcribed from the Go library's documented behaviour.
- The texts of errors are modelled (C66, C71) except those of gorm and the two of
  `PopFunction`, which `Parse` never returns.  Of the one `slog` record, when it is written and its size are (C96); the stack of `AST` is a
  list, its `next`/`up` links are lists of children.
- Nodes are values: the code never writes to a node after it was pushed, and
  `popMarked` copies.  That sharing backing arrays makes no
  difference is C64; elsewhere (Names, Errors, marks, the token array) slices are lists.
- gorm: a `*gorm.DB` is the record of the calls made on it (`Joins`, `Where`,
  `AddError`) and its statement's schema.  `Session` adds the handles: after gorm
  v1.25, `Joins` and `Where` work on `getInstance()` (the handle itself for clone 0, a
  new statement for 1, a copy for 2; the error is taken over), `AddError` and
  `Statement.Parse` on the handle itself.  What gorm does with a condition when
  the statement is built is `GormSQL` (C79 only), after gorm v1.31.1 (`Statement.BuildCondition`,
  `AddVar`, `clause.Expr.Build`, `clause.Where`), written down without the source at
  hand: slices expanded to `(?,?)`, `(NULL)` for an empty one, `$n` or `?`, parentheses around a
  condition with " and " or " or " in it when there are several.  Primary-key
  shortcuts, named arguments, `Or`, `Not`, groups and valuers are not modelled.  A schema is the finite maps `getDBName` and `join` read.
- entql: of `entgo.io/ent/entql` only the shape of expressions: `Field` and
  `Value` do not implement `entql.P`, `UnaryExpr` and `BinaryExpr` do; `And`,
  `Or`, `Not`, `EQ`... build the obvious nodes.
- entsql, after ent v0.14.5: `Builder` has a text, arguments, a counter, a
  dialect and errors; `Arg` writes `NULL` for nil, else `?` or `$n` and calls
  `FormatParam` when the argument has one; `Args` separates by `, `; `WriteOp` pads
  on both sides, `IsNull`/`NotNull` on the left only; `Join` sets dialect and
  counter of the joined querier, then appends its text, arguments and errors;
  the predicate of `HasNeighbors(With)` writes a text without arguments of its
  own, renders the condition when it is joined (so `p.Err()` is nil before), and
  hands on the condition's errors.  `Builder.Query` returns text and arguments
  accumulated so far.  `EntWhere` (C80 only) adds predicates of one function, `And`
  with `mayWrap` (parentheses around an `And` inside an `And`, none around a function)
  and `Selector.Where` (an `And` of the conditions so far and the new one), written down
  without the source at hand; `Or`, `Not` and predicates of several functions are not
  modelled.
- Types that `visit` never sees after Parse (`NOther`) are modelled as one extra
  constructor.
