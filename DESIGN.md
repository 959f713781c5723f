# A Rocq model of bokwoon95/sq2

## Method

`/repo` is read as text.  Every Go function that matters for a property is
transcribed into a total, executable Gallina function (`rocq/theories/*Model.v`),
each with a comment citing file and lines; simplifications are stated in that
comment.  Specifications (an SQL lexer, a boolean-expression grammar, a reader
of DDL statements, abstract catalogs, ...) live in separate `Spec*.v` files that
do not use the model's functions, only its data types.  `Properties*.v` contain
the property theorems, each followed by `Print Assumptions`, an `Example` that
shows a concrete case meeting its hypotheses, and the theorems named
`*_refuted`: counterexamples, by computation in the model, to what a user would
expect outside the stated hypotheses (the findings below).

Conventions

* Go strings are byte strings: `bytes := list ascii`.  `range` loops over a
  string decode UTF-8 exactly as Go does (invalid byte -> U+FFFD, width 1).
* Go `error` is a value (`Err`, `LErr`), a run-time panic is a separate outcome
  (`Panic`, `LPanic`) and so is an endless loop where one is possible
  (`LDiverge`), so "never panics" and "always ends" can be true or false.
* `*bytes.Buffer`, `*[]interface{}` and `map[string][]int` threaded through
  `AppendSQL` are one state record; a render is a state transformer that also
  returns the state reached on failure (Go keeps partial writes).
* Text written to the buffer is recorded as chunks (`text`, placeholder with its
  value as ghost data); `flatten` erases the ghost data and gives the bytes Go writes.
* User code that the library calls (row mappers, column mappers, `DDL` methods,
  `Config` functions, predicate hooks) is an arbitrary function or an arbitrary
  sequence of API calls over which the theorems quantify.
* Databases are arbitrary answers: a result set and a place where an error may
  occur (fetch), an oracle of failures (exec), arbitrary rows (introspection).

## Files

| group | model | specification | statements |
|-------|-------|---------------|------------|
| strings, quoting | GoBase, QuoteModel | SpecLex, SpecIdent | PropertiesQuote |
| interpolation | SprintModel | SpecSprint, SpecSprintf | PropertiesSprint |
| rendering of expressions and queries | EffectModel, RenderModel, BuildModel, BoolModel | SpecSim, SpecNames, SpecFormat, SpecText, SpecBool, SpecClauses, SpecQuery | PropertiesBind, PropertiesFormat, PropertiesPred, PropertiesClauses, PropertiesQuery |
| query builders over Go slices | BuilderModel | SpecBuilder | PropertiesBuilder |
| fetch, exec | FetchModel | SpecFetch | PropertiesFetch |
| struct tags | TokenModel, NameModel | SpecToken, SpecName | PropertiesToken, PropertiesName |
| metadata caches | CacheModel, UpsertModel | SpecCache, SpecUpsert | PropertiesCache, PropertiesUpsert |
| migration | DdlModel, MigrateModel | SpecMigrate, SpecExec, SpecColumn | PropertiesMigrate, PropertiesColumn |
| DDL text | DdlModel | SpecSql, SpecDdl, SpecDrop | PropertiesDdl |
| loading of table structs | LoadModel | SpecLoad, SpecT | PropertiesLoad |
| triggers, functions | TriggerModel | SpecTrigger | PropertiesTrigger |
| views | ViewModel | SpecView | PropertiesView |
| metadata of a database | DbModel | SpecDb, SpecDeclare | PropertiesDb |
| introspection | IntroModel | SpecIntro | PropertiesIntro |
| AutoMigrate | AutoModel | SpecAuto | PropertiesAuto |
| Parts of a table set by a DDL method | LoadModel, UpsertModel, TriggerModel | SpecParts | PropertiesParts |
| Introspection scripts, text/template | ScriptText, TemplateModel | SpecScript | PropertiesScript |
| Field methods, comparisons, assignments, windows | FieldModel | SpecField | PropertiesField |
| ReflectTable | ReflectModel | SpecReflect | PropertiesReflect |
| Logging | LogModel | SpecLog | PropertiesLog |
| Typed row accessors | RowModel | SpecRow | PropertiesRow |
| Builder call chains | ChainModel | SpecChain | PropertiesChain |
| Goroutines and pooled buffers | PoolModel, PoolCalls | SpecPool, SpecPoolCalls | PoolFacts, PoolHold, PoolPf, PoolFetchPf, PropertiesPool |
| A shared introspector | SharedModel | SpecShared | PropertiesShared |
| Rendering again | (RenderModel) | SpecTouch, SpecSim | PropertiesTouch (by RenderRel) |
| Scanned columns | (TemplateModel, ScriptText) | SpecColumns | PropertiesColumns (by ScriptPf) |
| Result sets | LifeModel | SpecLife | LifePf, PropertiesLife |
| CASE, CTE chains | ExprModel | SpecExpr | PropertiesExpr |
| Inlined values | InlineModel | SpecInline, SpecSprintf | SprintfFail, InlinePf, PropertiesInline |
| Renaming tables | RenameModel | SpecRename, SpecDdl | RenamePf, PropertiesRename |
| A database that reads the statements | MigrateModel, DdlModel | SpecServer, SpecMigrate, SpecDdl, SpecDrop | ServerFacts, ServerText, ServerStep, ServerForm, ServerOk, ServerRun, ServerCheck, PropertiesServer |
| AutoMigrate on such a database | AutoModel, IntroModel, DbModel | SpecAutoServer, SpecServer, SpecAuto | AutoPf, ServerWrite, PropertiesAutoServer |
| A database that reads SELECT, INSERT, UPDATE, DELETE | RenderModel | SpecReadSql, SpecSql, SpecClauses, SpecPlain | ReadToks, ReadParts, ReadSqlPf, ReadExpr, ReadInsert, ReadMore, PropertiesReadSql, PropertiesReadInsert, PropertiesReadMore, PlainPf, PropertiesPlain |
| From builder calls to the database | ChainModel, FetchModel, RenderModel | SpecChain, SpecPlain, SpecReadSql | PropertiesEnd |
| Declaring more | LoadModel, DbModel | SpecGrow | LoadGrow, GrowExact, PropertiesGrow |

The other files hold proofs.

## Plan per property

| id | what is modelled | how it is proved |
|----|------------------|------------------|
| C01 C02 | `EscapeQuote` as its loop; spec: doubled-quote lexer | strong induction on the string (the loop consumes one or two bytes) |
| C03 | `QuoteIdentifier` with UTF-8 range loop; spec: identifier lexer per dialect | C01/C02 + lemmas on the decoder |
| C04 | `Sprint` over an inductive universe of Go values | case analysis, decimal/hex round-trip by induction |
| C05-C07 | `Sprintf`/`lookupParam` as a scanner state machine | simulation by segments; panic invariant over all scanner states |
| C08 C09 | `BufferPrintf` loop, parametric in the value renderers | induction on segments / on the remaining format |
| C10-C15 C41 | all `AppendSQL(Exclude)` methods as one recursive function on an expression tree | a predicate on renderers closed under every combinator, then induction on the tree; C14 is a relational (two-run) theorem |
| C16 C42 | `FieldInfo.AppendSQLExclude` with `sort.SearchStrings` as binary search; names of tables and columns | correctness of binary search on sorted lists; reading the text back with the lexer |
| C17 C18 | `Not`, `And`, `Or`, `VariadicPredicate` | equality of state transformers; a precedence grammar with evaluation, induction on trees |
| C19-C21 C39 C40 | Select/Insert/Update/Delete `AppendSQL` | inversion of the monadic program |
| C22 | `Column.Set` mode machine | invariant over call sequences |
| C23 C25 | `VariadicQuery`, CASE | induction on lists |
| C24 | CTE/Subquery field cache | map lemma |
| C26 C27 C43 | `fetchContext`, `FetchExists`, `Exec` + `Row` as a state machine driven by an arbitrary result set and an arbitrary (strategy) mapper | induction on the result set |
| C28 | Go slices (pointer, len, cap, heap) and `append` | heap invariant; refutation by computation |
| C29 | cached-position functions | invariant over operation histories |
| C30-C32 C45 | `Migrate` planning; spec: the objects a catalog lists and what each command adds and removes | induction over catalogs using C29; the state after a command list |
| C33 | `ExecContext`, `WriteSQL` | command sequence + oracle for failures |
| C34-C37 | `generateName`, `popBraceToken`, `cutValue`, `splitArgs`, `tokenizeModifiers`, `lexModifiers` | induction on the input with a nesting counter |
| C38 | `createOrUpdate*` | invariant over call sequences |
| C44 | `popIdentifierToken`, `getTriggerInfo`, `getFunctionInfo`, `FilesToFunctions`, `T.Trigger` | a lexical specification of the CREATE statement, induction on its words |
| C46 C47 | the definitions carried by commands; `diffColumn` | inversion of the planning functions |
| C48-C51 | the `AppendSQL` methods of all DDL commands | a token-level reader of DDL statements applied to the emitted text gives the command back; failure iff an unsupported feature |
| C52-C55 C58 | `LoadTable` over a struct given as its fields with tags, and the `T` API | invariants over folds of fields, modifiers and calls |
| C56 | `WithDB`, `WithTables`, `WithDDLViews`, `WithFunctions`, `WithExtensions` | invariants over row lists and option lists, then C30/C45 for the catalog read |
| C57 | `LoadDDLView` and the `V` API | induction over the calls |
| C59 C60 | the decoding of the introspection rows, their reading with failures, `WithDB` on top | a relation between objects and rows per dialect; decoding inverts it (C36, C44, C58 lemmas); inversion of the sequence of queries |
| C61 | `AutoMigrate`: `WithDB` on a database, the options, `Migrate`, `Exec` (with `T.Trigger` among the DDL methods) | loaded tables can be looked up (invariant over fields and DDL calls); composition of C45, C33, C56, C60; a prefix of the commands removes nothing wanted |
| C62 | `LoadTable` with any sequence of `T` calls (columns, constraints, indexes, triggers and their methods) | invariant: nothing ignored, names distinct, handles point at the object of their name; each step equals the name-based specification, induction over the calls; success is characterised call by call |
| C63 | the 20 scripts verbatim; the part of text/template they use; `printList`; `queryContext` | the tokens of a query are its template's tokens with the lists filled in (induction over the template, state classes of the lexer); filling cannot change brackets, ANDs or WHEREs; the WHERE clauses of each of the 512 shapes of Filter (flags, lists empty or not) are computed with holes in place of the lists and compared with the wanted conditions, whose meaning for a row is proved for all lists |
| C64-C67 | the constructors and methods of fields, `cmp`, `In`, `Assign*`, `Window` and its functions; the pieces a value is written in | two renderings that look the same (text, args, params, status) from every state: a congruence for sequencing; formats whose holes are all '{}' are filled left to right; induction over call chains |
| C68 | structs as lists of fields with tags and values; `ReflectTable` field by field | induction over the fields with the tag reader's theorem (C37); composition with LoadTable's columns (C50) and the rendering of a column (C10) |
| C69-C71 | `fetchContext`, `fetchExistsContext`, `execContext` with their deferred logging; `LogQueryStats`; `accumulateResults` | the logged functions project onto the unlogged ones of C21ff. (induction over the rows); case analysis of what is recorded |
| C72 | every accessor as a program over the row; a table of what Scan stores | induction over the calls with an invariant on the row's index; then over the rows |
| C73 | every start function and builder method as a call; a statement is a fold of the calls | induction over the calls from the right against 'all calls' / 'last call' specifications; texts by C20 |
| C74 | which methods each dialect's builder has | C73, then the acceptance conditions of C20 clause by clause |
| C75 | goroutines as programs over a heap of buffers and a pool (Get/Put/Write/Read/Reset, questions to the outside, go statements), interleaved at every operation; the functions of the other models with explicit buffers | an ownership invariant for every schedule (each buffer is in the pool, empty, or held by one variable of one goroutine) reduces a concurrent run to lone runs; weakest preconditions reduce the lone runs to the other models |
| C76 | `queryContext` as a state machine per goroutine over the map, the RWMutex and the goroutines inside the map | a counting invariant (holders of the locks, goroutines in the map), induction over the schedule; every cached template is its script's |
| C77 | `touched`: a statement after any subset of the `WHERE TRUE` writes of insert_query.go:115-117 inside it; `history`: renderings one after another with such writes in between | the logical relation of RenderRel is generalised by a case for a written SELECT, which on sqlite renders as before. Refuted across dialects. |
| C78 | the Scan calls of introspect.go as a table; the columns and the ORDER BY of a query read from its tokens | filling in names changes no keyword, bracket depth or select list (induction over the tokens); the 20 templates are checked for each of the 2^9 shapes of filter by computation |
| C79 | the control flow of every function that is given a database, in a small language with defer, panic and recover; its executions as an inductive relation; data is forgotten | an abstract interpreter of the language, proved sound by induction on executions, accepts all 16 functions |
| C80 | calls on CASE, CTE and derived columns as steps on the nodes of RenderModel | fold lemmas by induction on the chain (the last of a kind wins), then the rendering as pieces (SpecField.writes) |
| C81 | rendering into an empty state followed by sprintf (inline), the list of index columns | the places of the rendering (C11, C13) and the segments Sprintf reads (C05, made an equivalence in SprintfFail) designate the same values: induction on the layout |
| C82 | RenameTableCommand as a sequence of writes; indexing out of range is a panic | token by token as C50: the text lexes to the tokens of the statement, which the reader takes apart; the MySQL loop by induction on the slices |
| C83 | SpecServer: a database is a list of objects with definitions; a statement is tokenized, read with the readers of C48-C50 and carried out or refused | the shape of every command of a migration (ServerForm); each command, in a state that has what it needs, is read as what it says and carried out (ServerStep, from C48-C50); an invariant on the state after each prefix of the commands (ServerRun), by induction on the prefix; the last state by C30/C31 |
| C84 | the same database answers ExecContext | in every prefix state the next command has what it needs: wanted objects are kept (C31), missing ones are made by commands of a smaller rank (C33), nothing is made twice or dropped twice |
| C85 | SpecAutoServer: the conditions of C83/C84 said of the structs and of the rows the catalog queries return; what is declared, with its definition | C84 (`migration_carried_out`) applied to the catalogs that C61 (auto_compared) show to be read and declared; ServerWrite: every command of an expressible migration has SQL |
| C86 | SpecReadSql: a reader of token lists that knows the keywords of the clauses only; the relations between what it finds and the fields of the query; which components it can follow | C20's clause decomposition (`select_is_its_clauses` …) read token by token: each clause writes its keywords and a body without clause words outside of parentheses (ReadToks rules for sequences, ReadParts for lists, joins, WITH), so the reader stops exactly at the next clause; ReadExpr: columns, tables, values, conditions, statements, set operations and subqueries are such components; ReadMore: so are tests, IN lists, EXISTS, row values, the functions, windows, CASE and nested lists, from the texts C66 and C80 give them; SpecPlain: a grammar of expressions, conditions, windows, tables and statements that says nothing about texts, PlainPf: by induction over it everything it has can be followed, so every statement of the grammar is read back |
| C87 | SpecReadSql: the same reader for INSERT; a query that supplies the rows ends at CONFLICT, DUPLICATE or RETURNING, the ON before it is taken off | ReadInsert: as C86; the clauses of the SELECT have none of these words outside of parentheses |
| C88 | The chain of calls (C73), Fetch, FetchExists and Exec (C43), the grammar and the reader (C86, C87), composed | What is sent is the text of ToSQL (C43) for the statement the calls ask for (C73), which is a statement of the grammar and so is read back (C86, C87) |
| C89 | Loading structs (C55, C56) into tables and metadata that hold something | Invariant of every step of loading: each list of objects grows (the old elements in place, changed as allowed, new ones behind); handles of the DDL method point to objects whose names stay; chained over options |

## Trusted base

* Coq 8.16.1's kernel (with its bytecode evaluator, used by `vm_compute` in
  examples, refutations, C63, C78 and C79).  No axioms: every `Print Assumptions` in
  `Properties*.v` answers "Closed under the global context".  `vcheck` also
  lists the parameters of `Coq.ssr.ssrunder`; they belong to a standard library
  module that is loaded by `Lia`/`Bool` and no theorem uses them.
* The reading of the Go code recorded in the comments of the model.
* The specifications named above.

Modelled: the functions cited in the `*Model.v` files, that is (package sq)
quoting, interpolation, all `AppendSQL` methods of fields, predicates, tables,
queries and clauses, the query builders' methods, `Fetch*`/`Exec*`; (package
ddl) metadata, caches, struct loading, the `T`, `TColumn`, `V` ... APIs,
migrations with all their commands and their texts, triggers and functions,
database metadata.

Not modelled: database drivers and servers; the SQL of the introspection
scripts apart from their WHERE clauses (their rows are arbitrary); the Go runtime's maps' iteration order (it
is never relied upon in the code modelled; where a map is ranged over, the model
says so); `reflect` beyond the list of fields it yields; `time`/`float`
formatting (opaque texts) and `strconv` acceptance of numerals (a parameter);
`fs.FS` (files are given by name and content); data races inside one Go operation, a
context that is cancelled while the asynchronous logger runs, the buffer of
`getColumnNamesAndExprs` and `GetTriggers`; durations, callers and error texts in the log (parameters).

## Findings

Each is a `*_refuted` theorem (by computation in the model) unless marked with
(n), which is noted from reading only.

* Quoting: MySQL's backslash escapes can end a literal (C01); `EscapeQuote`
  leaves already doubled quotes alone, so two strings can denote one (C02);
  reserved words are not quoted (C03, C48); CTE names, constraint columns, CREATE
  SCHEMA names and some others are written raw (C42, C48, C50).
* Interpolation: a placeholder or quote as the first character, brackets, and
  sqlserver's `@p` forms are misread (C05); sqlite `Sprintf` can panic (C07);
  nil valuers panic, valuers returning bytes are not escaped as Postgres wants (C04).
* Formats: nested ordinals, numeral parameter names, and a `Param` sharing its
  name with a `sql.NamedArg` are bound to other values (C13); ordinal entries
  remain in the params map after an error (C15); a trailing `{` panics (C41).
* Predicates: negated lists, empty operands and negated custom predicates are
  rendered with another meaning (C18).
* Queries: an injected predicate without WHERE leaves a dangling AND, UPDATE
  drops it, DELETE ignores hooks of USING and JOIN tables (C19); conflict
  clauses are dropped for sqlserver (C21); `Column.Set` misassigns values when
  rows name columns in different orders (C22); operands' ORDER BY/LIMIT are not
  parenthesised in set operations (C23); LEFT JOIN without ON is accepted (C39).
* Builders: derived queries share spare slice capacity; `DeleteFrom` changes its
  base; `OnConflict` values share one query (C28); sqlite INSERT ... SELECT
  changes the shared SelectQuery (C77).
* Fetch: `Close` in the collecting call, mappers without fields (C26); a nested
  `ProcessErr` error is lost, and so is a Scan error when a field's argument
  cannot be shown, e.g. a nil pointer to a valuer (C27); `FetchExistsContext` drops its context,
  `FetchExists`/`Exec` do not recover panics (C43).
* Tags and names: `key=` panics, a wide space loops for ever (C37); strings
  inside brackets are not recognised (C36); generated names collide when long
  and are cut inside a character (C34).
* Metadata caches: appending an ignored object hides its namesake; a lookup that
  hits an ignored object forgets the name; extensions appended directly are not
  found (C29); redefining a constraint keeps stale attributes (C38).
* Migration: UpdateExisting alone creates tables without a name (C32); wanted
  objects are dropped when the wanted schema is unqualified or caches are not
  filled (C31); ignored columns are dropped (C30); an index that moves to
  another table is lost (C45); Postgres' ALTER COLUMN has no column name,
  changed defaults are not noticed (C47); ignored parts leave stray commas (C49);
  a MySQL script starting with a function is broken, WriteSQL panics on an empty
  command (C33); SQLite never drops materialized views and skips constraint
  changes, indexes of materialized views are not updated, `WriteSQL` ignores
  writer errors, DROP FUNCTION is always CASCADE (n).
* DDL text: tables whose constraints have no columns, MySQL CREATE INDEX is not a
  statement (C48); SQLite's CREATE INDEX is given a schema-qualified table, MySQL
  FULLTEXT drops UNIQUE, DEFAULT is dropped beside identity/generated (n).
* Struct loading: index names are rejected, table-level references always fail,
  shared constraint names lose columns, ignored keys still mark columns (C53); an
  ignored column lets a second field of that name through (C52); some defaults
  miss their brackets (C58).
* Triggers and functions: U+3000 hangs the scan, a quoted table name is refused,
  function arguments end at the first `)`, a dot in them is taken for the
  schema's, a quoted name with `)` panics (C44).
* Views: unexported fields, views without a query, and a blank trigger text are
  accepted; `RefreshIndexCache` is needed by hand (C57).
* Database metadata: extensions that were read and functions given to
  `WithFunctions` are not found (C56).
* Introspection: an index of a single expression loses it, or panics in Postgres;
  SQLite's DESC, COLLATE, quoted columns and predicates with brackets are errors;
  names with commas are split; NOT VALID checks and MySQL's escaped checks keep
  their decoration; suffixed MySQL versions are errors; SQLite's views are cut at
  a later AS; generated columns, virtual modules and constraint names of SQLite
  are lost (C59); `GetExtensions` ignores rows.Err (C60); postgres_columns.sql tests WithoutTables against WithTables,
  mysql_constraints.sql yields WHERE AND with IncludeSystemCatalogs (C63); the scripts' test for system objects hides
  user schemas such as pgapp and user tables such as SQLiteStats (C63); a backslash in a name leaves its literal on MySQL (C63);
  the index scripts hide an index that shares its name with any constraint anywhere, Postgres functions are only read if
  visible in the search path, postgres_views.sql passes unquoted names to to_regclass (n).
* AutoMigrate: structs without a schema make the tables they describe be dropped;
  an existing table whose struct says Ignore is dropped (C61).
* Fields: Eq of predicates is written without brackets, ordered fields keep DESC
  inside comparisons, In of an empty slice is not SQL (C64); FieldfDialect without a
  default fails even for its own dialect (C65); a window loses its fields' errors
  (C66); AssignExcluded and its kin write names unquoted (C67).
* ReflectTable with another alias leaves the columns with the old one; unnamed fields of other
  types stay unnamed; an unexported first field panics (C68).
* A mapper's panic is logged as success; with sq.Log, an argument that is a nil pointer with a Value
  method makes Exec panic after it was executed; NULL results are logged as errors (C69-C71).
* ScanJSON of a NULL column fails the whole Fetch (C72).
* OnConflict() without fields followed by DoUpdateSet: the conflict clause is dropped silently (C73).
* DoNothing cannot be undone by a later DoUpdateSet (C73).
* DELETE's OrderBy replaces the earlier one, unlike SELECT's and UPDATE's (C73); SelectDistinct and SelectOne drop the fields of earlier Select calls.
* The MySQL builder offers FullJoin and writes FULL JOIN, which MySQL does not have (C74).
* MySQL's DeleteFrom(t, u) without Using deletes from t only, silently (C74).
- Rendering an INSERT ... SELECT without WHERE for sqlite writes `WHERE TRUE` into the SELECT that all copies of the
  INSERT share: a later rendering for postgres or mysql contains it (rendering_other_dialect_refuted), and two goroutines
  that render copies of the same INSERT for the first time race on that write (not modelled: C75 models buffers).
- mysql_columns.sql computes is_notnull as `NOT c.is_nullable`, where is_nullable is 'YES' or 'NO': both are 0 as
  numbers, so MySQL returns 1 for every column (by reading; SQL evaluation is not modelled).
- `{:nameonly}` writes a name that must be quoted without quotes (C08: nameonly_unquoted_refuted), and writes nothing for
  an expression without a name.
- A query as result of a CASE branch is not bracketed (C80: case_query_not_bracketed_refuted). The name and columns of a CTE are
  written bare in its definition and quoted in cte.Field (C80: cte_name_unquoted_refuted).
- A value at the very beginning of a DDL expression stays a placeholder in the schema, and an expression that begins with a
  quoted column and holds a value is rejected (C81: leading_value_stays_placeholder_refuted,
  leading_quoted_column_rejected_refuted).
- RenameTableCommand writes RENAME TABLE a RENAME TO b for MySQL, which MySQL does not accept; ignores RenameToSchemas
  elsewhere; panics when a slice is shorter (C82).
- A migration whose wanted catalog has a schema that is missing can never run in SQLite: there is no SQL for CREATE SCHEMA, which is
  the first command (C84, second alternative).

## Wrong programs

`seeded/LOG.jsonl` records every edit of the model tried in a scratch copy, the
claim it breaks, the proofs that failed and what was tightened.
