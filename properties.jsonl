{"id": "C01", "title": "Escaped text cannot terminate its own literal", "statement": "For every string s and every quote byte q (including strings that already contain quotes, backslashes, NULs or invalid UTF-8), q + EscapeQuote(s,q) + q is read by an SQL lexer that treats a doubled quote as an escaped quote as exactly one complete literal: the literal ends at the last byte and nowhere earlier, whatever text (not starting with q) follows.", "quantifier": "all byte strings, all quote bytes, all following text", "why_tests_cant": "the set of strings is infinite; an injection needs only one un-doubled quote at one position", "anchors": ["sq.go:EscapeQuote"]}
{"id": "C02", "title": "What an escaped literal denotes", "statement": "Un-doubling the quotes of EscapeQuote(s,q) gives back exactly s with every already doubled quote pair that is followed by at least one more byte collapsed to a single quote; in particular it gives back s itself whenever s has no two adjacent quotes, and EscapeQuote is injective on such strings. (The unrestricted round trip is false of the code and is refuted.)", "quantifier": "all byte strings and quote bytes", "why_tests_cant": "equality must hold for every string; the failing strings (adjacent quotes) are rare in test data", "anchors": ["sq.go:EscapeQuote"]}
{"id": "C03", "title": "A quoted identifier is one identifier token naming the same object", "statement": "For every dialect and every identifier, QuoteIdentifier returns text that the dialect's lexer reads as exactly one identifier token; it is left bare only if it matches [a-z_][a-z0-9_]*; the token's name is the given identifier whenever the identifier contains no two adjacent closing-quote bytes, hence two such different identifiers never render to the same text.", "quantifier": "all dialects, all identifier byte strings", "why_tests_cant": "infinitely many identifiers, including ones with quotes, brackets, multi-byte and invalid UTF-8", "anchors": ["sq.go:QuoteIdentifier", "sq.go:EscapeQuote"]}
{"id": "C04", "title": "Interpolated values are single literals of the right value", "statement": "For every dialect and every supported Go value (nil, bool, string, []byte, ints, sql.Null*, NamedArg, pointers to those), Sprint succeeds and returns exactly one SQL literal: NULL/TRUE/FALSE, a decimal numeral whose value is the integer, a hex blob that decodes to the same bytes, or a quoted string that cannot end early.", "quantifier": "all dialects, all values of the supported types, any pointer depth", "why_tests_cant": "unbounded values; round trip must hold for every integer, byte slice and string", "anchors": ["fmt.go:Sprint", "sq.go:EscapeQuote"]}
{"id": "C05", "title": "Sprintf substitutes exactly the placeholders and nothing else", "statement": "For every query that is a sequence of plain text, quoted strings/identifiers (with doubled quotes inside) and placeholders each followed by a name-terminating character, Sprintf returns the same sequence with each placeholder replaced by the literal of the argument it designates and every other byte (in particular placeholder look-alikes inside quotes) unchanged. The guard excludes a special first character: there the code's behaviour is refuted.", "quantifier": "all dialects, all segment sequences of any length, all arguments", "why_tests_cant": "query texts are unbounded and the scanner is a state machine whose state depends on the whole prefix", "anchors": ["fmt.go:Sprintf", "fmt.go:lookupParam"]}
{"id": "C06", "title": "Sprintf without arguments is the identity; unclosed quotes are rejected", "statement": "Sprintf with no arguments returns the query byte for byte for every query; with arguments it reports an error for every query whose scan ends inside a quoted string or identifier.", "quantifier": "all queries and dialects", "why_tests_cant": "unbounded query text", "anchors": ["fmt.go:Sprintf"]}
{"id": "C07", "title": "Interpolation never crashes the program", "statement": "Sprintf never panics for postgres, mysql, sqlserver or other dialects, for any query text and any arguments; for sqlite it can panic only on an anonymous '?' placeholder after all the arguments have been consumed (and there it does: refuted in general).", "quantifier": "all dialects, query byte strings, argument lists", "why_tests_cant": "a panic needs one specific combination of text and argument count", "anchors": ["fmt.go:Sprintf", "fmt.go:lookupParam"]}
{"id": "C08", "title": "Format strings are expanded left to right, text verbatim", "statement": "For every format made of any sequence of brace-free text, '{{' escapes, '{}' and '{n}' references and any values, BufferPrintf writes the text verbatim, writes '{' for each '{{', and expands the i-th '{}' with the i-th value and '{n}' with the n-th value, in order; a format without '{' is written verbatim whatever values are passed.", "quantifier": "all formats, values, dialects and buffer states", "why_tests_cant": "unbounded formats and value lists", "anchors": ["fmt.go:BufferPrintf"]}
{"id": "C09", "title": "Missing values are reported, not mis-bound", "statement": "If a format asks for more values than were passed, for an ordinal out of range, or for a name that is not provided, BufferPrintf returns an error; it never silently binds another value.", "quantifier": "all formats and value lists", "why_tests_cant": "every position of the missing reference inside an unbounded format", "anchors": ["fmt.go:BufferPrintf"]}
{"id": "C10", "title": "Rendering only appends", "statement": "Rendering any expression, predicate, table or query, whether it succeeds or fails, leaves everything already written to the buffer as a prefix of the result and never removes an argument: the argument list only grows, and a pre-existing argument can only be replaced through a parameter name that was registered for it.", "quantifier": "all expression trees, dialects, start states, including failing renders", "why_tests_cant": "trees are unbounded; partial failures can happen at any node", "anchors": ["fmt.go:BufferPrintf", "fmt.go:BufferPrintValue", "param.go:NamedParam.AppendSQLExclude", "sq.go:explodeSlice"]}
{"id": "C11", "title": "MySQL: the n-th '?' is bound to the n-th argument", "statement": "For every expression or query tree, rendering for mysql emits exactly one '?' per argument, in order: the sequence of values attached to the placeholders from left to right is the argument list.", "quantifier": "all trees, of any depth, all values", "why_tests_cant": "positional binding is a global property of the whole traversal", "anchors": ["fmt.go:BufferPrintValue", "sq.go:explodeSlice", "param.go:NamedParam.AppendSQLExclude"]}
{"id": "C12", "title": "Every numbered placeholder refers to an existing argument, and every argument is used", "statement": "For every tree and the dialects postgres, sqlite and sqlserver, each ordinal $n/@pn emitted by the library satisfies 1 <= n <= number of arguments, and each argument has at least one placeholder that refers to it.", "quantifier": "all trees and start states reachable by rendering", "why_tests_cant": "holds only if every code path that appends an argument writes its placeholder with the same index", "anchors": ["fmt.go:BufferPrintValue", "sq.go:explodeSlice", "param.go:NamedParam.AppendSQLExclude"]}
{"id": "C13", "title": "Each placeholder is bound to the value written at that place", "statement": "If parameter names are used consistently (one value per name, and nested formats do not reuse a live ordinal for another value), then after rendering any tree the argument that a placeholder refers to is the very value that stood at that place in the tree. (Without the condition this is false: an ordinal in a nested format picks up the outer format's argument; refuted.)", "quantifier": "all trees with consistent names, all dialects", "why_tests_cant": "a wrong binding needs a particular nesting of formats", "anchors": ["fmt.go:BufferPrintf", "fmt.go:BufferPrintValue", "param.go:NamedParam.AppendSQLExclude"]}
{"id": "C14", "title": "Bound values never influence the SQL text", "statement": "Replacing the bound values in a tree by any other values of non-appender type leaves the rendered SQL text, the placeholders, the params map and the error status unchanged, and replaces exactly the corresponding arguments. So no value, however hostile, can alter the SQL text.", "quantifier": "all trees, all dialects, all value substitutions", "why_tests_cant": "a hyperproperty: relates two runs for every pair of values", "anchors": ["fmt.go:BufferPrintValue", "sq.go:explodeSlice", "param.go:NamedParam.AppendSQLExclude"]}
{"id": "C15", "title": "The returned params map locates named parameters", "statement": "After rendering any tree, every index listed in the params map is a valid argument index; with consistent names the argument there is the value of the parameter of that name; and a successful format leaves no ordinal entries of its own behind.", "quantifier": "all trees, dialects", "why_tests_cant": "the map is mutated by every nested call, including deletions", "anchors": ["fmt.go:BufferPrintf", "param.go:NamedParam.AppendSQLExclude"]}
{"id": "C16", "title": "Table qualifiers are dropped exactly for excluded tables", "statement": "For every field and every ascending list of excluded qualifiers, the field is rendered without its table qualifier iff the table's alias (or name if it has no alias) is in the list; otherwise it is rendered with it.", "quantifier": "all fields and all sorted exclusion lists of any length", "why_tests_cant": "binary search over lists of any length", "anchors": ["field_info.go:FieldInfo.AppendSQLExclude"]}
{"id": "C17", "title": "Negating twice gives back the predicate", "statement": "Not(Not(p)) renders, for every dialect, environment and state, to the same SQL and arguments as p, for every library predicate p.", "quantifier": "all predicates, dialects, states", "why_tests_cant": "quantifies over all predicates and render contexts", "anchors": ["predicate.go:Not", "predicate.go:VariadicPredicate.Not", "predicate.go:CustomPredicate.Not"]}
{"id": "C18", "title": "AND/OR/NOT trees keep their meaning when rendered", "statement": "For every tree built from And, Or and Not over atomic predicates, rendered as an operand (not in clause position), the SQL text parsed with the standard precedence NOT > AND > OR is a boolean expression equivalent to the tree under every (three-valued) assignment of the atoms. In clause position (WHERE/ON/HAVING) the same holds unless the whole clause is a negated list, where it is refuted.", "quantifier": "all predicate trees of any depth and width, all three-valued assignments", "why_tests_cant": "precedence bugs only appear for particular nestings", "anchors": ["predicate.go:VariadicPredicate.AppendSQLExclude", "predicate.go:And", "predicate.go:Or"]}
{"id": "C19", "title": "Injected tenant predicates are enforced by SELECT and DELETE", "statement": "Whenever the FROM table (or, for SELECT, a joined table) has a predicate hook that returns a predicate, every successfully rendered SELECT, and every rendered DELETE for its FROM tables, contains that predicate as a conjunct of its WHERE clause, for every environment; a hook error aborts rendering. (UPDATE drops it: refuted.)", "quantifier": "all queries, tables, hooks and environments", "why_tests_cant": "must hold for every query shape; one missed path leaks rows", "anchors": ["select_query.go:SelectQuery.AppendSQL", "delete_query.go:DeleteQuery.AppendSQL", "update_query.go:UpdateQuery.AppendSQL"]}
{"id": "C20", "title": "The clauses of a statement appear once each and in SQL order", "statement": "A successfully rendered SELECT consists of the renderings of WITH, SELECT [DISTINCT [ON]] fields, FROM, JOIN, WHERE, GROUP BY, HAVING, ORDER BY, LIMIT, OFFSET in this order, each present iff the builder set it; and likewise for INSERT, UPDATE and DELETE with the clauses of their grammar. It is rendered without error iff the dialect accepts the set clauses and every component renders.", "quantifier": "all SELECT, INSERT, UPDATE and DELETE queries, dialects, environments", "why_tests_cant": "exponentially many clause combinations with unbounded contents", "anchors": ["select_query.go:SelectQuery.AppendSQL"]}
{"id": "C21", "title": "Features a dialect does not support are rejected", "statement": "For every query, rendering for a dialect that lacks a feature returns an error instead of SQL: DISTINCT ON outside postgres, RETURNING outside postgres/sqlite, ORDER BY/LIMIT/OFFSET in UPDATE and DELETE, USING/JOIN in DELETE, RIGHT/FULL JOIN in sqlite, named arguments in postgres/mysql.", "quantifier": "all queries that use the feature, whatever the rest of the query is", "why_tests_cant": "must hold whatever the other clauses are", "anchors": ["select_query.go", "update_query.go", "delete_query.go", "insert_query.go", "join_table.go", "fmt.go:BufferPrintValue"]}
{"id": "C22", "title": "Column.Set builds rectangular inserts", "statement": "For every sequence of Set calls made by a column mapper that sets the same columns in the same order for each row, the collected INSERT has one row per repetition, all rows have as many values as there are columns, and value j of row i is the one given for column j in repetition i. For any sequence of calls whatever: a new row begins with each call for the column of the first call, the columns are those set in the first row, the rows hold the values in the order given.", "quantifier": "all column lists, all numbers of rows, all values", "why_tests_cant": "any number of rows and columns", "anchors": ["column.go:Column.Set", "insert_query.go:InsertQuery.AppendSQL"]}
{"id": "C23", "title": "UNION/INTERSECT/EXCEPT keep grouping", "statement": "For every nesting of Union, UnionAll, Intersect, IntersectAll, Except and ExceptAll over queries, the rendered SQL, read with left-associative operators and any assignment of two precedence levels to them, denotes the nested operation the user wrote; a single operand renders as itself.", "quantifier": "all query trees", "why_tests_cant": "unbounded nesting", "anchors": ["variadic_query.go:VariadicQuery.AppendSQL"]}
{"id": "C24", "title": "CTE and subquery fields always exist", "statement": "Accessing a field of a CTE or subquery that its query does not produce never yields SQL: rendering reports an error; accessing one it produces yields the alias-qualified name.", "quantifier": "all CTEs/subqueries and field names", "why_tests_cant": "all field names", "anchors": ["cte.go", "subquery.go"]}
{"id": "C25", "title": "CASE expressions are well formed", "statement": "A CASE expression with no WHEN branches is always an error; otherwise WHEN/THEN pairs appear in order followed by at most one ELSE and END.", "quantifier": "all branch lists", "why_tests_cant": "unbounded branch lists", "anchors": ["case.go"]}
{"id": "C26", "title": "Fetch maps every row exactly once, in order", "statement": "For every result set and every row mapper, Fetch calls the mapper once to collect fields and then once per row in order until the result ends, the mapper closes the row or an error occurs; it returns the number of rows it began, and scanned values reach the mapper in the order in which the fields were requested. (A Close outside Process in the collecting call ends after one row, a mapper without fields is never called, nested ProcessErr errors are lost: refuted.)", "quantifier": "all result sets, all mappers, all error positions", "why_tests_cant": "all result lengths and interruption points", "anchors": ["fetch.go:fetchContext", "row.go"]}
{"id": "C27", "title": "A mapper error or scan error stops Fetch and is returned", "statement": "If the mapper reports an error for row k or scanning row k fails, Fetch returns that error, does not map any later row, and reports k as the row count (the failing row is counted). For a scanning error this needs that every column asked for can be shown (it renders without panic and so does the interpolation of its arguments): the columns are listed in the error text, and a panic there replaces the error (refuted otherwise).", "quantifier": "all rows k, all result sets", "why_tests_cant": "any failing position", "anchors": ["fetch.go:fetchContext", "row.go"]}
{"id": "C28", "title": "Derived builders do not disturb their base", "statement": "Builder methods return new queries: after any sequence of builder calls every query built so far still holds exactly the clauses it was built with, however much spare capacity append reserves, provided no clause list is extended twice from the same query (or lists are only extended when their array is full) and DeleteFrom is not called on a query that has a table. (Without the proviso this is refuted: a second derived query overwrites the clauses of the first.)", "quantifier": "all builder histories", "why_tests_cant": "aliasing shows only for certain capacities and call orders", "anchors": ["select_query_postgres.go", "delete_query_postgres.go"]}
{"id": "C29", "title": "Metadata lookups find exactly the object of that name", "statement": "After any sequence of appends, of direct edits to the object slice followed by a refresh, and of lookups, the cached position of a table/column/constraint/index/trigger/view/schema is the index of an object with that key, and is -1 exactly if no (non-ignored) object has the key.", "quantifier": "all operation histories", "why_tests_cant": "stale caches only show after particular histories", "anchors": ["ddl/schema.go", "ddl/table.go", "ddl/database_metadata.go"]}
{"id": "C30", "title": "Migrating to the present state is a no-op", "statement": "For every catalog, every dialect and every mode, migrating from a catalog to the same catalog produces no command except for extensions, and no command at all if the extensions can be looked up. Conditions: lookups by name find what is in the catalogs (C29), names within a catalog are distinct and not empty, every object carries the name of the schema and table it is in, no wanted schema is nameless while a current schema is set; with DropExtraneous nothing in the catalog is ignored (refuted otherwise).", "quantifier": "all catalogs of any size, all modes", "why_tests_cant": "catalogs are unbounded", "anchors": ["ddl/migration.go:Migrate"]}
{"id": "C31", "title": "Nothing wanted is ever dropped", "statement": "No drop command produced by Migrate names a schema, table, column, constraint, index, trigger or view that the wanted catalog contains (non-ignored), and without DropExtraneous there are no drop commands at all; with DropExtraneous everything else is dropped (except schemas, which Migrate never drops, and SQLite's constraints and functions). Conditions: lookups by name find what is in the catalogs (C29), names within a catalog are distinct and not empty, every object carries the name of the schema and table it is in, no wanted schema is nameless while a current schema is set, nothing in the actual catalog is ignored, and an index or trigger name belongs to the same table in both catalogs (each refuted otherwise); for the last part also that no wanted view has indexes or triggers of its own, wanted functions have distinct names and SQLite has no materialized views.", "quantifier": "all pairs of catalogs, all modes", "why_tests_cant": "all pairs of catalogs", "anchors": ["ddl/migration.go:Migrate"]}
{"id": "C32", "title": "Everything missing is created exactly once", "statement": "With CreateMissing, a wanted, non-ignored schema, table, column, constraint, index, trigger, view or function absent from the actual catalog is created by exactly one command, and nothing else is created (SQLite: not for constraints of existing tables and functions). Conditions: lookups by name find what is in the catalogs (C29), names within a catalog are distinct and not empty, every object carries the name of the schema and table it is in, no wanted schema is nameless while a current schema is set, no wanted view has indexes or triggers of its own; 'exactly one' also needs the conditions of C31.", "quantifier": "all pairs of catalogs", "why_tests_cant": "all pairs of catalogs", "anchors": ["ddl/migration.go:Migrate"]}
{"id": "C33", "title": "Migration commands run in dependency order and stop at the first failure", "statement": "ExecContext executes the non-ignored commands in a fixed group order (schemas, extensions, functions, tables, ... drops), each at most once, and the statements sent to the database before a failure are exactly a prefix of that sequence; WriteSQL writes the same commands in the same order.", "quantifier": "all migrations, all failure points", "why_tests_cant": "all crash points", "anchors": ["ddl/migration.go:ExecContext", "ddl/migration.go:WriteSQL"]}
{"id": "C34", "title": "Generated constraint names fit the database limit", "statement": "generateName never exceeds 63 bytes whatever the table and column names are, keeps the full suffix naming the constraint type and contains no blanks; it is not injective (refuted).", "quantifier": "all table names and column lists", "why_tests_cant": "names are unbounded", "anchors": ["ddl/ddl.go:generateName"]}
{"id": "C35", "title": "Brace-quoted tokens survive tokenising", "statement": "For every text with balanced braces, quoting it with braces and tokenising gives the text back as one token and leaves the remaining input unchanged; unbalanced braces are an error.", "quantifier": "all balanced texts, all continuations", "why_tests_cant": "unbounded nesting depth", "anchors": ["ddl/fmt.go:popBraceToken", "reflect_table.go:cutValue"]}
{"id": "C36", "title": "Splitting argument lists loses nothing", "statement": "splitArgs splits exactly at top-level commas: joining the pieces with commas gives the input back, and commas inside quotes, parentheses or brackets never split.", "quantifier": "all argument strings", "why_tests_cant": "unbounded nesting and length", "anchors": ["ddl/fmt.go:splitArgs"]}
{"id": "C37", "title": "Struct tag modifiers are decoded faithfully", "statement": "For every list of key / key=value modifiers (values brace-quoted when needed), tokenising their textual form gives back the list in order; a 'key=' with empty value crashes the tokenizer (refuted safety).", "quantifier": "all modifier lists", "why_tests_cant": "unbounded lists and values", "anchors": ["ddl/fmt.go:tokenizeModifiers", "reflect_table.go:lexModifiers"]}
{"id": "C38", "title": "Upserting a constraint or index keeps names unique", "statement": "After any sequence of DDL calls that define constraints (or indexes) on a table, there is exactly one constraint per distinct name used, and it has the columns of the last call.", "quantifier": "all call sequences", "why_tests_cant": "all histories", "anchors": ["ddl/t.go:createOrUpdateConstraint", "ddl/t.go:createOrUpdateIndex"]}
{"id": "C39", "title": "Joins are always well formed", "statement": "A join renders to SQL only if it has a table, if JOIN, RIGHT JOIN and FULL JOIN have a condition, and if the dialect has the join type; the SQL is then the join type, the table with its alias, and ON with the condition. (LEFT JOIN without condition is accepted: refuted.)", "quantifier": "all join lists", "why_tests_cant": "unbounded lists", "anchors": ["join_table.go"]}
{"id": "C40", "title": "INSERT conflict clauses are rendered only in the dialect that has them", "statement": "ON CONFLICT appears only for sqlite and postgres, ON DUPLICATE KEY UPDATE only for mysql; and INSERT requires a table and at least one source of values.", "quantifier": "all insert queries", "why_tests_cant": "all clause combinations", "anchors": ["insert_query.go:InsertQuery.AppendSQL"]}
{"id": "C41", "title": "Rendering never panics on well-formed input", "statement": "Rendering any tree whose formats are sequences of text and complete holes, whose subqueries have a query and whose DELETE tables are not nil ends normally or with an error, never with a run-time panic. (A format ending in '{', and nil tables in a MySQL multi-table DELETE, do panic: refuted.)", "quantifier": "all such trees, dialects, environments and states", "why_tests_cant": "unbounded trees; a panic needs one unlucky combination", "anchors": ["fmt.go:BufferPrintf", "delete_query.go:DeleteQuery.AppendSQL", "subquery.go:Subquery.AppendSQL"]}
{"id": "C42", "title": "Table and column names reach the database as the given identifiers", "statement": "For every dialect, a rendered table reference reads back (in the database's identifier syntax) as its schema and name, and a rendered column reference as its table's alias or name and its own name, whatever characters the names contain (except adjacent closing quotes, C03). CTE names and columns, conflict constraint names, row aliases and the tables of a mysql multi-table DELETE are written raw: refuted.", "quantifier": "all names, dialects and environments", "why_tests_cant": "all byte strings", "anchors": ["table_info.go:TableInfo.AppendSQL", "field_info.go:FieldInfo.AppendSQLExclude", "cte.go:CTE.AppendSQL"]}
{"id": "C43", "title": "Fetch, FetchExists and Exec send exactly the query", "statement": "The statement and arguments sent to the database are those of ToSQL for the query - with its output columns replaced by the requested ones for Fetch, wrapped in SELECT EXISTS (...) for FetchExists -, under the caller's context; a query that fails to render is not sent. (FetchExistsContext drops the context; FetchExists and Exec do not recover panics: refuted.)", "quantifier": "all queries, mappers, databases and contexts", "why_tests_cant": "all query trees and database behaviours", "anchors": ["fetch.go:fetchContext", "fetch.go:fetchExistsContext", "exec.go:execContext"]}
{"id": "C45", "title": "A migration reaches the wanted state", "statement": "Executing all commands of a migration, in ExecContext's order, on a database that has exactly the objects of the actual catalog leaves exactly the wanted objects (CreateMissing and DropExtraneous), the actual and the wanted ones (CreateMissing), or the actual ones that are wanted (DropExtraneous); schemas are never dropped. A second migration then has nothing to do (extensions aside). Conditions as in C31 and C32.", "quantifier": "all pairs of catalogs, all modes with CreateMissing or without UpdateExisting", "why_tests_cant": "the effect of interleaved creates, alters and drops in all catalogs", "anchors": ["ddl/migration.go:Migrate", "ddl/migration.go:ExecContext"]}
{"id": "C46", "title": "Created objects have the wanted definitions", "statement": "With CreateMissing, every table, column, constraint, index, trigger, view, function and extension in a create or alter command is, with all its attributes, a non-ignored object of the wanted catalog, columns, constraints and indexes in commands for their own table; foreign keys are added separately from the other constraints.", "quantifier": "all pairs of catalogs, valid or not", "why_tests_cant": "all catalogs", "anchors": ["ddl/migration.go:Migrate"]}
{"id": "C47", "title": "UpdateExisting alters exactly the columns that differ", "statement": "With UpdateExisting, the migration alters a column iff it is in both catalogs and differs in type (up to letter case), nullability, presence of a default or (Postgres) presence of an identity. The alteration for MySQL is the wanted definition; for Postgres it changes exactly the attributes that differ to the wanted values. Afterwards the column does not differ. (Postgres: the command does not name the column; a changed default is not noticed: refuted. SQLite: no alterations.)", "quantifier": "all pairs of catalogs", "why_tests_cant": "all columns and attribute combinations", "anchors": ["ddl/migration.go:diffColumn", "ddl/migration.go:Migrate"]}
{"id": "C48", "title": "CREATE TABLE and CREATE INDEX say what the metadata says", "statement": "The text of CreateTableCommand, split into tokens and read as the dialect's databases read it, is one CREATE TABLE (CREATE VIRTUAL TABLE) statement for the table, with exactly the columns, constraints and indexes of the metadata that are not ignored, in order, each with its type, nullability, default, key, generated/identity expression, collation, check, columns, references, rules, exclusion elements, deferrability. The same for CreateIndexCommand (except MySQL). Holds if fragments of SQL in the metadata are complete and the unquoted names are plain words. (Schema names, constraint columns and reserved words are not quoted; a table with constraints only has a stray comma; for MySQL the index command is not a statement: refuted.)", "quantifier": "all tables, columns, constraints, indexes with any names and SQL fragments, all dialects", "why_tests_cant": "an unbounded space of catalogs; quoting, commas and clause order interact", "anchors": ["ddl/table.go:CreateTableCommand.AppendSQL", "ddl/column.go:writeColumnDefinition", "ddl/constraint.go:writeConstraintDefinition", "ddl/index.go:CreateIndexCommand.AppendSQL"]}
{"id": "C49", "title": "ALTER TABLE says what the command says", "statement": "The text of AlterTableCommand, read as the database reads it, is one ALTER TABLE statement whose actions are exactly the added, altered and dropped columns, constraints and indexes of the command, in the documented order, each with all its attributes. (An ignored part or an unchanged column leaves a stray comma: refuted.)", "quantifier": "all alter commands with any parts, names and SQL fragments, all dialects", "why_tests_cant": "all combinations of parts", "anchors": ["ddl/table.go:AlterTableCommand.AppendSQL", "ddl/column.go:AddColumnCommand.AppendSQL", "ddl/column.go:AlterColumnCommand.AppendSQL", "ddl/constraint.go:AddConstraintCommand.AppendSQL"]}
{"id": "C50", "title": "DROP, CREATE VIEW and CREATE EXTENSION say what the command says", "statement": "The texts of the commands that drop tables, views, indexes, triggers, functions and extensions, and that create views, schemas and extensions, read back as exactly that statement with exactly those names (any characters except adjacent closing quotes) and options. (CREATE SCHEMA does not quote its name: refuted.)", "quantifier": "all commands, names and dialects", "why_tests_cant": "all byte strings", "anchors": ["ddl/table.go:DropTableCommand.AppendSQL", "ddl/view.go:CreateViewCommand.AppendSQL", "ddl/view.go:DropViewCommand.AppendSQL", "ddl/index.go:DropIndexCommand.AppendSQL", "ddl/trigger.go:DropTriggerCommand.AppendSQL", "ddl/function.go:DropFunctionCommand.AppendSQL", "ddl/extension.go:CreateExtensionCommand.AppendSQL", "ddl/schema.go:CreateSchemaCommand.AppendSQL"]}
{"id": "C51", "title": "A DDL command fails exactly when the dialect lacks a feature it uses", "statement": "For each DDL command there is an explicit table of which features (IF EXISTS, CASCADE, AUTO_INCREMENT, identities, stored columns, exclusion constraints, deferrable constraints, partial indexes, NOT VALID, ...) each dialect has; the command produces text iff every feature it uses is there, and otherwise ends with an error.", "quantifier": "all commands and dialects", "why_tests_cant": "all combinations of features and dialects", "anchors": ["ddl/table.go:CreateTableCommand.AppendSQL", "ddl/table.go:AlterTableCommand.AppendSQL", "ddl/column.go:writeColumnDefinition", "ddl/index.go:CreateIndexCommand.AppendSQL"]}
{"id": "C52", "title": "The columns of a loaded table are its struct's fields", "statement": "Loading a table struct gives exactly one column per exported field that is a column, in field order, under the field's column name, with the type its tag or the dialect's default for its Go kind gives, and with exactly the modifiers its tag and the calls of its DDL method on it declare for the loaded dialect; a column that alone makes up a primary key or unique constraint is marked so (for structs whose fields have distinct column names and DDL methods that do not toggle Ignore).", "quantifier": "all table structs, tags, dialects and DDL methods", "why_tests_cant": "all tag texts, field lists and call sequences", "anchors": ["ddl/t.go:LoadTable", "ddl/table.go:Table.loadColumnConfig", "ddl/table.go:Table.loadTableConfig", "ddl/ddl.go:defaultColumnType"]}
{"id": "C53", "title": "The constraints and indexes of a loaded table are those its tags declare", "statement": "The constraints, indexes and virtual-table module of a loaded table are exactly those the tags of its fields declare for the loaded dialect, in order, with the declared columns, references, names (or generated ones), actions and flags; a constraint declared again under the same name replaces type and modifiers in place. (A modifier naming an index is always rejected, table-level references always fail, and two columns sharing a constraint name lose the second: refuted.)", "quantifier": "all table structs, tags and dialects", "why_tests_cant": "all tag texts and field lists", "anchors": ["ddl/table.go:Table.loadConstraintConfig", "ddl/table.go:Table.loadIndexConfig", "ddl/table.go:Table.loadTableConfig", "ddl/t.go:LoadTable"]}
{"id": "C54", "title": "A table struct loads exactly when its tags are well-formed", "statement": "A struct loads iff the table has a name and every tag is syntactically well-formed and uses only known modifiers (with well-formed nested configurations); no tag text makes the loader panic or loop. Once the tags say the table is ignored in this dialect it is marked ignored and later tags are not read.", "quantifier": "all table structs, tags and dialects", "why_tests_cant": "all tag texts, including malformed ones", "anchors": ["ddl/t.go:LoadTable", "ddl/table.go:Table.loadTableConfig", "ddl/table.go:Table.loadColumnConfig", "ddl/table.go:Table.loadConstraintConfig", "ddl/table.go:Table.loadIndexConfig"]}
{"id": "C55", "title": "A table's DDL method changes exactly the columns it asks for", "statement": "Any sequence of calls of a DDL method keeps the columns' names and order and changes each column only by the calls on handles obtained for that column; asking for a column panics iff the table has no such column that is not ignored; calls on a handle already obtained never panic.", "quantifier": "all tables and call sequences", "why_tests_cant": "all interleavings of calls on all handles", "anchors": ["ddl/t.go:T.Column", "ddl/t.go:TColumn.Type", "ddl/t.go:TColumn.Default", "ddl/t.go:TColumn.Ignore", "ddl/t.go:TColumn.Unique"]}
{"id": "C58", "title": "Default values are bracketed once, exactly when they must be", "statement": "A default value from a tag is put in brackets iff the dialect needs it and it is not a constant, NULL or already bracketed; doing so again, or converting what the database reports, changes nothing. (Expressions that merely begin and end with brackets or quotes are missed, and the DDL method's Default brackets NULL and bracketed values again: refuted.)", "quantifier": "all default texts and dialects", "why_tests_cant": "all byte strings", "anchors": ["ddl/ddl.go:needsExpressionBrackets", "ddl/ddl.go:toExpr", "ddl/t.go:TColumn.Default"]}
{"id": "C44", "title": "Triggers and functions are recorded under the names written in their statements", "statement": "A CREATE TRIGGER statement is recorded under exactly the trigger name, table and schema written in it (quoted names with their quotes), or is an error; it never panics, and it ends when its white space is ordinary. A table's Trigger call accepts exactly statements on that table, adds the trigger or replaces the text of the one with that name, and changes nothing else. A function file is recorded under its written schema, name, arguments and return type; files give one function each, in order. (Unicode spaces hang the scan, quoted table names are refused, nested brackets and dots in arguments cut names: refuted.)", "quantifier": "all statement texts, tables and dialects", "why_tests_cant": "all byte strings, quotings and white space", "anchors": ["ddl/fmt.go:popIdentifierToken", "ddl/trigger.go:Trigger.populateTriggerInfo", "ddl/function.go:Function.populateFunctionInfo", "ddl/function.go:FilesToFunctions", "ddl/t.go:T.Trigger"]}
{"id": "C57", "title": "A loaded view is what its DDL method declares", "statement": "A view struct loads iff it has a name, only exported fields, named columns, every query set has exactly the struct's columns (as a multiset of aliases or names), and in Postgres every trigger text declares a trigger and indexes are defined only on materialized views. The loaded view then has the text of the last query, is materialized iff asked for (Postgres only), and has one trigger per schema, table and name and one index per name, as last declared; outside Postgres it has neither. (Triggers on other tables, empty trigger texts and views without a query are accepted: refuted.)", "quantifier": "all view structs, dialects and sequences of calls", "why_tests_cant": "all call sequences and column multisets", "anchors": ["ddl/v.go:V.SetQuery", "ddl/v.go:V.Trigger", "ddl/v.go:V.Index", "ddl/v.go:View.LoadDDLView", "ddl/view.go:View.createOrUpdateIndex"]}
{"id": "C56", "title": "The metadata of a database is what was read", "statement": "Reading a database (WithDB) fails iff the dialect is not sqlite, postgres or mysql or a query fails; otherwise the metadata has exactly the schemas, tables, views, functions, columns, constraints, indexes and triggers of the rows, each under its schema and table, in the order of the rows, with the columns of one-column primary and unique keys marked, whatever the metadata held before. Migrating from it then leads from the state the rows tell of to the wanted one, and migrating it to itself touches at most extensions. Reading Go values (WithTables, WithDDLViews, WithFunctions, WithExtensions) fails iff one of them does not declare anything; otherwise each schema holds exactly what was declared in it, in order. (Extensions that were read and functions given to WithFunctions are not found by migrations, and outside Postgres WithFunctions always fails: refuted.)", "quantifier": "all row sets, starting metadata, option lists and dialects", "why_tests_cant": "all databases, interleavings of rows and lists of options", "anchors": ["ddl/database_metadata.go:WithDB", "ddl/database_metadata.go:NewDatabaseMetadata", "ddl/database_metadata.go:WithTables", "ddl/database_metadata.go:WithDDLViews", "ddl/database_metadata.go:WithFunctions", "ddl/database_metadata.go:WithExtensions"]}
{"id": "C59", "title": "Introspection returns exactly the objects the database reports", "statement": "From the rows of the introspection queries, GetTables, GetColumns, GetConstraints, GetIndexes, GetTriggers, GetViews and GetFunctions return exactly the reported objects, in order, for SQLite, Postgres and MySQL: column lists and expressions are put back together whatever commas and quotes the expressions contain, brackets and escapes that only the report adds are removed, and SQLite's index statement is never attributed to other columns than the reported ones. GetVersionNums returns the numbers of the version. (Indexes of one expression, sorted, collated or quoted columns, names with commas, unvalidated checks, suffixed MySQL versions and SQLite's views over several lines are misread: refuted.)", "quantifier": "all row sets and dialects", "why_tests_cant": "all identifiers, expressions and list lengths", "anchors": ["ddl/introspect.go:DatabaseIntrospector.GetTables", "ddl/introspect.go:DatabaseIntrospector.GetColumns", "ddl/introspect.go:DatabaseIntrospector.GetConstraints", "ddl/introspect.go:DatabaseIntrospector.GetIndexes", "ddl/introspect.go:DatabaseIntrospector.GetTriggers", "ddl/introspect.go:DatabaseIntrospector.GetViews", "ddl/introspect.go:DatabaseIntrospector.GetFunctions", "ddl/introspect.go:DatabaseIntrospector.GetVersionNums"]}
{"id": "C60", "title": "A live database is read completely or not at all", "statement": "WithDB on a database succeeds only if every query it needs succeeded, every row could be scanned and every result set ended without an error, so that a migration never acts on a truncated catalog (the list of extensions excepted: refuted). On a database that reports its objects it succeeds, the metadata is the catalog reported, and the migration from it leads to the wanted catalog.", "quantifier": "all databases, failure points and starting metadata", "why_tests_cant": "every point at which a query, a scan or a result set can fail", "anchors": ["ddl/database_metadata.go:WithDB", "ddl/introspect.go:DatabaseIntrospector.GetExtensions", "ddl/introspect.go:DatabaseIntrospector.GetCurrentSchema", "ddl/migration.go:Migrate"]}
{"id": "C61", "title": "AutoMigrate brings the database to what the structs declare", "statement": "AutoMigrate sends nothing before the database was read to the end and all structs could be loaded. For table structs and views that name their schema (or a database without a current schema) its statements depend on what the database reports and the structs declare only; they are sent in order up to the first refused one; at no point (whichever statement is refused) is an object gone that was there and is wanted, or that was there if DropExtraneous is off; when all were accepted the database holds exactly the wanted objects (CreateMissing, DropExtraneous; schemas are never dropped), and AutoMigrate run again without UpdateExisting sends nothing but what concerns extensions. It fails for structs without a schema and for tables marked Ignore that exist (both refuted: dropped).", "quantifier": "all struct declarations, DDL methods that do not toggle Ignore back, reported databases, modes and points of refusal", "why_tests_cant": "composition of introspection, struct loading, comparison and execution over every database state and crash point", "anchors": ["ddl/migration.go:AutoMigrate", "ddl/migration.go:Migrate", "ddl/migration.go:Migration.ExecContext", "ddl/database_metadata.go:NewDatabaseMetadata", "ddl/t.go:Table.LoadTable"]}
{"id": "C62", "title": "A DDL method changes exactly the parts it names", "statement": "After LoadTable of a struct with a DDL method, the table's constraints and indexes are those of the struct tags changed by the calls of the method one after the other: defining a constraint or index whose name exists changes that one in place, and its TConstraint/TIndex methods go on changing that same one however the list grows; a new name comes last; nothing else changes. The triggers are those created by the texts given to T.Trigger, the later text winning per name. LoadTable succeeds exactly if every call by itself is acceptable (a known column, a non-empty name, EXCLUDE on Postgres only, a trigger that parses and names this table) and otherwise returns an error.", "quantifier": "all dialects, struct fields and sequences of calls in a DDL method", "why_tests_cant": "every sequence of calls, with handles obtained at any point", "anchors": ["ddl/t.go:LoadTable", "ddl/t.go:T.Constraint", "ddl/t.go:T.Index", "ddl/t.go:T.Trigger", "ddl/t.go:TConstraint", "ddl/t.go:TIndex"]}
{"id": "C63", "title": "Introspection asks for exactly the objects the Filter selects", "statement": "For every Filter, the query the introspector sends for tables, columns, constraints, indexes, triggers, views or functions is well-formed, and each of its WHERE clauses that selects objects admits exactly those objects that are not system objects (unless IncludeSystemCatalogs), whose schema is among WithSchemas (if given) and not among WithoutSchemas, and whose table (function) name is among WithTables (WithFunctions), if given, and not among WithoutTables (WithoutFunctions). The names in a Filter are only ever the contents of string literals: they cannot change the structure of the query.", "quantifier": "all Filters (flags and name lists of any length and content, within the stated limits), the 20 introspection scripts, all rows of the catalog", "why_tests_cant": "the lists of names are unbounded and arbitrary strings; a test tries a few names", "anchors": ["ddl/introspect.go: Filter, printList, DatabaseIntrospector.queryContext", "ddl/introspection_scripts/*.sql", "sq.EscapeQuote"]}
{"id": "C64", "title": "Comparisons are written as called", "statement": "Eq, Ne, Gt, Ge, Lt and Le (functions and field methods) write their left value, the operator and their right value, with queries in brackets; IsNull, IsNotNull, Exists, NotExists, LikeString and ILikeString write the value and the test; In writes the elements of a slice or row value in order in one pair of brackets. Text, arguments, params map and outcome are those of writing the parts one after the other, and the first part that fails ends it. (Operands that are predicates or ordered fields are not bracketed; In of an empty slice is not SQL: refuted.)", "quantifier": "all values (fields, queries, slices, params, plain values), dialects, environments, excluded qualifiers and starting states of buffer, args and params", "why_tests_cant": "operands are arbitrary expression trees and the state they are appended to is arbitrary", "anchors": ["predicate.go:cmp", "predicate.go:In", "predicate.go:IsNull", "predicate.go:Exists", "string_field.go:StringField.LikeString", "rowvalue.go:RowValue.AppendSQLExclude", "sq.go:explodeSlice"]}
{"id": "C65", "title": "Field modifiers: the last of each kind counts, in SQL order", "statement": "After any chain of As, Asc, Desc, NullsFirst, NullsLast and Collate a field renders as before followed by the last collation, the last direction and the last null order, in this order whatever the order of the calls; the alias is the last one given and never part of the field's own rendering; the name does not change. FieldfDialect uses the format of the dialect in use, else the default, independently of the order in which its map is visited, and fails without a default (even if the dialect in use has a format: refuted).", "quantifier": "all fields, call chains, dialects, format maps and map orders", "why_tests_cant": "call chains are unbounded, and Go visits a map in a random order", "anchors": ["number_field.go:NumberField.Desc", "string_field.go:StringField.Collate", "custom_field.go:FieldfDialect", "field_info.go:FieldInfo.AppendSQLExclude"]}
{"id": "C66", "title": "Aggregate and window functions are written as called", "statement": "Count, CountAll, Sum, Avg, Min, Max and the seventeen Over functions write the function's name, its arguments in order separated by commas in one pair of brackets and, for the Over functions, OVER and the window. A window built by any chain of PartitionBy, OrderBy and Frame writes the last partition, the last order and the last frame, in this order, in brackets, provided its fields can be rendered (an error of a window's field is lost: refuted).", "quantifier": "all argument fields, numbers, windows, chains of calls, dialects and starting states", "why_tests_cant": "arguments are arbitrary expression trees and chains are unbounded", "anchors": ["window.go:Window.AppendSQL", "window.go:CountOver", "window.go:LeadOver", "window.go:NthValueOver", "window.go:Count", "window.go:Window.Frame"]}
{"id": "C67", "title": "Assignments are written as called", "statement": "Assign and the Set methods write the field, an equals sign and the value (a query in brackets). AssignExcluded, AssignAlias, AssignSelf and AssignValues assign to the column of that name exactly if the name needs no quoting (other names are written unquoted: refuted).", "quantifier": "all fields, values, names, dialects and starting states", "why_tests_cant": "names and values are arbitrary", "anchors": ["assignment.go:Assign", "assignment.go:AssignExcluded", "assignment.go:AssignAlias", "assignment.go:AssignSelf", "assignment.go:AssignValues", "number_field.go:NumberField.Set"]}
{"id": "C68", "title": "ReflectTable names exactly the unnamed columns of a table struct", "statement": "ReflectTable of a pointer to a struct that embeds TableInfo and whose sq tags are readable succeeds: TableInfo gets its schema and name from the tag if it has none (the type's name in lower case as the last resort) and the given alias, and every exported, unnamed field of a library type becomes the column of that table with the name in its tag, else its Go name in lower case; nothing else changes. The columns that LoadTable then declares are, in order, the names the struct's fields are written with in queries. Reflecting again sets only the alias of TableInfo (so with another alias the columns keep the old one: refuted). An unreadable tag stops at that field. Anything else is refused and left alone.", "quantifier": "all structs (any number of fields, names, tags, types), aliases and dialects", "why_tests_cant": "structs have any shape and tags are arbitrary text", "anchors": ["reflect_table.go:ReflectTable", "reflect_table.go:lexModifiers", "number_field.go:NewNumberField", "ddl/t.go:Table.LoadTable"]}
{"id": "C69", "title": "Logging changes nothing but the log", "statement": "Fetch, FetchExists and Exec with a LoggerDB whose logger returns normally give the same results, errors, mapped rows and sent statement as without it (if results are asked for: for columns and values that can be shown). The library's own logger returns normally whenever the arguments are no nil pointers with a Value method and the statement has enough of them; so with sq.Log outside sqlite Exec and Fetch behave as without. With a nil pointer the logged Exec panics after it was executed (refuted).", "quantifier": "all queries, databases, mappers, loggers, flags and limits", "why_tests_cant": "queries, rows, mappers and loggers are arbitrary", "anchors": ["fetch.go:fetchContext", "fetch.go:fetchExistsContext", "exec.go:execContext", "logger.go:logger.LogQueryStats"]}
{"id": "C70", "title": "Exactly one record per statement sent, and it is faithful", "statement": "With a LoggerDB every statement sent is recorded once: the record has the query's dialect, the text and the arguments that were sent, the error returned, and the affected rows and last insert ID (Exec), the number of rows (Fetch) or the answer (FetchExists) that were returned; for INSERT, UPDATE and DELETE also the kind and the table. The library's logger writes, after [OK] or [FAIL], the statement with its arguments interpolated and, in verbose mode, also the statement as sent. A panic in a mapper is recorded as success (refuted).", "quantifier": "all queries, databases, mappers, flags", "why_tests_cant": "queries, rows and mappers are arbitrary", "anchors": ["fetch.go:fetchContext", "exec.go:execContext", "logger.go:QueryStats", "logger.go:logger.LogQueryStats"]}
{"id": "C71", "title": "Logged results are the first rows, column by column", "statement": "If a Fetch with a logger that asks for up to n results maps all its rows, the record holds one block per row for the first n rows, in order, numbered, with every column's name and value. NULL is shown as an error message (refuted).", "quantifier": "all queries, row counts, columns, values and limits n", "why_tests_cant": "rows, columns and limits are unbounded", "anchors": ["fetch.go:accumulateResults", "fetch.go:computeFieldNames", "logger.go:logger.GetLoggerSettings"]}
{"id": "C72", "title": "Typed row accessors give the value of their own column", "statement": "A mapper that calls any sequence of accessors of Row (Bool, Int, String, Null..., ...Valid, Bytes, ScanInto, ScanArray, ScanJSON) and then works in ProcessErr gets, for every row in order, from each call the value of that call's own column: the value or its type's zero value for NULL, whether it was not NULL for the Valid accessors, both for the Null ones. A JSON document that is not accepted makes Fetch return that error, after the rows before were mapped; NULL is such a document (refuted).", "quantifier": "all sequences of accessors, rows, values and mappers", "why_tests_cant": "call sequences and rows are unbounded", "anchors": ["row.go:Row.ScanInto", "row.go:Row.ScanJSON", "row.go:Row.ScanArray", "row.go:Row.NullInt64", "row.go:Row.StringValid", "fetch.go:fetchContext"]}
{"id": "C73", "title": "A statement built by a chain of calls is what the calls ask for", "statement": "Whatever start function and whatever sequence of builder calls: the statement has the CTEs, joins, conditions, groupings, orderings, assignments, value rows and returned fields of all calls, in the order of the calls, and the table, limit, offset, columns, row alias and conflict parts of the last call that gave them; nothing else. If the statement is complete, its SQL text is exactly the clauses asked for. Exceptions: SelectDistinct and SelectOne replace earlier output columns, DELETE's OrderBy replaces (refuted), DoNothing sticks (refuted), a conflict clause without target is dropped (refuted).", "quantifier": "all start functions and all call sequences of SELECT, INSERT, UPDATE and DELETE builders of the three dialects", "why_tests_cant": "call sequences are unbounded and their arguments arbitrary", "anchors": ["select_query.go:SelectQuery", "select_query_sqlite.go:SQLiteSelectQuery", "select_query_postgres.go:PostgresSelectQuery", "select_query_mysql.go:MySQLSelectQuery", "insert_query_postgres.go:PostgresInsertQuery", "update_query_mysql.go:MySQLUpdateQuery", "delete_query_sqlite.go:SQLiteDeleteQuery", "join_table.go:Join"]}
{"id": "C74", "title": "The builder of a dialect has no call for what the dialect lacks", "statement": "A complete statement (fields, tables, join conditions present) built with the calls that a dialect's builder offers is accepted when rendered for that dialect: no call sequence leads to a clause the dialect does not support. MySQL's FullJoin is offered and written although MySQL has none (refuted).", "quantifier": "all call sequences of the builder types of sqlite, postgres and mysql", "why_tests_cant": "call sequences are unbounded", "anchors": ["select_query_sqlite.go:SQLiteSelectQuery", "insert_query_sqlite.go:SQLiteInsertQuery", "insert_query_mysql.go:MySQLInsertQuery", "update_query_postgres.go:PostgresUpdateQuery", "delete_query_mysql.go:MySQLDeleteQuery"]}
{"id": "C75", "title": "Calls from different goroutines do not disturb each other", "statement": "Any number of goroutines, each making any calls of the library one after the other (EscapeQuote, QuoteIdentifier, Sprint, Sprintf, ToSQL, ToSQLExclude, the generated names, printed defaults and view queries of package ddl, LogQueryStats, Fetch, FetchExists, Exec, with or without a logger, synchronous or in its own goroutine), whatever the schedule and whatever buffers sync.Pool hands out, reuses or forgets: every call returns, asks the database and logs exactly what it does when nobody else runs; every record handed to an asynchronous logger is logged once, by a goroutine of its own, with its own text; the pools hold empty buffers again; and no call waits for another.", "quantifier": "all sets of goroutines, call sequences, schedules, database answers, pool behaviours, and any depth of helpers that take buffers of their own", "why_tests_cant": "a buffer put back too early or not emptied shows only in some interleavings", "anchors": ["sq.go:bufpool,argspool,ToSQL,ToSQLExclude,EscapeQuote", "fmt.go:Sprintf", "fetch.go", "exec.go", "logger.go:LogQueryStats", "ddl/ddl.go:generateName", "ddl/t.go:sprintf", "ddl/introspect.go:printList"]}
{"id": "C76", "title": "One DatabaseIntrospector serves many goroutines", "statement": "Any number of goroutines that call the methods of one DatabaseIntrospector, each choosing its next call by the answers so far, under any schedule: the map of parsed templates is never read or written while another goroutine writes it (which would abort the program), every query sent is the one made from the script of that name and the caller's filter (or the default filter) as if the caller were alone, and as long as a call is unfinished some goroutine can go on.", "quantifier": "all numbers of goroutines, call histories, filters, scripts and schedules", "why_tests_cant": "a missing lock shows only in some interleavings", "anchors": ["ddl/introspect.go:DatabaseIntrospector,queryContext,NewDatabaseIntrospector"]}
{"id": "C77", "title": "Rendering a statement again gives the same SQL", "statement": "However often a statement has been rendered before (successfully or not, through ToSQL, Fetch, Exec or as part of another rendering), rendering it for sqlite returns the query, arguments, parameters and error that rendering it for the first time would have, and so does rendering it for any other dialect unless it was rendered for sqlite before. (On sqlite an INSERT ... SELECT without a WHERE clause writes WHERE TRUE into its SELECT, which every copy of the INSERT shares.)", "quantifier": "all statements, at any nesting depth, all histories of renderings and dialects, all subsets of the writes a rendering makes", "why_tests_cant": "a test renders a statement once; the write shows only in what later renderings return", "anchors": ["insert_query.go:InsertQuery.AppendSQL", "sq.go:ToSQL"]}
{"id": "C78", "title": "Introspection reads the columns its queries return", "statement": "For every Filter, each introspection query run by DatabaseIntrospector returns exactly as many columns as the method scans, in the order the destinations are given to Scan, each under the name of the field it is scanned into (in each SELECT of a UNION ALL); and its rows are ordered exactly if SortOutput is set, by schema, table and object name, columns of a table by their position. In every SELECT of a query a column named after a schema, table, view, index, constraint, trigger, function or column holds the catalogue column with that name.", "quantifier": "all Filters (any lists of names, any flags) and all 20 (dialect, script) pairs", "why_tests_cant": "The text of a query depends on the Filter: which conditions, which lists, which ORDER BY. A test runs a few filters against one database; a name in a list could also shift commas, brackets or keywords of the query.", "anchors": ["ddl/introspect.go: DatabaseIntrospector.GetTables, GetColumns, GetConstraints, GetIndexes, GetTriggers, GetFunctions, GetViews, GetExtensions", "ddl/introspection_scripts/*.sql"]}
{"id": "C79", "title": "Result sets are used one at a time and never left open", "statement": "Whatever way a call of Fetch, FetchExists, Exec, a method of DatabaseIntrospector, NewDatabaseMetadata with WithDB, Migration.Exec or AutoMigrate ends - return, error of the database at any point, error or panic of a row mapper, of a driver or of other user code - every result set it opened has been closed; a statement is sent and a log record is written only while no result set is open, and Next and Scan are never called on a closed one. So the calls work on a single connection, such as a transaction, and leak none.", "quantifier": "all executions: every branch, any number of rows, an error or a panic at every call to the outside", "why_tests_cant": "The leaks are on the paths that tests do not take: a Scan error in the middle, a driver error at Close, a panic in the mapper. There are as many paths as places that can fail, times the number of rows.", "anchors": ["fetch.go: fetchContext, fetchExistsContext", "exec.go: execContext", "ddl/introspect.go: DatabaseIntrospector.Get*", "ddl/database_metadata.go: WithDB, NewDatabaseMetadata", "ddl/migration.go: Migration.ExecContext, AutoMigrate"]}
{"id": "C80", "title": "CASE expressions, CTEs and their columns are what the calls ask for", "statement": "CaseWhen/Case followed by any chain of When, Else and As renders as CASE, the branches in the order of the calls, the fallback given last (none: no ELSE), END, and has the alias given last; Case without When is rejected. A statement with CTEs built by NewCTE/NewRecursiveCTE and any chain of As, Materialized and NotMaterialized renders as WITH (RECURSIVE iff one of them is), the CTEs in order with name, the columns given, in postgres the materialisation asked for last, and the query in parentheses, followed by the statement without CTEs; it is rejected when a CTE has no name, no query or no named columns. cte.Field/subquery.Field with any chain of As, Asc, Desc, NullsFirst, NullsLast renders as the column followed by the direction and null order asked for last.", "quantifier": "all chains of calls of any length, all operands, lists of CTEs, the four kinds of statement, dialects, environments and buffer states", "why_tests_cant": "The chains are unbounded and every call copies or changes a struct that earlier calls filled; tests fix a few chains.", "anchors": ["case.go: CaseWhen, Case, PredicateCases.When/Else/As, SimpleCases.When/Else/As", "cte.go: NewCTE, NewRecursiveCTE, CTE.As/Materialized/NotMaterialized, CTEs.AppendSQL, CTEField.As/Asc/Desc/NullsFirst/NullsLast", "subquery.go: SubqueryField.As/Asc/Desc/NullsFirst/NullsLast"]}
{"id": "C81", "title": "Values in DDL expressions and in logged statements stand at their own places", "statement": "A DDL method's expression (Check, Generated, DefaultExpr, the WHERE of an index, Exclude, Trigger), the query of a view and the expression columns of an index become text in which every value of the format or query is written as its SQL literal exactly at the place where it stood, however often it is used and under whatever name; the same holds of Sprintf applied to what ToSQL returns, the statement shown in the log. If a value has no literal, or the rendering fails, there is an error and no text. The columns of an index are those of the fields in order: a column by its name, a literal verbatim, an expression in brackets.", "quantifier": "all formats, values, queries, field lists, excluded table names and dialects; any number and nesting of placeholders; texts that begin with a plain character and whose own quotes are closed", "why_tests_cant": "The text is made in two passes that never see each other's data: rendering numbers the placeholders and collects arguments, Sprintf reads the text again and looks them up; that the second undoes the first is a statement about all trees and all texts.", "anchors": ["ddl/t.go: sprintf, getColumnNamesAndExprs, TColumn.Generated/DefaultExpr, T.Check/Trigger, TIndex.Where", "ddl/v.go: V.SetQuery, V.Trigger, VIndex.Where", "fmt.go: Sprintf, BufferPrintf", "sq.go: ToSQL"]}
{"id": "C82", "title": "Renaming a table says which table gets which name", "statement": "Outside MySQL a RenameTableCommand writes one ALTER TABLE statement which the database reads as the renaming of exactly that table, with its schema, to exactly that name, with IF EXISTS just when it was asked for. A command in which every table has a schema and a new name never panics, and reports an error exactly if the dialect cannot do it in one statement.", "quantifier": "all names (quoted or not), dialects and numbers of tables", "why_tests_cant": "The statement is assembled from quoted pieces; that it reads back for every name, keyword-like or with quotes and spaces, is a claim about all strings.", "anchors": ["ddl/table.go: RenameTableCommand.AppendSQL"]}
{"id": "C83", "title": "The SQL a migration sends brings a database to the wanted objects with the wanted definitions", "statement": "A database that has the objects of the present catalog and carries out, one by one, the SQL statements that a migration sent when it was executed without an error, afterwards has: everything it had, with the definition it had, except what is not wanted if DropExtraneous is set (schemas are kept); and, if CreateMissing is set, every wanted object that was missing, with the definition the wanted catalog gives it (the type, nullability, default, ... of a column; the kind, columns and references of a constraint; the elements of an index; the query of a view; the text of a trigger or function). With CreateMissing and DropExtraneous the objects afterwards are exactly the wanted ones and the old schemas.", "quantifier": "all pairs of comparable catalogs whose names and fragments can be written, the dialects SQLite, Postgres and MySQL, all modes without UpdateExisting, all databases with the present objects", "why_tests_cant": "It ranges over all pairs of catalogs and all databases, and joins the choice of commands, their order, the text of each and the reading of that text; each test sees one pair.", "anchors": ["ddl/migration.go: Migrate, Migration.ExecContext", "ddl/table.go: CreateTableCommand.AppendSQL, AlterTableCommand.AppendSQL, DropTableCommand.AppendSQL", "ddl/index.go: CreateIndexCommand.AppendSQL", "ddl/column.go: writeColumnDefinition", "ddl/constraint.go: AddConstraintCommand.AppendSQL"]}
{"id": "C84", "title": "No statement of a migration is refused", "statement": "Executed against a database that has the objects of the present catalog and refuses every statement that it cannot read, that creates what there is already, drops or alters what there is not, is about a table or schema that is not there, makes a key of columns that are not there or refers to a table or columns that are not there, a migration runs to the end: each statement finds what it needs, made by the statements before it. The only way it can fail is that the library has no SQL for one of its commands in that dialect; if the dialect has what is wanted, and what there is to be dropped, there is SQL for every command and the migration succeeds.", "quantifier": "all pairs of comparable catalogs whose names and fragments can be written (foreign keys may refer to each other in cycles), the dialects SQLite, Postgres and MySQL, all modes without UpdateExisting, all databases with the present objects", "why_tests_cant": "Whether the order of the commands is right depends on every way in which the wanted objects can refer to each other and on which of them exist already.", "anchors": ["ddl/migration.go: Migrate, Migration.ExecContext"]}
{"id": "C85", "title": "AutoMigrate turns a database into what the structs declare", "statement": "AutoMigrate on a database that reads and carries out the statements it is sent (and refuses those that do not fit what it has) succeeds, whatever the structs and whatever the database told of itself, provided names and fragments can be written and the dialect has what is declared. Afterwards the database has everything it had, as it was, except, if DropExtraneous is set, what no struct declares (schemas stay); and, if CreateMissing is set, whatever was missing, with the definition the structs give it. With both flags it has what the structs declare, nothing else but the schemas it had.", "quantifier": "all lists of table and view structs, all answers a database can give to the catalog queries, all databases that have the objects told of in these answers, SQLite, Postgres and MySQL, all modes without UpdateExisting", "why_tests_cant": "It joins the reading of struct tags, the catalog queries, the comparison, the choice and order of the commands, their text and its meaning; a test needs a live database and sees one pair.", "anchors": ["ddl/migration.go: AutoMigrate", "ddl/database_metadata.go: NewDatabaseMetadata, WithDB, WithTables, WithDDLViews", "ddl/migration.go: Migrate, Migration.ExecContext"]}
{"id": "C86", "title": "A rendered statement is read back clause by clause", "statement": "The SQL text of a SELECT, UPDATE or DELETE, read the way a database reads it (cut into tokens; a clause runs from its keywords to the next keyword outside of parentheses; lists are cut at commas, aliases at AS, joins at JOIN and ON, assignments at =), has exactly the clauses that were set on the query, each with exactly the components that were given, in order, with their aliases, whatever text surrounds them, however deeply queries are nested in it, and whatever values were bound before. Nothing in a quoted name, a value or a subquery is mistaken for a part of the outer statement. A bare name that is one of the keywords read is outside the guarantee (the library writes it unquoted).", "quantifier": "all queries built from components with matching parentheses and no keyword outside of them, in particular all columns, tables, values, comparisons, tests, IN lists, EXISTS, row values, aggregate and window functions, windows, CASE expressions, AND/OR lists, subqueries, CTEs, set operations, to any depth; all dialects; all numbers of arguments bound before", "why_tests_cant": "A test compares the text of one query with a text written by hand; that the text of every query parses, and parses as what was meant, depends on all compositions.", "anchors": ["select_query.go: SelectQuery.AppendSQL", "update_query.go: UpdateQuery.AppendSQL", "delete_query.go: DeleteQuery.AppendSQL", "join_table.go: JoinTable.AppendSQL", "cte.go: CTEs.AppendSQL", "subquery.go: Subquery.AppendSQL", "variadic_query.go: VariadicQuery.AppendSQL"]}
{"id": "C87", "title": "A rendered INSERT is read back clause by clause", "statement": "The SQL text of an INSERT, read the way a database reads it, has exactly the table and alias, the columns, the rows of values (with their alias) or the query, the conflict target, its condition, the action taken on a conflict with its assignments and condition, and the returned columns that were given, in order; there is a conflict clause iff one was asked for and the dialect has one (ON CONFLICT in Postgres and SQLite, ON DUPLICATE KEY UPDATE in MySQL), also where the query that supplies the rows has joins with ON conditions. With a column mapper, the columns and rows are those the mapper set.", "quantifier": "all INSERT queries built from components with matching parentheses and no keyword outside of them (see C86), with VALUES or SELECT, with and without conflict clauses; all dialects; all numbers of arguments bound before", "why_tests_cant": "As C86; the conflict clause is the most irregular part of the grammar, its target and action are optional and dialect-dependent, and its ON competes with the ON of joins.", "anchors": ["insert_query.go: InsertQuery.AppendSQL", "insert_query.go: InsertQuery", "select_query.go: SelectQuery.AppendSQL"]}
{"id": "C88", "title": "What the database reads is what the builder calls ask for", "statement": "Whatever start function, whatever sequence of builder calls and whatever values: when Fetch sends a SELECT or an UPDATE, DELETE or INSERT whose returned columns the row mapper asks for, when FetchExists asks whether a SELECT has rows, or when Exec sends an UPDATE, DELETE or INSERT, the text the driver receives, read the way a database reads it, is the statement the calls ask for: the table, joins, conditions, groupings, orderings, limits, assignments, value rows, conflict clause and returned columns of the calls, with for Fetch exactly the columns the row mapper asks for, in its order, and for an INSERT with a column mapper exactly the columns and rows the mapper sets.", "quantifier": "all start functions and call sequences of the builders of the three dialects, all row mappers and column mappers, all databases, contexts and values; statements made of the package's own expressions to any depth, with names that are not keywords", "why_tests_cant": "It is a statement about the composition of builders, mappers, rendering, quoting and placeholder numbering; tests check texts of single queries against texts written by hand.", "anchors": ["fetch.go: FetchContext", "exec.go: ExecContext", "select_query_postgres.go: PostgresSelectQuery", "insert_query_postgres.go: PostgresInsertQuery", "update_query_postgres.go: PostgresUpdateQuery", "delete_query_postgres.go: PostgresDeleteQuery", "select_query.go: SelectQuery.AppendSQL", "sq.go: ToSQL"]}
{"id": "C89", "title": "Declaring more never loses anything", "statement": "Loading a table struct into a table that already holds something (declared before by another struct, or read from a database) keeps every column, constraint, index and trigger in its place and under its name, leaves every column that neither the struct nor its DDL method mentions as it was but for the marks of one-column keys, and adds every column of the struct; a second declaration adds exactly the columns the table does not have yet, in the order of the fields. On any metadata, WithTables, WithDDLViews, WithFunctions and WithExtensions remove or move no schema, table, view or function, and change only the tables and views they declare, and none that is ignored. So however often a table is declared and whatever options follow, the metadata has every column declared for it, unless the table is to be ignored.", "quantifier": "all table structs, struct tags, DDL methods, dialects, starting tables and metadata, and all lists of options", "why_tests_cant": "It is about any metadata and any sequence of options, including tables declared twice by different structs; tests load each table once.", "anchors": ["ddl/t.go: LoadTable", "ddl/database_metadata.go: loadTable", "ddl/database_metadata.go: WithTables", "ddl/database_metadata.go: WithDDLViews", "ddl/table.go: loadColumnConfig", "ddl/table.go: loadConstraintConfig"]}
