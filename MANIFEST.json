{
 "claims": [
  {
   "property": "C01",
   "status": "proved",
   "theorems": [
    "escape_quote_contained",
    "escape_quote_backslash_refuted"
   ],
   "note": "For a lexer where a doubled quote is the only escape. Finding: with MySQL's default backslash escapes the literal can end early."
  },
  {
   "property": "C02",
   "status": "proved",
   "theorems": [
    "escape_quote_denotes",
    "escape_quote_round_trip",
    "escape_quote_injective_thm",
    "escape_quote_round_trip_refuted"
   ],
   "note": "Round trip characterised exactly; unrestricted round trip refuted (finding)."
  },
  {
   "property": "C03",
   "status": "proved",
   "theorems": [
    "quote_identifier_token",
    "quote_identifier_names",
    "quote_identifier_bare",
    "quote_identifier_injective_thm",
    "quote_identifier_reserved_refuted",
    "print_list_literals"
   ],
   "note": "Finding: reserved words are left unquoted."
  },
  {
   "property": "C04",
   "status": "proved",
   "theorems": [
    "sprint_is_literal",
    "sprint_string_contained",
    "sprint_panics_only_on_nil_valuers",
    "sprint_valuer_bytes_postgres_refuted",
    "sprint_null_pointer_refuted",
    "sprint_nil_valuer_refuted"
   ],
   "note": "Float and time texts are opaque (strconv/time not modelled). Findings for Valuers and nil pointers."
  },
  {
   "property": "C05",
   "status": "proved",
   "theorems": [
    "sprintf_substitutes",
    "sprintf_exact",
    "sprintf_first_char_refuted",
    "sprintf_first_quote_refuted",
    "sprintf_bracket_refuted",
    "sprintf_sqlserver_p_refuted"
   ],
   "note": "Queries given as segment lists that start with text; findings for the first character and others."
  },
  {
   "property": "C06",
   "status": "proved",
   "theorems": [
    "sprintf_no_args",
    "sprintf_rejects_unclosed"
   ],
   "note": "Valid UTF-8 queries whose first character is not a quote (that case is C05's finding)."
  },
  {
   "property": "C07",
   "status": "proved",
   "theorems": [
    "sprintf_never_panics",
    "sprintf_safe_with_enough_args",
    "sprintf_sqlite_panics_refuted"
   ],
   "note": "Arguments must not be nil Valuer pointers (finding in C04)."
  },
  {
   "property": "C08",
   "status": "proved",
   "theorems": [
    "predicatef_expands",
    "tablef_queryf_expand",
    "fieldf_expands",
    "plain_format_verbatim",
    "nameonly_is_the_name",
    "nameonly_unquoted_refuted"
   ],
   "note": "Formats as alternating texts and holes; the modifier nameonly included, other modifiers (which the code ignores) not. Finding: nameonly does not quote."
  },
  {
   "property": "C09",
   "status": "proved",
   "theorems": [
    "missing_value_is_error"
   ],
   "note": ""
  },
  {
   "property": "C10",
   "status": "proved",
   "theorems": [
    "rendering_appends"
   ],
   "note": ""
  },
  {
   "property": "C11",
   "status": "proved",
   "theorems": [
    "mysql_marks_are_args",
    "mysql_question_marks"
   ],
   "note": ""
  },
  {
   "property": "C12",
   "status": "proved",
   "theorems": [
    "ordinals_and_args",
    "numbered_placeholders",
    "ordinals_and_args_step"
   ],
   "note": ""
  },
  {
   "property": "C13",
   "status": "proved",
   "theorems": [
    "placeholders_bound",
    "mysql_marks_are_args",
    "nested_ordinals_refuted",
    "numeral_param_refuted",
    "param_and_named_arg_refuted"
   ],
   "note": "Findings: nested ordinals, numeral parameter names, Param and NamedArg of the same name."
  },
  {
   "property": "C14",
   "status": "proved",
   "theorems": [
    "values_do_not_affect_sql",
    "values_do_not_affect_appending"
   ],
   "note": ""
  },
  {
   "property": "C15",
   "status": "proved",
   "theorems": [
    "params_indices_valid",
    "param_registers",
    "params_persist",
    "params_locate",
    "params_locate_mysql",
    "ordinals_left_after_error_refuted"
   ],
   "note": "Finding: ordinal entries remain after an error."
  },
  {
   "property": "C16",
   "status": "proved",
   "theorems": [
    "qualifier_dropped_iff_excluded",
    "qualifier_unsorted_refuted"
   ],
   "note": "The exclusion list must be ascending (binary search); refuted for unsorted lists."
  },
  {
   "property": "C17",
   "status": "proved",
   "theorems": [
    "double_negation",
    "negation_writes_not"
   ],
   "note": ""
  },
  {
   "property": "C18",
   "status": "proved",
   "theorems": [
    "operand_keeps_meaning",
    "clause_keeps_meaning",
    "reading_is_unique",
    "clause_negated_list_refuted",
    "singleton_negated_list_refuted",
    "empty_operand_refuted",
    "negated_custom_predicate_refuted"
   ],
   "note": "For trees satisfying the stated `supported` condition; findings for negated lists, empty operands and negated custom predicates outside it."
  },
  {
   "property": "C19",
   "status": "proved",
   "theorems": [
    "select_enforces_injected",
    "delete_enforces_injected",
    "hook_error_aborts",
    "injected_without_where_refuted",
    "update_drops_injected_refuted",
    "delete_ignores_using_hook_refuted"
   ],
   "note": "Findings: dangling AND without WHERE, UPDATE drops the injected predicate, DELETE ignores hooks of USING and JOIN tables."
  },
  {
   "property": "C20",
   "status": "proved",
   "theorems": [
    "select_is_its_clauses",
    "update_is_its_clauses",
    "delete_is_its_clauses",
    "insert_is_its_clauses"
   ],
   "note": "INSERT with a column mapper is reduced to one without by C22."
  },
  {
   "property": "C21",
   "status": "proved",
   "theorems": [
    "select_unsupported",
    "update_unsupported",
    "delete_unsupported",
    "insert_unsupported",
    "named_arg_unsupported",
    "conflict_silently_dropped_refuted"
   ],
   "note": "Finding: conflict clauses are dropped for sqlserver."
  },
  {
   "property": "C22",
   "status": "proved",
   "theorems": [
    "mapper_inserts_rows",
    "mapper_inserts_groups",
    "mapper_calls_divide",
    "mapper_without_calls",
    "mapper_updates_columns",
    "mapper_error_aborts",
    "mapper_order_refuted",
    "mapper_ragged_refuted"
   ],
   "note": "Findings: a different column order in a later row misassigns values; ragged rows are accepted."
  },
  {
   "property": "C23",
   "status": "proved",
   "theorems": [
    "set_operations_group",
    "set_reading_is_unique",
    "set_operator_default",
    "set_operand_clauses_refuted",
    "set_without_operands_refuted"
   ],
   "note": "Operand queries are opaque tokens; findings: their ORDER BY/LIMIT is not parenthesised, operations without operands vanish."
  },
  {
   "property": "C24",
   "status": "proved",
   "theorems": [
    "cte_field_exists",
    "subquery_field_exists",
    "subquery_is_parenthesised"
   ],
   "note": ""
  },
  {
   "property": "C25",
   "status": "proved",
   "theorems": [
    "case_is_its_branches",
    "simple_case_is_its_branches"
   ],
   "note": ""
  },
  {
   "property": "C39",
   "status": "proved",
   "theorems": [
    "join_is_well_formed",
    "left_join_without_on_refuted"
   ],
   "note": "Finding: LEFT JOIN without ON is accepted."
  },
  {
   "property": "C40",
   "status": "proved",
   "theorems": [
    "insert_conflict_clauses"
   ],
   "note": ""
  },
  {
   "property": "C42",
   "status": "proved",
   "theorems": [
    "table_reads_back",
    "field_reads_back",
    "cte_name_unquoted_refuted",
    "raw_names_refuted"
   ],
   "note": "Findings: several kinds of names are not quoted."
  },
  {
   "property": "C41",
   "status": "proved",
   "theorems": [
    "rendering_never_panics",
    "trailing_brace_panics_refuted",
    "nil_delete_table_panics_refuted"
   ],
   "note": "Findings: trailing '{' and nil tables/queries panic."
  },
  {
   "property": "C26",
   "status": "proved",
   "theorems": [
    "fetch_visits_rows",
    "visits_determined",
    "visits_all_or_stops",
    "fetch_maps_all_rows",
    "fetch_stops_when_closed",
    "passive_close_refuted",
    "no_columns_refuted"
   ],
   "note": "Findings: Close in the collecting call, mappers without fields."
  },
  {
   "property": "C27",
   "status": "proved",
   "theorems": [
    "fetch_returns_mapper_error",
    "fetch_returns_scan_error",
    "fields_can_be_shown",
    "nested_error_refuted",
    "scan_error_lost_refuted"
   ],
   "note": "Findings: the error of a nested ProcessErr is lost; a Scan error is replaced by a run-time error when the fields cannot be shown."
  },
  {
   "property": "C43",
   "status": "proved",
   "theorems": [
    "fetch_sends_query",
    "requested_columns",
    "fetchable_iff",
    "exec_sends_query",
    "exec_sends_nothing",
    "exists_sends_query",
    "exists_true_is_certain",
    "exists_context_refuted",
    "exists_panics_refuted"
   ],
   "note": "Findings: FetchExistsContext drops the context; FetchExists and Exec do not recover panics."
  },
  {
   "property": "C35",
   "status": "proved",
   "theorems": [
    "braced_token_survives",
    "word_token_survives",
    "braced_token_only",
    "unbalanced_is_error",
    "token_is_balanced",
    "token_never_panics"
   ],
   "note": ""
  },
  {
   "property": "C36",
   "status": "proved",
   "theorems": [
    "split_args_exact",
    "split_args_loses_nothing",
    "split_args_of_joined",
    "bracket_in_string_refuted"
   ],
   "note": "Finding: strings inside brackets are not recognised."
  },
  {
   "property": "C37",
   "status": "proved",
   "theorems": [
    "modifiers_decode",
    "value_and_modifiers_decode",
    "empty_value_panics_refuted",
    "wide_space_diverges_refuted",
    "trailing_blank_refuted"
   ],
   "note": "Findings: 'key=' panics, U+2003 loops forever, a trailing blank gives an empty modifier."
  },
  {
   "property": "C29",
   "status": "proved",
   "theorems": [
    "lookup_never_wrong",
    "lookup_exact",
    "cache_keeps_objects",
    "append_position",
    "functions_exact",
    "functions_never_wrong",
    "extension_lookup_exact",
    "ignored_append_hides_refuted",
    "lookup_forgets_refuted",
    "ignored_function_refuted",
    "extension_lookup_refuted"
   ],
   "note": "Findings: appending an ignored object hides its namesake, a lookup that hits an ignored object forgets the name, functions and extensions likewise."
  },
  {
   "property": "C34",
   "status": "proved",
   "theorems": [
    "generated_name_fits",
    "stem_exists_unique",
    "generated_names_collide_refuted",
    "long_names_collide",
    "generated_name_cuts_char_refuted",
    "generated_name_no_ending_refuted"
   ],
   "note": "Findings: long names collide and are cut in the middle of a character."
  },
  {
   "property": "C38",
   "status": "proved",
   "theorems": [
    "constraints_unique",
    "empty_name_rejected",
    "indexes_unique",
    "redefinition_keeps_attributes_refuted",
    "sqlite_empty_names_refuted",
    "ignored_constraint_duplicated_refuted"
   ],
   "note": "Findings: redefining a constraint keeps stale attributes, empty names on sqlite, ignored constraints duplicated."
  },
  {
   "property": "C30",
   "status": "proved",
   "theorems": [
    "migrate_to_itself",
    "migrate_to_itself_nothing",
    "extension_refuted",
    "ignored_column_refuted"
   ],
   "note": "Findings: extensions added without AppendExtension are created and dropped; ignored columns are dropped."
  },
  {
   "property": "C31",
   "status": "proved",
   "theorems": [
    "no_drops_without_drop_extraneous",
    "drops_nothing_wanted",
    "drops_everything_else",
    "unqualified_schema_refuted",
    "stale_cache_refuted",
    "ignored_column_refuted"
   ],
   "note": "Findings: with an unqualified wanted schema, or catalogs whose caches are not filled, wanted objects are dropped."
  },
  {
   "property": "C32",
   "status": "proved",
   "theorems": [
    "creates_what_is_missing",
    "creates_once",
    "update_only_refuted"
   ],
   "note": "Finding: UpdateExisting alone creates tables without a name."
  },
  {
   "property": "C33",
   "status": "proved",
   "theorems": [
    "execution_order",
    "script_order",
    "mysql_script_refuted",
    "write_empty_refuted"
   ],
   "note": "Findings: a MySQL script that starts with a function is broken; WriteSQL panics on an empty command."
  },
  {
   "property": "C45",
   "status": "proved",
   "theorems": [
    "migration_reaches",
    "migration_converges",
    "migrate_again_nothing",
    "moved_index_refuted"
   ],
   "note": "Finding: an index that moves between tables is lost."
  },
  {
   "property": "C46",
   "status": "proved",
   "theorems": [
    "created_definitions_are_wanted"
   ],
   "note": ""
  },
  {
   "property": "C47",
   "status": "proved",
   "theorems": [
    "updates_changed_columns",
    "alteration_settles",
    "alter_column_name_refuted",
    "changed_default_refuted"
   ],
   "note": "Findings: Postgres' ALTER COLUMN has no column name; changed defaults are not noticed."
  },
  {
   "property": "C28",
   "status": "proved",
   "theorems": [
    "call_returns_change",
    "on_conflict_calls",
    "derived_queries_independent",
    "full_slices_independent",
    "no_spare_capacity_independent",
    "shared_capacity_general",
    "shared_capacity_refuted",
    "delete_from_refuted",
    "on_conflict_refuted"
   ],
   "note": "Findings: two queries derived from one base with spare capacity share a clause; DeleteFrom changes its base; OnConflict values share one query."
  },
  {
   "property": "C48",
   "status": "proved",
   "theorems": [
    "create_table_reads_back",
    "create_virtual_table_reads_back",
    "create_index_reads_back",
    "constraint_columns_unquoted_refuted",
    "reserved_column_refuted",
    "no_columns_table_refuted",
    "mysql_create_index_refuted"
   ],
   "note": "Findings: constraint columns and reserved words are not quoted; constraints without columns; the MySQL index command is not a statement."
  },
  {
   "property": "C49",
   "status": "proved",
   "theorems": [
    "alter_table_reads_back",
    "ignored_part_refuted",
    "unchanged_column_refuted"
   ],
   "note": "Findings: ignored parts and unchanged columns leave a stray comma."
  },
  {
   "property": "C50",
   "status": "proved",
   "theorems": [
    "drop_table_reads_back",
    "drop_view_reads_back",
    "drop_index_reads_back",
    "drop_trigger_reads_back",
    "drop_function_reads_back",
    "create_view_reads_back",
    "create_schema_reads_back",
    "create_extension_reads_back",
    "drop_extension_reads_back",
    "create_schema_unquoted_refuted"
   ],
   "note": "Finding: CREATE SCHEMA does not quote its name."
  },
  {
   "property": "C51",
   "status": "proved",
   "theorems": [
    "create_table_errors",
    "create_index_errors",
    "alter_table_errors",
    "drop_errors",
    "create_errors"
   ],
   "note": "Text is also missing when an index of a Go slice is out of range (panic): EXCLUDE or an index with fewer expressions than columns."
  },
  {
   "property": "C52",
   "status": "proved",
   "theorems": [
    "table_columns",
    "table_column_names",
    "ignored_column_duplicated_refuted"
   ],
   "note": "For structs whose columns have different names and DDL methods that do not toggle Ignore; finding: an ignored column lets a second field of that name through."
  },
  {
   "property": "C53",
   "status": "proved",
   "theorems": [
    "table_constraints",
    "table_indexes",
    "table_virtual",
    "redeclared_constraint",
    "index_name_refuted",
    "table_references_refuted",
    "shared_constraint_name_refuted",
    "ignored_key_marks_refuted"
   ],
   "note": "Findings: index names are rejected, table-level references always fail, shared names lose columns, ignored keys still mark columns."
  },
  {
   "property": "C54",
   "status": "proved",
   "theorems": [
    "table_loads",
    "ignored_table"
   ],
   "note": ""
  },
  {
   "property": "C55",
   "status": "proved",
   "theorems": [
    "ddl_columns",
    "ddl_column_panics",
    "ddl_column_calls"
   ],
   "note": ""
  },
  {
   "property": "C58",
   "status": "proved",
   "theorems": [
    "default_brackets",
    "default_stable",
    "default_reported",
    "default_call",
    "brackets_missed_refuted",
    "default_call_null_refuted"
   ],
   "note": "strconv.ParseInt/ParseFloat acceptance is a parameter of the theorems."
  },
  {
   "property": "C44",
   "status": "proved",
   "theorems": [
    "trigger_found",
    "trigger_missing",
    "trigger_without_table",
    "trigger_never_panics",
    "trigger_ends",
    "trigger_named",
    "table_trigger_added",
    "table_trigger_refused",
    "function_found",
    "function_elsewhere",
    "functions_of_files",
    "unreadable_file",
    "trigger_hang_refuted",
    "trigger_quoted_refuted",
    "function_args_refuted",
    "function_schema_refuted",
    "function_panic_refuted"
   ],
   "note": "Findings: U+3000 and other wide spaces hang the scan; a quoted table name is refused; function arguments end at the first closing bracket; a dot in them is taken for the schema's; a quoted name with a closing bracket panics."
  },
  {
   "property": "C57",
   "status": "proved",
   "theorems": [
    "set_query_columns",
    "view_loads",
    "view_content",
    "view_content_elsewhere",
    "view_indexes_unique",
    "view_triggers_unique",
    "view_trigger_elsewhere_refuted",
    "view_unexported_refuted",
    "view_without_query_refuted",
    "view_refresh_refuted"
   ],
   "note": "Trigger texts are assumed not blank (a blank one is accepted: refuted). Findings also: unexported fields, views without a query, RefreshIndexCache."
  },
  {
   "property": "C56",
   "status": "proved",
   "theorems": [
    "with_db_succeeds",
    "with_db_reads",
    "with_db_catalog",
    "with_db_forgets",
    "read_and_migrate",
    "read_and_migrate_to_itself",
    "options_succeed",
    "options_read",
    "extensions_not_found_refuted",
    "functions_not_found_refuted",
    "functions_elsewhere_refuted"
   ],
   "note": "The rows are what the queries return (names not empty, no object twice; functions may be overloaded); tables and views given to the options have different names. Findings: extensions that were read and functions given to WithFunctions are not found; WithFunctions outside Postgres."
  },
  {
   "property": "C59",
   "status": "proved",
   "theorems": [
    "objects_read",
    "objects_distinguished",
    "version_read",
    "sqlite_index_sound",
    "single_expression_index_refuted",
    "sqlite_index_form_refuted",
    "comma_name_refuted",
    "check_text_refuted",
    "mysql_version_refuted",
    "sqlite_view_refuted",
    "sqlite_losses_refuted"
   ],
   "note": "The rows are taken as the scripts give them (the SQL of the scripts is not modelled). Findings as refuted."
  },
  {
   "property": "C60",
   "status": "proved",
   "theorems": [
    "nothing_missed",
    "database_read",
    "database_migrated",
    "extensions_cut_refuted"
   ],
   "note": "Finding: GetExtensions does not look at rows.Err."
  },
  {
   "property": "C61",
   "status": "proved",
   "theorems": [
    "auto_after_reading",
    "auto_migrated",
    "auto_again",
    "auto_unqualified_refuted",
    "auto_ignored_refuted"
   ],
   "note": "Options WithTables, WithDDLViews, WithExtensions (functions given to WithFunctions are never found: C56); views without indexes and triggers. Findings: structs that do not name their schema make their own tables be dropped; an ignored table that exists is dropped."
  },
  {
   "property": "C62",
   "status": "proved",
   "theorems": [
    "ddl_parts",
    "ddl_accepted"
   ],
   "note": "Hypotheses: the struct fields load, declared constraint and index names are distinct and not ignored, Config functions do not toggle Ignore (columns: no Ignore call, in ddl_accepted). Handles are those returned by earlier calls."
  },
  {
   "property": "C63",
   "status": "proved",
   "theorems": [
    "filter_selects",
    "names_stay_literals",
    "default_filter",
    "columns_without_tables_refuted",
    "constraints_system_refuted",
    "user_objects_hidden_refuted",
    "mysql_backslash_refuted"
   ],
   "note": "All 20 scripts verbatim; text/template as far as the scripts use it. A reader of SQL text (tokens, WHERE clauses, AND-separated conditions) is part of the specification. filter_selects excludes two defects, which are refuted separately; MySQL names without backslash."
  },
  {
   "property": "C64",
   "status": "proved",
   "theorems": [
    "compare_written",
    "tests_written",
    "lists_written",
    "in_written",
    "operands_not_bracketed_refuted"
   ],
   "note": "Slice elements that are slices or sql.NamedArg are excluded (the code binds them as opaque values). Findings as refuted."
  },
  {
   "property": "C65",
   "status": "proved",
   "theorems": [
    "modifiers_written",
    "constructors_unmodified",
    "fieldf_dialect_chooses",
    "fieldf_dialect_without_default_fails",
    "fieldf_dialect_default_refuted"
   ],
   "note": "The eight field types share one model (their method bodies are equal). Findings as refuted."
  },
  {
   "property": "C66",
   "status": "proved",
   "theorems": [
    "functions_written",
    "window_written",
    "window_error_lost_refuted"
   ],
   "note": "window_written assumes that the window's fields render without error; otherwise the error is lost (refuted)."
  },
  {
   "property": "C67",
   "status": "proved",
   "theorems": [
    "assign_written",
    "shorthands_written",
    "shorthands_name_the_column_iff",
    "shorthands_unquoted_refuted"
   ],
   "note": ""
  },
  {
   "property": "C68",
   "status": "proved",
   "theorems": [
    "reflected",
    "names_in_lower_case",
    "reflected_struct_is_the_table",
    "reflected_again",
    "reflect_stops",
    "not_a_table_refused",
    "realiased_table_refuted",
    "foreign_field_unnamed_refuted",
    "unexported_first_field_panics_refuted"
   ],
   "note": "strings.ToLower is modelled for ASCII. reflect_stops takes 'unreadable' from the tag reader of C37."
  },
  {
   "property": "C69",
   "status": "proved",
   "theorems": [
    "fetch_logged",
    "exists_and_exec_logged",
    "library_logger_returns",
    "log_is_transparent",
    "log_panics_refuted"
   ],
   "note": "log_is_transparent excludes sqlite, whose statements may have more placeholders than arguments in the log's reading; fetch_logged and exists_and_exec_logged hold for all dialects."
  },
  {
   "property": "C70",
   "status": "proved",
   "theorems": [
    "exec_record",
    "exists_record",
    "fetch_record",
    "line_shows_statement",
    "panic_logged_as_success_refuted"
   ],
   "note": "Durations, caller and error texts are parameters (the record 'host')."
  },
  {
   "property": "C71",
   "status": "proved",
   "theorems": [
    "results_logged",
    "null_result_shown_as_error_refuted"
   ],
   "note": "For rows whose columns can be named and whose values are plain."
  },
  {
   "property": "C72",
   "status": "proved",
   "theorems": [
    "typed_rows",
    "accessor_fits",
    "passive_accessor",
    "bad_json_reported",
    "null_json_fails_refuted"
   ],
   "note": "The conversions of database/sql's Scan are given by the table 'scanned' in SpecRow; json.Unmarshal's acceptance is a parameter."
  },
  {
   "property": "C73",
   "status": "proved",
   "theorems": [
    "select_as_called",
    "update_as_called",
    "delete_as_called",
    "insert_as_called",
    "select_text_as_called",
    "update_text_as_called",
    "delete_text_as_called",
    "insert_text_as_called",
    "conflict_without_target_refuted",
    "do_nothing_sticks_refuted",
    "delete_order_replaced_refuted"
   ],
   "note": "Findings as refuted."
  },
  {
   "property": "C74",
   "status": "proved",
   "theorems": [
    "select_builder_fits",
    "update_builder_fits",
    "delete_builder_fits",
    "insert_builder_fits",
    "delete_builder_one_table",
    "mysql_full_join_refuted",
    "mysql_delete_tables_dropped_refuted"
   ],
   "note": "CustomJoin takes any words: for sqlite it is assumed not to ask for a RIGHT or FULL JOIN."
  },
  {
   "property": "C75",
   "status": "proved",
   "theorems": [
    "concurrent_calls",
    "one_call_each",
    "calls_can_finish",
    "nested_calls_compute",
    "dirty_buffer_refuted",
    "buffer_put_early_refuted"
   ],
   "note": "Goroutines interleave at every pool operation and every byte written. The database, the log file and user callbacks are answered arbitrarily. dirty_buffer_refuted and buffer_put_early_refuted are about wrong programs: they show that the model can tell."
  },
  {
   "property": "C76",
   "status": "proved",
   "theorems": [
    "introspector_shared",
    "introspector_never_stuck"
   ],
   "note": "The steps are the statements of queryContext; map accesses have a beginning and an end. The buffer it takes is C75's."
  },
  {
   "property": "C77",
   "status": "proved",
   "theorems": [
    "rendering_again",
    "write_is_after",
    "rendering_other_dialect_refuted"
   ],
   "note": "The statement's memory after a rendering is over-approximated: any subset of the writes may have happened. Rendering for another dialect after sqlite keeps the WHERE TRUE: rendering_other_dialect_refuted."
  },
  {
   "property": "C78",
   "status": "proved",
   "theorems": [
    "scanned_columns",
    "names_from_catalogue"
   ],
   "note": "MySQL: names without a backslash, as for C63. The Scan calls are transcribed in SpecColumns.scans; what a database makes of the expression of a column is not modelled."
  },
  {
   "property": "C79",
   "status": "proved",
   "theorems": [
    "result_sets_closed",
    "missing_defer_refuted"
   ],
   "note": "The functions are transcribed with their control flow (branch, loop, return, break, defer, panic, recover) and without their data, so every execution of the code is one of the model. An asynchronous log call runs in its own goroutine and is not followed. missing_defer_refuted is about a wrong program."
  },
  {
   "property": "C80",
   "status": "proved",
   "theorems": [
    "case_as_called",
    "simple_case_as_called",
    "ctes_as_called",
    "unusable_cte_rejected",
    "cte_named_as_called",
    "derived_column_as_called",
    "case_query_not_bracketed_refuted",
    "cte_name_unquoted_refuted"
   ],
   "note": "For INSERT and UPDATE the column mapper must not fail (it runs before the WITH clause). A query that crashes NewCTE (nil fields) yields no CTE. The _refuted theorems record findings."
  },
  {
   "property": "C81",
   "status": "proved",
   "theorems": [
    "inlined_at_their_places",
    "expression_inlined",
    "view_query_inlined",
    "logged_values_at_their_places",
    "index_columns_in_order",
    "leading_value_stays_placeholder_refuted",
    "leading_quoted_column_rejected_refuted"
   ],
   "note": "Names and ordinals used consistently (well_named, as C13; nothing is needed for MySQL); the text begins with a plain character (the two _refuted theorems: it goes wrong otherwise); texts are given by their reading as segments (SpecSprintf)."
  },
  {
   "property": "C82",
   "status": "proved",
   "theorems": [
    "rename_table_reads_back",
    "rename_table_errors",
    "rename_ignored",
    "mysql_rename_rejected_refuted",
    "new_schema_ignored_refuted",
    "rename_without_schemas_refuted"
   ],
   "note": "Names without inner pairs of the closing quote (as C01/C50). The _refuted theorems: MySQL accepts none of the statements written for it; new schemas are ignored elsewhere; the command panics without schemas."
  },
  {
   "property": "C83",
   "status": "proved",
   "theorems": [
    "migration_text_reaches",
    "migration_text_synchronises"
   ],
   "note": "The database of SpecServer: statements are read from their text; the conditions on the catalogs (comparable, wanted_ok, present_ok) are decided for the example by ServerCheck. Not represented: extensions, the names SQLite does not report for constraints, virtual tables, what CASCADE removes beyond parts of a table, names inside expressions, index elements and view queries. UpdateExisting is the subject of C46/C47."
  },
  {
   "property": "C84",
   "status": "proved",
   "theorems": [
    "migration_never_refused",
    "migration_carried_out"
   ],
   "note": "As C83; SQLite ignores references (it checks none when a table is created). Commands without SQL (CREATE SCHEMA in SQLite, say) are the subject of C51."
  },
  {
   "property": "C85",
   "status": "proved",
   "theorems": [
    "auto_carried_out",
    "auto_synchronises"
   ],
   "note": "SpecAutoServer says when declarations and rows fit; the database is that of C83 (extensions are not objects of it). Function files are not declared through structs (only_structs)."
  },
  {
   "property": "C86",
   "status": "proved",
   "theorems": [
    "select_reads_back",
    "update_reads_back",
    "delete_reads_back",
    "tosql_reads_back",
    "columns_are_followed",
    "tables_are_followed",
    "values_are_followed",
    "comparisons_are_followed",
    "conditions_are_followed",
    "statements_are_followed",
    "subqueries_are_followed",
    "set_operations_are_followed",
    "tests_are_followed",
    "in_is_followed",
    "exists_are_followed",
    "rows_are_followed",
    "functions_are_followed",
    "windows_are_followed",
    "cases_are_followed",
    "params_are_followed",
    "nested_conditions_are_followed",
    "plain_statements_read_back",
    "plain_expressions_are_followed",
    "keyword_column_refuted"
   ],
   "note": "The reader of SpecReadSql works on the tokens of SpecSql. plain_statements_read_back: for a grammar of statements (SpecPlain), without conditions on rendered text. Names of CTEs and of MySQL's DELETE t USING must be plain words: the library does not quote them. keyword_column_refuted: why the keywords are excluded."
  },
  {
   "property": "C87",
   "status": "proved",
   "theorems": [
    "insert_reads_back",
    "mapped_insert_reads_back",
    "tosql_insert_reads_back",
    "inserts_are_followed",
    "insert_tables_are_followed",
    "plain_inserts_read_back"
   ],
   "note": "As C86. The names of constraints and the aliases of rows must be plain words: the library does not quote them. The query that supplies the rows is that of C20 (SQLite gets WHERE TRUE when it has no condition)."
  },
  {
   "property": "C88",
   "status": "proved",
   "theorems": [
    "fetched_select_is_read_as_called",
    "executed_update_is_read_as_called",
    "executed_delete_is_read_as_called",
    "executed_insert_is_read_as_called",
    "fetched_update_is_read_as_called",
    "fetched_delete_is_read_as_called",
    "fetched_insert_is_read_as_called",
    "select_exists_is_read_as_called"
   ],
   "note": "Composition of C22, C43, C73, C86 and C87. asked_select etc. are the specification of C73; select_found etc. of C86. The grammar (SpecPlain) excludes formats of the user's (Fieldf, Predicatef, Queryf), whose text is arbitrary."
  },
  {
   "property": "C89",
   "status": "proved",
   "theorems": [
    "loading_a_table_only_adds",
    "options_only_add",
    "declared_columns_stay",
    "second_declaration_adds_the_missing_columns"
   ],
   "note": "For views the theorem says name, place and Ignore; what is in a view is C57. WithDB starts the list of schemas anew (C56), so the options after it are meant."
  }
 ]
}