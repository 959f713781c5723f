(** * ScriptText: the introspection scripts, byte for byte
    (ddl/introspection_scripts, embedded by ddl/ddl.go:13-14; those that
    introspect.go sends).  Generated from the files. *)
From Verif Require Import GoBase.

(** ddl/introspection_scripts/sqlite_tables.sql:1-15 *)
Definition sqlite_tables : bytes := B "SELECT
    tbl_name AS table_name
    ,sql
FROM
    sqlite_schema
WHERE
    ""type"" = 'table'
    {{ if not .IncludeSystemCatalogs }}AND tbl_name NOT LIKE 'sqlite_%' AND sql NOT LIKE 'CREATE TABLE ''%'{{ end }}
    {{ if .WithTables }}AND tbl_name IN ({{ printList .WithTables }}){{ end }}
    {{ if .WithoutTables }}AND tbl_name NOT IN ({{ printList .WithoutTables }}){{ end }}
{{- if .SortOutput }}
ORDER BY
    tbl_name
{{- end }}
;
".

(** ddl/introspection_scripts/sqlite_columns.sql:1-24 *)
Definition sqlite_columns : bytes := B "SELECT
    tables.tbl_name AS table_name
    ,columns.name AS column_name
    ,columns.""type"" AS column_type
    ,columns.""notnull"" AS is_notnull
    ,COALESCE(columns.dflt_value, '') AS column_default
FROM (
    SELECT
        tbl_name
    FROM
        sqlite_schema
    WHERE
        ""type"" = 'table'
        {{ if not .IncludeSystemCatalogs }}AND tbl_name NOT LIKE 'sqlite_%' AND sql NOT LIKE 'CREATE TABLE ''%'{{ end }}
        {{ if .WithTables }}AND tbl_name IN ({{ printList .WithTables }}){{ end }}
        {{ if .WithoutTables }}AND tbl_name NOT IN ({{ printList .WithoutTables }}){{ end }}
    ) AS tables
    CROSS JOIN pragma_table_xinfo(tables.tbl_name) AS columns
{{- if .SortOutput }}
ORDER BY
    tables.tbl_name
    ,columns.cid
{{- end }}
;
".

(** ddl/introspection_scripts/sqlite_constraints.sql:1-117 *)
Definition sqlite_constraints : bytes := B "SELECT
    *
FROM (
SELECT
    table_name
    ,'PRIMARY KEY' AS constraint_type
    ,COALESCE(group_concat(column_name), 'ROWID') AS columns
    ,'' AS references_table
    ,'' AS references_columns
    ,'' AS update_rule
    ,'' AS delete_rule
FROM (
    SELECT
        tables.tbl_name AS table_name
        ,columns.name AS column_name
    FROM (
        SELECT
            tbl_name
        FROM
            sqlite_schema
        WHERE
            ""type"" = 'table'
            {{ if not .IncludeSystemCatalogs }}AND tbl_name NOT LIKE 'sqlite_%' AND sql NOT LIKE 'CREATE TABLE ''%'{{ end }}
            {{ if .WithTables }}AND tbl_name IN ({{ printList .WithTables }}){{ end }}
            {{ if .WithoutTables }}AND tbl_name NOT IN ({{ printList .WithoutTables }}){{ end }}
        ) AS tables
        CROSS JOIN pragma_table_info(tables.tbl_name) AS columns
    WHERE
        columns.pk > 0
    ORDER BY
        tables.tbl_name
        ,columns.pk
    ) AS primary_key_columns
GROUP BY
    table_name
UNION ALL
SELECT
    table_name
    ,'UNIQUE' AS constraint_type
    ,COALESCE(group_concat(column_name), '') AS columns
    ,'' AS references_table
    ,'' AS references_columns
    ,'' AS update_rule
    ,'' AS delete_rule
FROM (
    SELECT
        tables.tbl_name AS table_name
        ,il.name AS index_name
        ,ii.name AS column_name
    FROM (
        SELECT
            tbl_name
        FROM
            sqlite_schema
        WHERE
            ""type"" = 'table'
            {{ if not .IncludeSystemCatalogs }}AND tbl_name NOT LIKE 'sqlite_%' AND sql NOT LIKE 'CREATE TABLE ''%'{{ end }}
            {{ if .WithTables }}AND tbl_name IN ({{ printList .WithTables }}){{ end }}
            {{ if .WithoutTables }}AND tbl_name NOT IN ({{ printList .WithoutTables }}){{ end }}
        ) AS tables
        CROSS JOIN pragma_index_list(tables.tbl_name) AS il
        CROSS JOIN pragma_index_info(il.name) AS ii
    WHERE
        il.""unique""
        AND il.origin = 'u'
    ORDER BY
        ii.seqno
    ) AS unique_columns
GROUP BY
    table_name
    ,index_name
UNION ALL
SELECT
    table_name
    ,'FOREIGN KEY' AS constraint_type
    ,COALESCE(group_concat(column_name), '') AS columns
    ,references_table
    ,COALESCE(group_concat(references_column), '') AS references_columns
    ,update_rule
    ,delete_rule
FROM (
    SELECT
        tables.tbl_name AS table_name
        ,fkl.id
        ,fkl.""from"" AS column_name
        ,fkl.""table"" AS references_table
        ,fkl.""to"" AS references_column
        ,fkl.on_update AS update_rule
        ,fkl.on_delete AS delete_rule
    FROM (
        SELECT
            tbl_name
        FROM
            sqlite_schema
        WHERE
            ""type"" = 'table'
            {{ if not .IncludeSystemCatalogs }}AND tbl_name NOT LIKE 'sqlite_%' AND sql NOT LIKE 'CREATE TABLE ''%'{{ end }}
            {{ if .WithTables }}AND tbl_name IN ({{ printList .WithTables }}){{ end }}
            {{ if .WithoutTables }}AND tbl_name NOT IN ({{ printList .WithoutTables }}){{ end }}
        ) AS tables
        CROSS JOIN pragma_foreign_key_list(tables.tbl_name) AS fkl
    ORDER BY
        fkl.seq
    ) AS foreign_key_columns
GROUP BY
    table_name
    ,id
    ,references_table
    ,update_rule
    ,delete_rule
) AS tmp
{{- if .SortOutput }}
ORDER BY
    table_name
    ,constraint_type
{{- end }}
;
".

(** ddl/introspection_scripts/sqlite_indexes.sql:1-45 *)
Definition sqlite_indexes : bytes := B "SELECT
    table_name
    ,index_name
    ,is_unique
    ,group_concat(column_name) AS columns
    ,sql
FROM (
    SELECT
        tables.tbl_name AS table_name
        ,il.name AS index_name
        ,il.""unique"" AS is_unique
        ,CASE ii.cid WHEN -1 THEN '' WHEN -2 THEN '' ELSE ii.name END AS column_name
        ,ii.seqno
        ,m.sql
    FROM (
        SELECT
            tbl_name
        FROM
            sqlite_schema
        WHERE
            ""type"" = 'table'
            {{ if not .IncludeSystemCatalogs }}AND tbl_name NOT LIKE 'sqlite_%' AND sql NOT LIKE 'CREATE TABLE ''%'{{ end }}
            {{ if .WithTables }}AND tbl_name IN ({{ printList .WithTables }}){{ end }}
            {{ if .WithoutTables }}AND tbl_name NOT IN ({{ printList .WithoutTables }}){{ end }}
        ) AS tables
        CROSS JOIN pragma_index_list(tables.tbl_name) AS il
        CROSS JOIN pragma_index_info(il.name) AS ii
        JOIN sqlite_schema AS m ON m.""type"" = 'index' AND m.tbl_name = tables.tbl_name AND m.name = il.name
    WHERE
        il.origin = 'c'
    ORDER BY
        il.name
        ,ii.seqno
    ) AS indexed_columns
GROUP BY
    table_name
    ,index_name
    ,is_unique
    ,sql
{{- if .SortOutput }}
ORDER BY
    table_name
    ,index_name
{{- end }}
;
".

(** ddl/introspection_scripts/sqlite_triggers.sql:1-17 *)
Definition sqlite_triggers : bytes := B "SELECT
    tbl_name AS table_name
    ,name AS trigger_name
    ,sql || ';' AS sql
FROM
    sqlite_schema
WHERE
    ""type"" = 'trigger'
    {{ if not .IncludeSystemCatalogs }}AND tbl_name NOT LIKE 'sqlite_%' AND sql NOT LIKE 'CREATE TABLE ''%'{{ end }}
    {{ if .WithTables }}AND tbl_name IN ({{ printList .WithTables }}){{ end }}
    {{ if .WithoutTables }}AND tbl_name NOT IN ({{ printList .WithoutTables }}){{ end }}
{{- if .SortOutput }}
ORDER BY
    tbl_name
    ,name
{{- end }}
;
".

(** ddl/introspection_scripts/sqlite_views.sql:1-15 *)
Definition sqlite_views : bytes := B "SELECT
    name AS view_name
    ,sql
FROM
    sqlite_schema
WHERE
    ""type"" = 'view'
    {{ if not .IncludeSystemCatalogs }}AND tbl_name NOT LIKE 'sqlite_%' AND sql NOT LIKE 'CREATE TABLE ''%'{{ end }}
    {{ if .WithTables }}AND tbl_name IN ({{ printList .WithTables }}){{ end }}
    {{ if .WithoutTables }}AND tbl_name NOT IN ({{ printList .WithoutTables }}){{ end }}
{{- if .SortOutput }}
ORDER BY
    name
{{- end }}
;
".

(** ddl/introspection_scripts/postgres_extensions.sql:1-10 *)
Definition postgres_extensions : bytes := B "SELECT
    extname AS extension_name
    ,extversion AS extension_version
FROM
    pg_extension
{{- if .SortOutput }}
ORDER BY
    extname
{{- end }}
;
".

(** ddl/introspection_scripts/postgres_tables.sql:1-19 *)
Definition postgres_tables : bytes := B "SELECT
    schemas.nspname AS table_schema
    ,tables.relname AS table_name
FROM
    pg_class AS tables
    JOIN pg_namespace AS schemas ON schemas.oid = tables.relnamespace
WHERE
    tables.relkind = 'r'
    {{ if not .IncludeSystemCatalogs }}AND schemas.nspname <> 'information_schema' AND schemas.nspname NOT LIKE 'pg_%'{{ end }}
    {{ if .WithSchemas }}AND schemas.nspname IN ({{ printList .WithSchemas }}){{ end }}
    {{ if .WithoutSchemas }}AND schemas.nspname NOT IN ({{ printList .WithoutSchemas }}){{ end }}
    {{ if .WithTables }}AND tables.relname IN ({{ printList .WithTables }}){{ end }}
    {{ if .WithoutTables }}AND tables.relname NOT IN ({{ printList .WithoutTables }}){{ end }}
{{- if .SortOutput }}
ORDER BY
    schemas.nspname
    ,tables.relname
{{- end }}
;
".

(** ddl/introspection_scripts/postgres_columns.sql:1-70 *)
Definition postgres_columns : bytes := B "SELECT
    schemas.nspname AS table_schema
    ,tables.relname AS table_name
    ,columns.attname AS column_name
    ,UPPER(format_type(columns.atttypid, columns.atttypmod)) AS column_type
    -- https://stackoverflow.com/a/3351120 precision and scale calculation
    ,CASE columns.atttypid
        WHEN 21 /*int2*/ THEN 16
        WHEN 23 /*int4*/ THEN 32
        WHEN 20 /*int8*/ THEN 64
        WHEN 1700 /*numeric*/ THEN
            CASE
                WHEN columns.atttypmod = -1 THEN 0
                ELSE ((columns.atttypmod - 4) >> 16) & 65535
            END
        WHEN 700 /*float4*/ THEN 24 /*FLT_MANT_DIG*/
        WHEN 701 /*float8*/ THEN 53 /*DBL_MANT_DIG*/
        ELSE 0
    END AS numeric_precision
    ,CASE
        WHEN columns.atttypid IN (21, 23, 20) THEN 0
        WHEN columns.atttypid IN (1700) THEN
            CASE
                WHEN columns.atttypmod = -1 THEN 0
                ELSE (columns.atttypmod - 4) & 65535
            END
        ELSE 0
    END AS numeric_scale
    ,CASE columns.attidentity
        WHEN 'd' THEN 'BY DEFAULT AS IDENTITY'
        WHEN 'a' THEN 'ALWAYS AS IDENTITY'
        ELSE ''
    END AS identity
    ,columns.attnotnull AS is_notnull
    ,CASE columns.attgenerated
        WHEN 's' THEN COALESCE(pg_get_expr(pg_attrdef.adbin, pg_attrdef.adrelid, TRUE), '')
        ELSE ''
    END AS generated_expr
    ,COALESCE(columns.attgenerated = 's', FALSE) AS generated_expr_stored
    ,CASE pg_collation.collname
        WHEN 'default' THEN ''
        ELSE COALESCE(pg_collation.collname, '')
    END AS collation_name
    ,CASE columns.attgenerated
        WHEN 's' THEN ''
        ELSE COALESCE(pg_get_expr(pg_attrdef.adbin, pg_attrdef.adrelid, TRUE), '')
    END AS column_default
    ,COALESCE(comments.description, '') AS column_comment
FROM
    pg_attribute AS columns
    JOIN pg_class AS tables ON tables.relkind = 'r' AND tables.oid = columns.attrelid
    JOIN pg_namespace AS schemas ON schemas.oid = tables.relnamespace
    LEFT JOIN pg_attrdef ON pg_attrdef.adrelid = tables.oid AND pg_attrdef.adnum = columns.attnum
    LEFT JOIN pg_collation ON pg_collation.oid = columns.attcollation
    LEFT JOIN pg_description AS comments ON comments.objoid = tables.oid AND comments.objsubid = columns.attnum
WHERE
    columns.attnum > 0
    AND NOT columns.attisdropped
    {{ if not .IncludeSystemCatalogs }}AND schemas.nspname <> 'information_schema' AND schemas.nspname NOT LIKE 'pg_%'{{ end }}
    {{ if .WithSchemas }}AND schemas.nspname IN ({{ printList .WithSchemas }}){{ end }}
    {{ if .WithoutSchemas }}AND schemas.nspname NOT IN ({{ printList .WithoutSchemas }}){{ end }}
    {{ if .WithTables }}AND tables.relname IN ({{ printList .WithTables }}){{ end }}
    {{ if .WithoutTables }}AND tables.relname NOT IN ({{ printList .WithTables }}){{ end }}
{{- if .SortOutput }}
ORDER BY
    schemas.nspname
    ,tables.relname
    ,columns.attnum
{{- end }}
;
".

(** ddl/introspection_scripts/postgres_constraints.sql:1-239 *)
Definition postgres_constraints : bytes := B "SELECT
    *
FROM (
SELECT
    table_schema
    ,table_name
    ,constraint_name
    ,CASE contype
        WHEN 'p' THEN 'PRIMARY KEY'
        WHEN 'u' THEN 'UNIQUE'
        ELSE ''
    END AS constraint_type
    ,string_agg(column_name, ',' ORDER BY seq) AS columns
    ,'' AS exprs
    ,'' AS references_schema
    ,'' AS references_table
    ,'' AS references_columns
    ,'' AS update_rule
    ,'' AS delete_rule
    ,'' AS match_option
    ,'' AS check_expr
    ,'' AS operators
    ,'' AS index_type
    ,'' AS predicate
    ,is_deferrable
    ,is_initially_deferred
FROM (
    SELECT
        schemas.nspname AS table_schema
        ,tables.relname AS table_name
        ,pg_constraint.conname AS constraint_name
        ,pg_constraint.contype
        ,columns.attname AS column_name
        ,pg_constraint.condeferrable AS is_deferrable
        ,pg_constraint.condeferred AS is_initially_deferred
        ,c.seq
    FROM
        pg_constraint
        JOIN pg_class AS tables ON tables.oid = pg_constraint.conrelid
        JOIN pg_namespace AS schemas ON schemas.oid = tables.relnamespace
        CROSS JOIN unnest(pg_constraint.conkey) WITH ORDINALITY AS c(oid, seq)
        JOIN pg_attribute AS columns ON columns.attrelid = pg_constraint.conrelid AND columns.attnum = c.oid
    WHERE
        pg_constraint.contype IN ('p', 'u')
        {{ if not .IncludeSystemCatalogs }}AND schemas.nspname <> 'information_schema' AND schemas.nspname NOT LIKE 'pg_%'{{ end }}
        {{ if .WithSchemas }}AND schemas.nspname IN ({{ printList .WithSchemas }}){{ end }}
        {{ if .WithoutSchemas }}AND schemas.nspname NOT IN ({{ printList .WithoutSchemas }}){{ end }}
        {{ if .WithTables }}AND tables.relname IN ({{ printList .WithTables }}){{ end }}
        {{ if .WithoutTables }}AND tables.relname NOT IN ({{ printList .WithoutTables }}){{ end }}
) AS primary_key_unique_columns
GROUP BY
    table_schema
    ,table_name
    ,constraint_name
    ,contype
    ,is_deferrable
    ,is_initially_deferred
UNION ALL
SELECT
    table_schema
    ,table_name
    ,constraint_name
    ,'FOREIGN KEY' constraint_type
    ,string_agg(column_name, ',' ORDER BY seq) AS columns
    ,'' AS exprs
    ,references_schema
    ,references_table
    ,string_agg(references_column, ',' ORDER BY seq) AS references_columns
    ,update_rule
    ,delete_rule
    ,match_option
    ,'' AS check_expr
    ,'' AS operators
    ,'' AS index_type
    ,'' AS predicate
    ,is_deferrable
    ,is_initially_deferred
FROM (
    SELECT
        schemas1.nspname AS table_schema
        ,tables1.relname AS table_name
        ,pg_constraint.conname AS constraint_name
        ,columns1.attname AS column_name
        ,schemas2.nspname AS references_schema
        ,tables2.relname AS references_table
        ,columns2.attname AS references_column
        ,CASE pg_constraint.confupdtype
            WHEN 'a' THEN 'NO ACTION'
            WHEN 'r' THEN 'RESTRICT'
            WHEN 'c' THEN 'CASCADE'
            WHEN 'n' THEN 'SET NULL'
            WHEN 'd' THEN 'SET DEFAULT'
        END AS update_rule
        ,CASE pg_constraint.confdeltype
            WHEN 'a' THEN 'NO ACTION'
            WHEN 'r' THEN 'RESTRICT'
            WHEN 'c' THEN 'CASCADE'
            WHEN 'n' THEN 'SET NULL'
            WHEN 'd' THEN 'SET DEFAULT'
        END AS delete_rule
        ,CASE pg_constraint.confmatchtype
            WHEN 'f' THEN 'MATCH FULL'
            WHEN 'p' THEN 'MATCH PARTIAL'
            ELSE ''
        END AS match_option
        ,pg_constraint.condeferrable AS is_deferrable
        ,pg_constraint.condeferred AS is_initially_deferred
        ,c1.seq
    FROM
        pg_constraint
        JOIN pg_class AS tables1 ON tables1.oid = pg_constraint.conrelid
        JOIN pg_class AS tables2 ON tables2.oid = pg_constraint.confrelid
        JOIN pg_namespace AS schemas1 ON schemas1.oid = tables1.relnamespace
        JOIN pg_namespace AS schemas2 ON schemas2.oid = tables2.relnamespace
        CROSS JOIN unnest(pg_constraint.conkey) WITH ORDINALITY AS c1(oid, seq)
        JOIN unnest(pg_constraint.confkey) WITH ORDINALITY AS c2(oid, seq) ON c2.seq = c1.seq
        JOIN pg_attribute AS columns1 ON columns1.attrelid = pg_constraint.conrelid AND columns1.attnum = c1.oid
        JOIN pg_attribute AS columns2 ON columns2.attrelid = pg_constraint.confrelid AND columns2.attnum = c2.oid
    WHERE
        pg_constraint.contype = 'f'
        {{ if not .IncludeSystemCatalogs }}AND schemas1.nspname <> 'information_schema' AND schemas1.nspname NOT LIKE 'pg_%'{{ end }}
        {{ if .WithSchemas }}AND schemas1.nspname IN ({{ printList .WithSchemas }}){{ end }}
        {{ if .WithoutSchemas }}AND schemas1.nspname NOT IN ({{ printList .WithoutSchemas }}){{ end }}
        {{ if .WithTables }}AND tables1.relname IN ({{ printList .WithTables }}){{ end }}
        {{ if .WithoutTables }}AND tables1.relname NOT IN ({{ printList .WithoutTables }}){{ end }}
) AS foreign_key_columns
GROUP BY
    table_schema
    ,table_name
    ,constraint_name
    ,references_schema
    ,references_table
    ,update_rule
    ,delete_rule
    ,match_option
    ,is_deferrable
    ,is_initially_deferred
UNION ALL
SELECT
    schemas.nspname AS table_schema
    ,tables.relname AS table_name
    ,pg_constraint.conname AS constraint_name
    ,'CHECK' AS constraint_type
    ,'' AS columns
    ,'' AS exprs
    ,'' AS references_schema
    ,'' AS references_table
    ,'' AS references_columns
    ,'' AS update_rule
    ,'' AS delete_rule
    ,'' AS match_option
    ,pg_get_constraintdef(pg_constraint.oid, TRUE) AS check_expr
    ,'' AS operators
    ,'' AS index_type
    ,'' AS predicate
    ,pg_constraint.condeferrable AS is_deferrable
    ,pg_constraint.condeferred AS is_initially_deferred
FROM
    pg_constraint
    JOIN pg_class AS tables ON tables.oid = pg_constraint.conrelid
    JOIN pg_namespace AS schemas ON schemas.oid = tables.relnamespace
WHERE
    pg_constraint.contype = 'c'
    {{ if not .IncludeSystemCatalogs }}AND schemas.nspname <> 'information_schema' AND schemas.nspname NOT LIKE 'pg_%'{{ end }}
    {{ if .WithSchemas }}AND schemas.nspname IN ({{ printList .WithSchemas }}){{ end }}
    {{ if .WithoutSchemas }}AND schemas.nspname NOT IN ({{ printList .WithoutSchemas }}){{ end }}
    {{ if .WithTables }}AND tables.relname IN ({{ printList .WithTables }}){{ end }}
    {{ if .WithoutTables }}AND tables.relname NOT IN ({{ printList .WithoutTables }}){{ end }}
UNION ALL
SELECT
    table_schema
    ,table_name
    ,constraint_name
    ,'EXCLUDE' AS constraint_type
    ,string_agg(column_name, ',' ORDER BY seq) AS columns
    ,COALESCE(pg_get_expr(exprs_oid, table_oid, TRUE), '') AS exprs
    ,'' AS references_schema
    ,'' AS references_table
    ,'' AS references_columns
    ,'' AS update_rule
    ,'' AS delete_rule
    ,'' AS match_option
    ,'' AS check_expr
    ,string_agg(operator, ',' ORDER BY seq) AS operators
    ,exclusion_index_type
    ,COALESCE(pg_get_expr(predicate_oid, table_oid, TRUE), '') AS predicate
    ,is_deferrable
    ,is_initially_deferred
FROM (
    SELECT
        schemas.nspname AS table_schema
        ,tables.relname AS table_name
        ,pg_constraint.conname AS constraint_name
        ,COALESCE(columns.attname, '') AS column_name
        ,pg_operator.oprname AS operator
        ,UPPER(pg_am.amname) AS exclusion_index_type
        ,pg_constraint.condeferrable AS is_deferrable
        ,pg_constraint.condeferred AS is_initially_deferred
        ,pg_index.indrelid AS table_oid
        ,pg_index.indexprs AS exprs_oid
        ,pg_index.indpred AS predicate_oid
        ,c.seq
    FROM
        pg_constraint
        JOIN pg_class AS tables ON tables.oid = pg_constraint.conrelid
        JOIN pg_class AS indexes ON indexes.oid = pg_constraint.conindid
        JOIN pg_namespace AS schemas ON schemas.oid = tables.relnamespace
        JOIN pg_index ON pg_index.indexrelid = indexes.oid
        JOIN pg_am ON pg_am.oid = indexes.relam
        CROSS JOIN unnest(pg_index.indkey) WITH ORDINALITY AS c(oid, seq)
        JOIN unnest(pg_constraint.conexclop) WITH ORDINALITY AS o(oid, seq) ON o.seq = c.seq
        LEFT JOIN pg_attribute AS columns ON columns.attrelid = pg_index.indrelid AND columns.attnum = c.oid
        JOIN pg_operator ON pg_operator.oid = o.oid
    WHERE
        pg_constraint.contype = 'x'
        {{ if not .IncludeSystemCatalogs }}AND schemas.nspname <> 'information_schema' AND schemas.nspname NOT LIKE 'pg_%'{{ end }}
        {{ if .WithSchemas }}AND schemas.nspname IN ({{ printList .WithSchemas }}){{ end }}
        {{ if .WithoutSchemas }}AND schemas.nspname NOT IN ({{ printList .WithoutSchemas }}){{ end }}
        {{ if .WithTables }}AND tables.relname IN ({{ printList .WithTables }}){{ end }}
        {{ if .WithoutTables }}AND tables.relname NOT IN ({{ printList .WithoutTables }}){{ end }}
) AS exclude_columns
GROUP BY
    table_schema
    ,table_name
    ,constraint_name
    ,exclusion_index_type
    ,is_deferrable
    ,is_initially_deferred
    ,table_oid
    ,exprs_oid
    ,predicate_oid
) AS tmp
{{- if .SortOutput }}
ORDER BY
    table_schema
    ,table_name
    ,constraint_name
{{- end }}
;
".

(** ddl/introspection_scripts/postgres_indexes.sql:1-60 *)
Definition postgres_indexes : bytes := B "SELECT
    table_schema
    ,table_name
    ,index_name
    ,index_type
    ,is_unique
    ,num_key_columns
    ,string_agg(column_name, ',' ORDER BY seq) AS columns
    ,COALESCE(pg_get_expr(exprs_oid, table_oid, TRUE), '') AS exprs
    ,COALESCE(pg_get_expr(predicate_oid, table_oid, TRUE), '') AS predicate
FROM (
    SELECT
        schemas.nspname AS table_schema
        ,tables.relname AS table_name
        ,indexes.relname AS index_name
        ,UPPER(pg_am.amname) AS index_type
        ,pg_index.indisunique AS is_unique
        ,pg_index.indnkeyatts AS num_key_columns
        ,COALESCE(columns.attname, '') AS column_name
        ,pg_index.indrelid AS table_oid
        ,pg_index.indexprs AS exprs_oid
        ,pg_index.indpred AS predicate_oid
        ,c.seq
    FROM
        pg_index
        JOIN pg_class AS indexes ON indexes.oid = pg_index.indexrelid
        JOIN pg_class AS tables ON tables.oid = pg_index.indrelid
        JOIN pg_namespace AS schemas ON schemas.oid = tables.relnamespace
        JOIN pg_am ON pg_am.oid = indexes.relam
        CROSS JOIN unnest(pg_index.indkey) WITH ORDINALITY AS c(oid, seq)
        LEFT JOIN pg_attribute AS columns ON columns.attrelid = pg_index.indrelid AND columns.attnum = c.oid
    WHERE
        NOT EXISTS (
            SELECT 1
            FROM pg_constraint
            WHERE pg_constraint.conname = indexes.relname
        )
        {{ if not .IncludeSystemCatalogs }}AND schemas.nspname <> 'information_schema' AND schemas.nspname NOT LIKE 'pg_%'{{ end }}
        {{ if .WithSchemas }}AND schemas.nspname IN ({{ printList .WithSchemas }}){{ end }}
        {{ if .WithoutSchemas }}AND schemas.nspname NOT IN ({{ printList .WithoutSchemas }}){{ end }}
        {{ if .WithTables }}AND tables.relname IN ({{ printList .WithTables }}){{ end }}
        {{ if .WithoutTables }}AND tables.relname NOT IN ({{ printList .WithoutTables }}){{ end }}
) AS indexed_columns
GROUP BY
    table_schema
    ,table_name
    ,index_name
    ,index_type
    ,is_unique
    ,num_key_columns
    ,table_oid
    ,exprs_oid
    ,predicate_oid
{{- if .SortOutput }}
ORDER BY
    table_schema
    ,table_name
    ,index_name
{{- end }}
;
".

(** ddl/introspection_scripts/postgres_triggers.sql:1-23 *)
Definition postgres_triggers : bytes := B "SELECT
    schemas.nspname AS table_schema
    ,tables.relname AS table_name
    ,pg_trigger.tgname AS trigger_name
    ,COALESCE(pg_get_triggerdef(pg_trigger.oid, TRUE) || ';', '') AS sql
FROM
    pg_trigger
    JOIN pg_class AS tables ON tables.oid = pg_trigger.tgrelid
    JOIN pg_namespace AS schemas ON schemas.oid = tables.relnamespace
WHERE
    NOT pg_trigger.tgisinternal
    {{ if not .IncludeSystemCatalogs }}AND schemas.nspname <> 'information_schema' AND schemas.nspname NOT LIKE 'pg_%'{{ end }}
    {{ if .WithSchemas }}AND schemas.nspname IN ({{ printList .WithSchemas }}){{ end }}
    {{ if .WithoutSchemas }}AND schemas.nspname NOT IN ({{ printList .WithoutSchemas }}){{ end }}
    {{ if .WithTables }}AND tables.relname IN ({{ printList .WithTables }}){{ end }}
    {{ if .WithoutTables }}AND tables.relname NOT IN ({{ printList .WithoutTables }}){{ end }}
{{- if .SortOutput }}
ORDER BY
    schemas.nspname
    ,tables.relname
    ,pg_trigger.tgname
{{- end }}
;
".

(** ddl/introspection_scripts/postgres_functions.sql:1-33 *)
Definition postgres_functions : bytes := B "SELECT
    schemas.nspname AS function_schema
    ,proc1.proname AS function_name
    ,pg_get_functiondef(proc1.oid) AS sql
    ,pg_get_function_arguments(proc1.oid) AS raw_args
    ,pg_get_function_result(proc1.oid) AS return_type
FROM
    pg_proc AS proc1
    JOIN pg_namespace AS schemas ON schemas.oid = proc1.pronamespace
WHERE
    pg_function_is_visible(proc1.oid)
    AND NOT EXISTS (
        SELECT
            *
        FROM
            pg_extension
            JOIN pg_depend ON pg_depend.refobjid = pg_extension.oid
            JOIN pg_proc AS proc2 ON proc2.oid = pg_depend.objid
        WHERE
            pg_depend.deptype = 'e'
            AND proc1.oid = proc2.oid
    )
    {{ if not .IncludeSystemCatalogs }}AND schemas.nspname <> 'information_schema' AND schemas.nspname NOT LIKE 'pg_%'{{ end }}
    {{ if .WithSchemas }}AND schemas.nspname IN ({{ printList .WithSchemas }}){{ end }}
    {{ if .WithoutSchemas }}AND schemas.nspname NOT IN ({{ printList .WithoutSchemas }}){{ end }}
    {{ if .WithFunctions }}AND proc1.proname IN ({{ printList .WithFunctions }}){{ end }}
    {{ if .WithoutFunctions }}AND proc1.proname NOT IN ({{ printList .WithoutFunctions }}){{ end }}
{{- if .SortOutput }}
ORDER BY
    schemas.nspname
    ,proc1.proname
{{- end }}
;
".

(** ddl/introspection_scripts/postgres_views.sql:1-39 *)
Definition postgres_views : bytes := B "SELECT
    *
FROM (
SELECT
    schemaname AS view_schema
    ,viewname AS view_name
    ,FALSE AS is_materialized
    ,pg_get_viewdef(to_regclass(schemaname || '.' || viewname), true) AS sql
FROM
    pg_views
WHERE
    TRUE
    {{ if not .IncludeSystemCatalogs }}AND schemaname <> 'information_schema' AND schemaname NOT LIKE 'pg_%'{{ end }}
    {{ if .WithSchemas }}AND schemaname IN ({{ printList .WithSchemas }}){{ end }}
    {{ if .WithoutSchemas }}AND schemaname NOT IN ({{ printList .WithoutSchemas }}){{ end }}
    {{ if .WithTables }}AND viewname IN ({{ printList .WithTables }}){{ end }}
    {{ if .WithoutTables }}AND viewname NOT IN ({{ printList .WithoutTables }}){{ end }}
UNION ALL
SELECT
    schemaname AS view_schema
    ,matviewname AS view_name
    ,TRUE AS is_materialized
    ,pg_get_viewdef(to_regclass(schemaname || '.' || matviewname), true) AS sql
FROM
    pg_matviews
WHERE
    TRUE
    {{ if not .IncludeSystemCatalogs }}AND schemaname <> 'information_schema' AND schemaname NOT LIKE 'pg_%'{{ end }}
    {{ if .WithSchemas }}AND schemaname IN ({{ printList .WithSchemas }}){{ end }}
    {{ if .WithoutSchemas }}AND schemaname NOT IN ({{ printList .WithoutSchemas }}){{ end }}
    {{ if .WithTables }}AND matviewname IN ({{ printList .WithTables }}){{ end }}
    {{ if .WithoutTables }}AND matviewname NOT IN ({{ printList .WithoutTables }}){{ end }}
) AS tmp
{{- if .SortOutput }}
ORDER BY
    view_schema
    ,view_name
{{- end }}
;
".

(** ddl/introspection_scripts/mysql_tables.sql:1-18 *)
Definition mysql_tables : bytes := B "SELECT
    table_schema
    ,table_name
FROM
    information_schema.tables
WHERE
    table_type = 'BASE TABLE'
    {{ if not .IncludeSystemCatalogs }}AND table_schema NOT IN ('mysql', 'information_schema', 'performance_schema', 'sys'){{ end }}
    {{ if .WithSchemas }}AND table_schema IN ({{ printList .WithSchemas }}){{ end }}
    {{ if .WithoutSchemas }}AND table_schema NOT IN ({{ printList .WithoutSchemas }}){{ end }}
    {{ if .WithTables }}AND table_name IN ({{ printList .WithTables }}){{ end }}
    {{ if .WithoutTables }}AND table_name NOT IN ({{ printList .WithoutTables }}){{ end }}
{{- if .SortOutput }}
ORDER BY
    table_schema
    ,table_name
{{- end }}
;
".

(** ddl/introspection_scripts/mysql_columns.sql:1-32 *)
Definition mysql_columns : bytes := B "SELECT
    c.table_schema
    ,c.table_name
    ,c.column_name
    ,UPPER(c.column_type) AS column_type
    ,COALESCE(c.numeric_precision, 0) AS numeric_precision
    ,COALESCE(c.numeric_scale, 0) AS numeric_scale
    ,COALESCE(c.extra = 'auto_increment', FALSE) AS is_autoincrement
    ,NOT c.is_nullable AS is_notnull
    ,COALESCE(c.extra = 'DEFAULT_GENERATED on update CURRENT_TIMESTAMP', FALSE) AS on_update_current_timestamp
    ,COALESCE(c.generation_expression, '') AS generated_expr
    ,COALESCE(c.extra = 'STORED GENERATED', FALSE) AS generated_expr_stored
    ,COALESCE(c.collation_name, '') AS collation_name
    ,COALESCE(c.column_default, '') AS column_default
    ,c.column_comment
FROM
    information_schema.columns AS c
    JOIN information_schema.tables AS t USING (table_schema, table_name)
WHERE
    t.table_type = 'BASE TABLE'
    {{ if not .IncludeSystemCatalogs }}AND c.table_schema NOT IN ('mysql', 'information_schema', 'performance_schema', 'sys'){{ end }}
    {{ if .WithSchemas }}AND c.table_schema IN ({{ printList .WithSchemas }}){{ end }}
    {{ if .WithoutSchemas }}AND c.table_schema NOT IN ({{ printList .WithoutSchemas }}){{ end }}
    {{ if .WithTables }}AND c.table_name IN ({{ printList .WithTables }}){{ end }}
    {{ if .WithoutTables }}AND c.table_name NOT IN ({{ printList .WithoutTables }}){{ end }}
{{- if .SortOutput }}
ORDER BY
    c.table_schema
    ,c.table_name
    ,c.ordinal_position
{{- end }}
;
".

(** ddl/introspection_scripts/mysql_constraints.sql:1-68 *)
Definition mysql_constraints : bytes := B "SELECT
    *
FROM (
SELECT
    tc.table_schema
    ,tc.table_name
    ,tc.constraint_name
    ,tc.constraint_type
    ,group_concat(kcu.column_name ORDER BY kcu.ordinal_position) AS columns
    ,COALESCE(kcu.referenced_table_schema, '') AS references_schema
    ,COALESCE(kcu.referenced_table_name, '') AS references_table
    ,COALESCE(group_concat(kcu.referenced_column_name ORDER BY kcu.ordinal_position), '') AS references_columns
    ,COALESCE(rc.update_rule, '') AS update_rule
    ,COALESCE(rc.delete_rule, '') AS delete_rule
    ,CASE rc.match_option WHEN 'NONE' THEN '' ELSE COALESCE(CONCAT('MATCH ', rc.match_option), '') END AS match_option
    ,'' AS check_expr
FROM
    information_schema.table_constraints AS tc
    JOIN information_schema.key_column_usage AS kcu USING (constraint_schema, constraint_name, table_name)
    LEFT JOIN information_schema.referential_constraints AS rc USING (constraint_schema, constraint_name)
WHERE
    tc.constraint_type IN ('PRIMARY KEY', 'FOREIGN KEY', 'UNIQUE')
    {{ if not .IncludeSystemCatalogs }}AND tc.table_schema NOT IN ('mysql', 'information_schema', 'performance_schema', 'sys'){{ end }}
    {{ if .WithSchemas }}AND tc.table_schema IN ({{ printList .WithSchemas }}){{ end }}
    {{ if .WithoutSchemas }}AND tc.table_schema NOT IN ({{ printList .WithoutSchemas }}){{ end }}
    {{ if .WithTables }}AND tc.table_name IN ({{ printList .WithTables }}){{ end }}
    {{ if .WithoutTables }}AND tc.table_name NOT IN ({{ printList .WithoutTables }}){{ end }}
GROUP BY
    tc.table_schema
    ,tc.table_name
    ,tc.constraint_name
    ,tc.constraint_type
    ,kcu.referenced_table_schema
    ,kcu.referenced_table_name
    ,rc.update_rule
    ,rc.delete_rule
    ,rc.match_option
UNION ALL
SELECT
    tc.table_schema
    ,tc.table_name
    ,tc.constraint_name
    ,tc.constraint_type
    ,'' AS columns
    ,'' AS references_schema
    ,'' AS references_table
    ,'' AS references_columns
    ,'' AS update_rule
    ,'' AS delete_rule
    ,'' AS match_option
    ,cc.check_clause AS check_expr
FROM
    information_schema.table_constraints AS tc
    JOIN information_schema.check_constraints AS cc USING (constraint_schema, constraint_name)
WHERE
    {{ if not .IncludeSystemCatalogs }}table_schema NOT IN ('mysql', 'information_schema', 'performance_schema', 'sys'){{ end }}
    {{ if .WithSchemas }}AND tc.table_schema IN ({{ printList .WithSchemas }}){{ end }}
    {{ if .WithoutSchemas }}AND tc.table_schema NOT IN ({{ printList .WithoutSchemas }}){{ end }}
    {{ if .WithTables }}AND tc.table_name IN ({{ printList .WithTables }}){{ end }}
    {{ if .WithoutTables }}AND tc.table_name NOT IN ({{ printList .WithoutTables }}){{ end }}
) AS tmp
{{- if .SortOutput }}
ORDER BY
    table_schema
    ,table_name
    ,constraint_name
{{- end }}
;
".

(** ddl/introspection_scripts/mysql_indexes.sql:1-45 *)
Definition mysql_indexes : bytes := B "SELECT
    table_schema
    ,table_name
    ,index_name
    ,index_type
    ,is_unique
    ,group_concat(column_name ORDER BY seq_in_index) AS columns
    ,group_concat(expr ORDER BY seq_in_index) AS exprs
FROM (
    SELECT
        table_schema
        ,table_name
        ,index_name
        ,index_type
        ,NOT non_unique AS is_unique
        ,COALESCE(column_name, '') AS column_name
        ,COALESCE(expression, '') AS expr
        ,seq_in_index
    FROM
        information_schema.statistics
    WHERE
        NOT EXISTS (
            SELECT 1
            FROM information_schema.table_constraints
            WHERE table_constraints.constraint_name = statistics.index_name
        )
        {{ if not .IncludeSystemCatalogs }}AND table_schema NOT IN ('mysql', 'information_schema', 'performance_schema', 'sys'){{ end }}
        {{ if .WithSchemas }}AND table_schema IN ({{ printList .WithSchemas }}){{ end }}
        {{ if .WithoutSchemas }}AND table_schema NOT IN ({{ printList .WithoutSchemas }}){{ end }}
        {{ if .WithTables }}AND table_name IN ({{ printList .WithTables }}){{ end }}
        {{ if .WithoutTables }}AND table_name NOT IN ({{ printList .WithoutTables }}){{ end }}
) AS indexed_columns
GROUP BY
    table_schema
    ,table_name
    ,index_name
    ,index_type
    ,is_unique
{{- if .SortOutput }}
ORDER BY
    table_schema
    ,table_name
    ,index_name
{{- end }}
;
".

(** ddl/introspection_scripts/mysql_triggers.sql:1-23 *)
Definition mysql_triggers : bytes := B "SELECT
    event_object_schema AS table_schema
    ,event_object_table AS table_name
    ,trigger_name
    ,action_statement AS ""sql""
    ,action_timing
    ,event_manipulation
FROM
    information_schema.triggers
WHERE
    TRUE
    {{ if not .IncludeSystemCatalogs }}AND event_object_schema NOT IN ('mysql', 'information_schema', 'performance_schema', 'sys'){{ end }}
    {{ if .WithSchemas }}AND event_object_schema IN ({{ printList .WithSchemas }}){{ end }}
    {{ if .WithoutSchemas }}AND event_object_schema NOT IN ({{ printList .WithoutSchemas }}){{ end }}
    {{ if .WithTables }}AND event_object_table IN ({{ printList .WithTables }}){{ end }}
    {{ if .WithoutTables }}AND event_object_table NOT IN ({{ printList .WithoutTables }}){{ end }}
{{- if .SortOutput }}
ORDER BY
    table_schema
    ,table_name
    ,trigger_name
{{- end }}
;
".

(** ddl/introspection_scripts/mysql_views.sql:1-19 *)
Definition mysql_views : bytes := B "SELECT
    table_schema AS view_schema
    ,table_name AS view_name
    ,view_definition AS ""sql""
FROM
    information_schema.views
WHERE
    TRUE
    {{ if not .IncludeSystemCatalogs }}AND table_schema NOT IN ('mysql', 'information_schema', 'performance_schema', 'sys'){{ end }}
    {{ if .WithSchemas }}AND table_schema IN ({{ printList .WithSchemas }}){{ end }}
    {{ if .WithoutSchemas }}AND table_schema NOT IN ({{ printList .WithoutSchemas }}){{ end }}
    {{ if .WithTables }}AND table_name IN ({{ printList .WithTables }}){{ end }}
    {{ if .WithoutTables }}AND table_name NOT IN ({{ printList .WithoutTables }}){{ end }}
{{- if .SortOutput }}
ORDER BY
    table_schema
    ,table_name
{{- end }}
;
".

