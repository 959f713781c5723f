(** * SpecColumns: the columns and the order a SELECT statement asks for

    Read from the tokens of the statement (SpecScript.lex); [scans] transcribes
    the Scan calls of ddl/introspect.go. *)
From Verif Require Import GoBase QuoteModel TemplateModel ScriptText SpecScript.

Definition KSELECT := TWord (B "SELECT").
Definition KFROM := TWord (B "FROM").
Definition KAS := TWord (B "AS").
Definition KORDER := TWord (B "ORDER").
Definition KBY := TWord (B "BY").
Definition STAR := TSym "*".
Definition COMMA := TSym ",".

(** How many brackets are open after [t]. *)
Definition depth_after (d : nat) (t : tok) : nat :=
  if tok_eqb t OPEN then S d else if tok_eqb t CLOSE then Nat.pred d else d.

(** What stands between SELECT and FROM, for each SELECT inside exactly [k]
    brackets.  [cur]: the part of the list read so far, if inside one. *)
Fixpoint select_lists (k d : nat) (cur : option (list tok)) (ts : list tok) : list (list tok) :=
  match ts with
  | [] => []
  | t :: r =>
    match cur with
    | None => select_lists k (depth_after d t) (if tok_eqb t KSELECT && Nat.eqb d k then Some [] else None) r
    | Some l => if tok_eqb t KFROM && Nat.eqb d k then l :: select_lists k d None r
                else select_lists k (depth_after d t) (Some (l ++ [t])) r
    end
  end.

(** The items of a list: what stands between its commas, brackets apart. *)
Fixpoint items_from (d : nat) (cur : list tok) (ts : list tok) : list (list tok) :=
  match ts with
  | [] => [cur]
  | t :: r => if tok_eqb t COMMA && Nat.eqb d 0 then cur :: items_from d [] r
              else items_from (depth_after d t) (cur ++ [t]) r
  end.
Definition items (ts : list tok) : list (list tok) := items_from 0 [] ts.

(** The name of the column that an item of a SELECT list produces: `... AS name`,
    `name`, `table.name` or `'literal' name`. *)
Definition item_name (it : list tok) : option bytes :=
  match rev it with
  | TWord n :: a :: _ :: _ | TIdent n :: a :: _ :: _ =>
    if tok_eqb a KAS then Some n
    else match it with
         | [TWord _; TSym "."; TWord m] => Some m
         | _ => None
         end
  | [TWord n; TStr _] | [TWord n] => Some n
  | _ => None
  end.
Fixpoint all_some {A} (l : list (option A)) : option (list A) :=
  match l with
  | [] => Some []
  | Some a :: l' => option_map (cons a) (all_some l')
  | None :: _ => None
  end.
Definition names (l : list tok) : option (list bytes) := all_some (map item_name (items l)).

(** The columns of a statement, SELECT by SELECT: `SELECT * FROM (q1 UNION ALL q2 ...)`
    has those of [q1], [q2], ...; their rows are returned one after the other, and
    columns are matched by position. *)
Definition columns (ts : list tok) : option (list (list bytes)) :=
  match select_lists 0 0 None ts with
  | [[t]] => if tok_eqb t STAR then all_some (map names (select_lists 1 0 None ts)) else all_some [names [t]]
  | [l] => all_some [names l]
  | _ => None
  end.

(** What follows ORDER outside of all brackets. *)
Fixpoint after_order (d : nat) (ts : list tok) : option (list tok) :=
  match ts with
  | [] => None
  | t :: r => if tok_eqb t KORDER && Nat.eqb d 0 then Some r else after_order (depth_after d t) r
  end.
(** The ORDER BY clause at the end of a statement: its items.  [Some []]: none. *)
Definition ordering (ts : list tok) : option (list (list tok)) :=
  match after_order 0 ts with
  | None => Some []
  | Some (b :: r) =>
    match rev r with
    | e :: r' => if tok_eqb b KBY && tok_eqb e (TSym ";") then Some (items (rev r')) else None
    | [] => None
    end
  | Some [] => None
  end.

(** The Scan calls of ddl/introspect.go (lines as given): the Go variable or field
    each column is stored in, in order, with the names that a column meant for it
    has in the scripts; and the columns the result is to be sorted by. *)
Record dest := mk_dest { go_field : string; sql_names : list bytes }.
Definition into (field : string) (ns : list string) : dest := mk_dest field (map B ns).
Record query := mk_query { q_dialect : dialect; q_text : bytes; q_scan : list dest; q_order : list string }.
Local Open Scope string_scope.
Definition scans : list query :=
  [mk_query DPostgres postgres_extensions (* 275-280 *)
     [into "extname" ["extension_name"]; into "extversion" ["extension_version"]]
     ["extname"];
   mk_query DSQLite sqlite_tables (* 314 *)
     [into "TableName" ["table_name"]; into "SQL" ["sql"]]
     ["tbl_name"];
   mk_query DPostgres postgres_tables (* 319 *)
     [into "TableSchema" ["table_schema"]; into "TableName" ["table_name"]]
     ["schemas.nspname"; "tables.relname"];
   mk_query DMySQL mysql_tables (* 319 *)
     [into "TableSchema" ["table_schema"]; into "TableName" ["table_name"]]
     ["table_schema"; "table_name"];
   mk_query DSQLite sqlite_columns (* 365-371 *)
     [into "TableName" ["table_name"]; into "ColumnName" ["column_name"]; into "ColumnType" ["column_type"]; into
      "IsNotNull" ["is_notnull"]; into "ColumnDefault" ["column_default"]]
     ["tables.tbl_name"; "columns.cid"];
   mk_query DPostgres postgres_columns (* 380-394 *)
     [into "TableSchema" ["table_schema"]; into "TableName" ["table_name"]; into "ColumnName" ["column_name"]; into
      "ColumnType" ["column_type"]; into "NumericPrecision" ["numeric_precision"]; into "NumericScale"
      ["numeric_scale"]; into "Identity" ["identity"]; into "IsNotNull" ["is_notnull"]; into "GeneratedExpr"
      ["generated_expr"]; into "GeneratedExprStored" ["generated_expr_stored"]; into "CollationName"
      ["collation_name"]; into "ColumnDefault" ["column_default"]; into "ColumnComment" ["column_comment"]]
     ["schemas.nspname"; "tables.relname"; "columns.attnum"];
   mk_query DMySQL mysql_columns (* 399-414 *)
     [into "TableSchema" ["table_schema"]; into "TableName" ["table_name"]; into "ColumnName" ["column_name"]; into
      "ColumnType" ["column_type"]; into "NumericPrecision" ["numeric_precision"]; into "NumericScale"
      ["numeric_scale"]; into "IsAutoincrement" ["is_autoincrement"]; into "IsNotNull" ["is_notnull"]; into
      "OnUpdateCurrentTimestamp" ["on_update_current_timestamp"]; into "GeneratedExpr" ["generated_expr"]; into
      "GeneratedExprStored" ["generated_expr_stored"]; into "CollationName" ["collation_name"]; into "ColumnDefault"
      ["column_default"]; into "ColumnComment" ["column_comment"]]
     ["c.table_schema"; "c.table_name"; "c.ordinal_position"];
   mk_query DSQLite sqlite_constraints (* 464-472 *)
     [into "TableName" ["table_name"]; into "ConstraintType" ["constraint_type"]; into "rawColumns" ["columns"];
      into "ReferencesTable" ["references_table"]; into "rawReferencesColumns" ["references_columns"]; into
      "UpdateRule" ["update_rule"]; into "DeleteRule" ["delete_rule"]]
     ["table_name"; "constraint_type"];
   mk_query DPostgres postgres_constraints (* 477-496 *)
     [into "TableSchema" ["table_schema"]; into "TableName" ["table_name"]; into "ConstraintName"
      ["constraint_name"]; into "ConstraintType" ["constraint_type"]; into "rawColumns" ["columns"]; into "rawExprs"
      ["exprs"]; into "ReferencesSchema" ["references_schema"]; into "ReferencesTable" ["references_table"]; into
      "rawReferencesColumns" ["references_columns"]; into "UpdateRule" ["update_rule"]; into "DeleteRule"
      ["delete_rule"]; into "MatchOption" ["match_option"]; into "CheckExpr" ["check_expr"]; into "rawOperators"
      ["operators"]; into "ExclusionIndexType" ["index_type"; "exclusion_index_type"]; into "Predicate"
      ["predicate"]; into "IsDeferrable" ["is_deferrable"]; into "IsInitiallyDeferred" ["is_initially_deferred"]]
     ["table_schema"; "table_name"; "constraint_name"];
   mk_query DMySQL mysql_constraints (* 504-517 *)
     [into "TableSchema" ["table_schema"]; into "TableName" ["table_name"]; into "ConstraintName"
      ["constraint_name"]; into "ConstraintType" ["constraint_type"]; into "rawColumns" ["columns"]; into
      "ReferencesSchema" ["references_schema"]; into "ReferencesTable" ["references_table"]; into
      "rawReferencesColumns" ["references_columns"]; into "UpdateRule" ["update_rule"]; into "DeleteRule"
      ["delete_rule"]; into "MatchOption" ["match_option"]; into "CheckExpr" ["check_expr"]]
     ["table_schema"; "table_name"; "constraint_name"];
   mk_query DSQLite sqlite_indexes (* 588-594 *)
     [into "TableName" ["table_name"]; into "IndexName" ["index_name"]; into "IsUnique" ["is_unique"]; into
      "rawColumns" ["columns"]; into "SQL" ["sql"]]
     ["table_name"; "index_name"];
   mk_query DPostgres postgres_indexes (* 624-634 *)
     [into "TableSchema" ["table_schema"]; into "TableName" ["table_name"]; into "IndexName" ["index_name"]; into
      "IndexType" ["index_type"]; into "IsUnique" ["is_unique"]; into "numKeyColumns" ["num_key_columns"]; into
      "rawColumns" ["columns"]; into "rawExprs" ["exprs"]; into "Predicate" ["predicate"]]
     ["table_schema"; "table_name"; "index_name"];
   mk_query DMySQL mysql_indexes (* 651-659 *)
     [into "TableSchema" ["table_schema"]; into "TableName" ["table_name"]; into "IndexName" ["index_name"]; into
      "IndexType" ["index_type"]; into "IsUnique" ["is_unique"]; into "rawColumns" ["columns"]; into "rawExprs"
      ["exprs"]]
     ["table_schema"; "table_name"; "index_name"];
   mk_query DSQLite sqlite_triggers (* 721-725 *)
     [into "TableName" ["table_name"]; into "TriggerName" ["trigger_name"]; into "SQL" ["sql"]]
     ["tbl_name"; "name"];
   mk_query DPostgres postgres_triggers (* 730-735 *)
     [into "TableSchema" ["table_schema"]; into "TableName" ["table_name"]; into "TriggerName" ["trigger_name"];
      into "SQL" ["sql"]]
     ["schemas.nspname"; "tables.relname"; "pg_trigger.tgname"];
   mk_query DMySQL mysql_triggers (* 740-747 *)
     [into "TableSchema" ["table_schema"]; into "TableName" ["table_name"]; into "TriggerName" ["trigger_name"];
      into "SQL" ["sql"]; into "actionTiming" ["action_timing"]; into "eventManipulation" ["event_manipulation"]]
     ["table_schema"; "table_name"; "trigger_name"];
   mk_query DPostgres postgres_functions (* 798-804 *)
     [into "FunctionSchema" ["function_schema"]; into "FunctionName" ["function_name"]; into "SQL" ["sql"]; into
      "RawArgs" ["raw_args"]; into "ReturnType" ["return_type"]]
     ["schemas.nspname"; "proc1.proname"];
   mk_query DSQLite sqlite_views (* 850-853 *)
     [into "ViewName" ["view_name"]; into "SQL" ["sql"]]
     ["name"];
   mk_query DPostgres postgres_views (* 861-866 *)
     [into "ViewSchema" ["view_schema"]; into "ViewName" ["view_name"]; into "IsMaterialized" ["is_materialized"];
      into "SQL" ["sql"]]
     ["view_schema"; "view_name"];
   mk_query DMySQL mysql_views (* 871-875 *)
     [into "ViewSchema" ["view_schema"]; into "ViewName" ["view_name"]; into "SQL" ["sql"]]
     ["table_schema"; "table_name"]].

(** ** What the identifying columns hold *)
(** The expression of an item, without the name it is given. *)
Definition item_source (it : list tok) : list tok :=
  match rev it with
  | _ :: a :: r => if tok_eqb a KAS then rev r else it
  | _ => it
  end.
(** The items of all SELECT lists, up to five brackets deep. *)
Definition selected (ts : list tok) : list (list tok) :=
  flat_map (fun k => flat_map items (select_lists k 0 None ts)) [0; 1; 2; 3; 4; 5].
(** The catalogue columns that hold the name of a schema, table, ... in each
    database; a name that stands for itself is a column of an inner SELECT (or,
    on MySQL, of information_schema). *)
Definition name_sources (d : dialect) : list (string * list string) :=
  match d with
  | DSQLite =>
    [("table_name", ["tbl_name"; "tables.tbl_name"; "table_name"]); ("view_name", ["name"]); ("trigger_name", ["name"]);
     ("index_name", ["il.name"; "index_name"]);
     ("column_name", ["columns.name"; "fkl.""from"""; "ii.name"; "CASE ii.cid WHEN -1 THEN '' WHEN -2 THEN '' ELSE ii.name END"]);
     ("references_table", ["fkl.""table"""; "references_table"; "''"])]
  | DPostgres =>
    [("table_schema", ["schemas.nspname"; "schemas1.nspname"; "table_schema"]);
     ("table_name", ["tables.relname"; "tables1.relname"; "table_name"]);
     ("view_schema", ["schemaname"; "view_schema"]); ("view_name", ["viewname"; "matviewname"; "view_name"]);
     ("trigger_name", ["pg_trigger.tgname"]); ("index_name", ["indexes.relname"; "index_name"]);
     ("constraint_name", ["pg_constraint.conname"; "constraint_name"]);
     ("function_schema", ["schemas.nspname"]); ("function_name", ["proc1.proname"]);
     ("extension_name", ["extname"]);
     ("column_name", ["columns.attname"; "columns1.attname"; "COALESCE(columns.attname, '')"]);
     ("references_schema", ["schemas2.nspname"; "references_schema"; "''"]);
     ("references_table", ["tables2.relname"; "references_table"; "''"])]
  | DMySQL =>
    [("table_schema", ["table_schema"; "c.table_schema"; "tc.table_schema"; "event_object_schema"]);
     ("table_name", ["table_name"; "c.table_name"; "tc.table_name"; "event_object_table"]);
     ("view_schema", ["table_schema"]); ("view_name", ["table_name"]);
     ("trigger_name", ["trigger_name"]); ("index_name", ["index_name"]);
     ("constraint_name", ["constraint_name"; "tc.constraint_name"]);
     ("column_name", ["column_name"; "c.column_name"; "COALESCE(column_name, '')"]);
     ("references_schema", ["COALESCE(kcu.referenced_table_schema, '')"; "''"]);
     ("references_table", ["COALESCE(kcu.referenced_table_name, '')"; "''"])]
  | _ => []
  end.
