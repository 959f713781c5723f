(** * DdlModel: the DDL commands and the SQL they write (ddl/schema.go,
    extension.go, column.go, constraint.go, index.go, table.go, view.go,
    function.go, trigger.go)

    No DDL command appends arguments or parameters; each is an [M] (see
    EffectModel) that only emits text.  Error values are not kept, only that
    there is one. *)
From Verif Require Import GoBase QuoteModel EffectModel CacheModel UpsertModel.
Open Scope m_scope.

(** [strings.EqualFold].  Simplification: letters are folded in ASCII only; Go
    folds all of Unicode. *)
Definition lower (c : ascii) : ascii :=
  if in_range 65 90 (ord c) then chr (ord c + 32)%N else c.
Definition equal_fold (a b : bytes) : bool := beqb (map lower a) (map lower b).

(** ** Objects *)
(** column.go:11-30 [Column], without NumericPrecision, NumericScale and
    ColumnComment, which neither Migrate nor the commands read. *)
Record column := mk_column {
  l_schema : bytes; l_table : bytes; l_name : bytes; l_type : bytes; l_identity : bytes;
  l_autoincrement : bool; l_not_null : bool; l_unique : bool; l_primary_key : bool;
  l_on_update : bool; l_generated : bytes; l_stored : bool; l_collation : bytes;
  l_default : bytes; l_ignore : bool }.
(** trigger.go:11-18 [Trigger], without Comment. *)
Record trigger := mk_trigger {
  g_schema : bytes; g_table : bytes; g_name : bytes; g_sql : bytes; g_ignore : bool }.
(** table.go:11-27 [Table], without SQL and Comment. *)
Record table := mk_table {
  t_schema : bytes; t_name : bytes; t_columns : cached column; t_constraints : cached constraint;
  t_indexes : cached index; t_triggers : cached trigger; t_virtual : bytes; t_virtual_args : list bytes;
  t_ignore : bool }.
(** view.go:10-21 [View]; Migrate reads the slices of indexes and triggers but
    not their caches. *)
Record view := mk_view {
  v_schema : bytes; v_name : bytes; v_materialized : bool; v_indexes : list index;
  v_triggers : list trigger; v_sql : bytes; v_ignore : bool }.
(** function.go:12-20 [Function], without ReturnType and Comment. *)
Record func := mk_func {
  f_schema : bytes; f_name : bytes; f_args : bytes; f_sql : bytes; f_ignore : bool }.
(** schema.go:10-20 [Schema]. *)
Record schema := mk_schema {
  s_name : bytes; s_tables : cached table; s_views : cached view; s_functions : fcached func;
  s_ignore : bool }.
Definition empty_table (schema name : bytes) : table :=
  mk_table schema name cached_new cached_new cached_new cached_new [] [] false.
Definition empty_schema (name : bytes) : schema :=
  mk_schema name cached_new cached_new fcached_new false.

(** The constraint types of ddl.go:22-27. *)
Definition PRIMARY_KEY := B "PRIMARY KEY".
Definition FOREIGN_KEY := B "FOREIGN KEY".
Definition UNIQUE := B "UNIQUE".
Definition CHECK := B "CHECK".
Definition EXCLUDE := B "EXCLUDE".

(** [if schema != "" { QuoteIdentifier(schema) + "." }; QuoteIdentifier(name)]. *)
Definition qualified (d : dialect) (schema name : bytes) : bytes :=
  (if is_empty schema then [] else quote_identifier d schema ++ B ".") ++ quote_identifier d name.

(** ** Schemas and extensions *)
Record create_schema := mk_create_schema { cs_if_not_exists : bool; cs_name : bytes; cs_ignore : bool }.
(** schema.go:163-176. *)
Definition create_schema_sql (d : dialect) (c : create_schema) : M :=
  if cs_ignore c then ret
  else if is_sqlite d then fail
  else emit (B "CREATE SCHEMA ") ;;
       when (cs_if_not_exists c) (emit (B "IF NOT EXISTS ")) ;;
       emit (cs_name c).
Record create_extension := mk_create_extension {
  ce_if_not_exists : bool; ce_extension : bytes; ce_cascade : bool; ce_ignore : bool }.
(** [extversion] of extension.go:29-32: what follows the first '@'. *)
Definition ext_version (extension : bytes) : bytes :=
  match index_byte "@" extension with Some i => skipn (S i) extension | None => [] end.
(** extension.go:18-44. *)
Definition create_extension_sql (d : dialect) (c : create_extension) : M :=
  if ce_ignore c then ret
  else if negb (is_postgres d) then fail
  else emit (B "CREATE EXTENSION ") ;;
       when (ce_if_not_exists c) (emit (B "IF NOT EXISTS ")) ;;
       emit (quote_identifier d (ext_name (ce_extension c))) ;;
       let v := ext_version (ce_extension c) in
       when (negb (is_empty v) || ce_cascade c)
         (emit (B " WITH") ;;
          when (negb (is_empty v)) (emit (B " VERSION '" ++ escape_quote v "'" ++ B "'")) ;;
          when (ce_cascade c) (emit (B " CASCADE"))).
Record drop_extension := mk_drop_extension {
  de_if_exists : bool; de_extensions : list bytes; de_cascade : bool; de_ignore : bool }.
(** extension.go:53-77. *)
Definition drop_extension_sql (d : dialect) (c : drop_extension) : M :=
  if de_ignore c then ret
  else if negb (is_postgres d) then fail
  else emit (B "DROP EXTENSION ") ;;
       when (de_if_exists c) (emit (B "IF EXISTS ")) ;;
       sep_by (B ", ") (map (fun e => emit (quote_identifier d (ext_name e))) (de_extensions c)) ;;
       when (de_cascade c) (emit (B " CASCADE")).

(** ** Columns *)
(** column.go:92-149 [writeColumnDefinition]. *)
Definition column_definition (d : dialect) (l : column) : M :=
  emit (quote_identifier d (l_name l)) ;;
  when (negb (is_empty (l_type l))) (emit (B " " ++ l_type l)) ;;
  when (l_not_null l) (emit (B " NOT NULL")) ;;
  when (negb (is_empty (l_default l)) && negb (l_autoincrement l) && is_empty (l_identity l) && is_empty (l_generated l))
    (emit (B " DEFAULT " ++ l_default l)) ;;
  when (l_primary_key l && is_sqlite d) (emit (B " PRIMARY KEY")) ;;
  when (l_autoincrement l && negb (is_mysql d) && negb (is_sqlite d)) fail ;;
  when (negb (is_empty (l_identity l)) && (is_mysql d || is_sqlite d)) fail ;;
  (if l_autoincrement l then
     match d with
     | DMySQL => emit (B " AUTO_INCREMENT")
     | DSQLite => emit (B " AUTOINCREMENT")
     | _ => ret
     end
   else if negb (is_empty (l_identity l)) then emit (B " GENERATED " ++ l_identity l)
   else if negb (is_empty (l_generated l)) then
     emit (B " GENERATED ALWAYS AS (" ++ l_generated l ++ B ")") ;;
     (if l_stored l then emit (B " STORED")
      else if is_postgres d then fail
      else emit (B " VIRTUAL"))
   else ret) ;;
  when (l_on_update l) (if is_mysql d then emit (B " ON UPDATE CURRENT_TIMESTAMP") else fail) ;;
  when (negb (is_empty (l_collation l)))
    (if is_postgres d then emit (B " COLLATE """ ++ escape_quote (l_collation l) """" ++ B """")
     else emit (B " COLLATE " ++ l_collation l)).
(** [s[len(s)-1]] of a non-empty string. *)
Definition last_byte (s : bytes) : ascii := last s "0"%char.
Record add_column := mk_add_column {
  al_if_not_exists : bool; al_column : column; al_checks : list bytes; al_ref_table : bytes;
  al_ref_column : bytes; al_ignore : bool }.
(** column.go:41-90. *)
Definition add_column_sql (d : dialect) (c : add_column) : M :=
  let l := al_column c in
  let null_default := is_empty (l_default l) || equal_fold (l_default l) (B "NULL") in
  if al_ignore c then ret
  else
    emit (B "ADD COLUMN ") ;;
    when (al_if_not_exists c) (if is_postgres d then emit (B "IF NOT EXISTS ") else fail) ;;
    when (is_sqlite d)
      (when (l_primary_key l) fail ;;
       when (l_unique l) fail ;;
       when (l_not_null l)
         (when null_default fail ;;
          when (match l_default l with
                | a :: _ => Ascii.eqb a "(" && Ascii.eqb (last_byte (l_default l)) ")"
                | [] => false
                end) fail) ;;
       when ((negb (is_empty (al_ref_table c)) || negb (is_empty (al_ref_column c))) && negb null_default) fail ;;
       when (negb (is_empty (l_generated l)) && l_stored l) fail) ;;
    column_definition d l ;;
    when (is_sqlite d)
      (seqs (map (fun e => emit (B " CHECK (" ++ e ++ B ")")) (al_checks c)) ;;
       when (negb (is_empty (al_ref_table c)) && negb (is_empty (al_ref_column c)))
         (emit (B " REFERENCES " ++ quote_identifier d (al_ref_table c)
                ++ B " (" ++ quote_identifier d (al_ref_column c) ++ B ")"))).
Record alter_column := mk_alter_column {
  ac_column : column; ac_drop_default : bool; ac_drop_not_null : bool; ac_drop_expr : bool;
  ac_drop_expr_if_exists : bool; ac_drop_identity : bool; ac_drop_identity_if_exists : bool;
  ac_using : bytes; ac_ignore : bool }.
(** The actions of one ALTER COLUMN, column.go:191-231; each is preceded by
    "ALTER COLUMN name" (183-190). *)
Definition alter_actions (d : dialect) (c : alter_column) : list bytes :=
  let l := ac_column c in
  (if is_empty (l_type l) then []
   else [B " SET DATA TYPE " ++ l_type l
         ++ (if is_empty (l_collation l) then [] else B " COLLATE """ ++ escape_quote (l_collation l) """" ++ B """")
         ++ (if is_empty (ac_using c) then [] else B " USING " ++ ac_using c)])
  ++ (if ac_drop_not_null c then [B " DROP NOT NULL"] else if l_not_null l then [B " SET NOT NULL"] else [])
  ++ (if ac_drop_default c then [B " DROP DEFAULT"]
      else if is_empty (l_default l) then [] else [B " SET DEFAULT " ++ l_default l])
  ++ (if ac_drop_identity c then [B " DROP IDENTITY" ++ (if ac_drop_identity_if_exists c then B " IF EXISTS" else [])]
      else if is_empty (l_identity l) then [] else [B " ADD GENERATED " ++ l_identity l])
  ++ (if ac_drop_expr c then [B " DROP EXPRESSION" ++ (if ac_drop_expr_if_exists c then B " IF EXISTS" else [])] else []).
(** column.go:164-236; field DropAutoincrement is never read. *)
Definition alter_column_sql (d : dialect) (c : alter_column) : M :=
  if ac_ignore c then ret
  else match d with
  | DMySQL => emit (B "MODIFY COLUMN ") ;; column_definition d (ac_column c)
  | DPostgres =>
    sep_by (B "
    ,") (map (fun a => emit (B "ALTER COLUMN " ++ quote_identifier d (l_name (ac_column c)) ++ a)) (alter_actions d c))
  | _ => fail
  end.
Record drop_column := mk_drop_column {
  dl_if_exists : bool; dl_name : bytes; dl_cascade : bool; dl_ignore : bool }.
(** column.go:245-264, constraint.go:215-237: the two have the same shape. *)
Definition drop_sql (d : dialect) (what : bytes) (if_exists : bool) (name : bytes) (cascade : bool) : M :=
  emit (B "DROP " ++ what ++ B " ") ;;
  when if_exists (if is_postgres d then emit (B "IF EXISTS ") else fail) ;;
  emit (quote_identifier d name) ;;
  when cascade (if is_postgres d then emit (B " CASCADE") else fail).
Definition drop_column_sql (d : dialect) (c : drop_column) : M :=
  if dl_ignore c then ret else drop_sql d (B "COLUMN") (dl_if_exists c) (dl_name c) (dl_cascade c).

(** ** Constraints *)
(** " DEFERRABLE INITIALLY ..." *)
Definition deferrable_text (deferred : bool) : bytes :=
  B " DEFERRABLE" ++ (if deferred then B " INITIALLY DEFERRED" else B " INITIALLY IMMEDIATE").
(** constraint.go:125-142: the elements of EXCLUDE; [constraint.Exprs[i]] and
    [constraint.ExclusionOperators[i]] panic when out of range. *)
Fixpoint exclusion_elements (i : nat) (columns exprs operators : list bytes) : M :=
  match columns with
  | [] => ret
  | c :: columns' =>
    when (Nat.ltb 0 i) (emit (B ", ")) ;;
    (if negb (is_empty c) then emit c
     else match nth_error exprs i with
          | None => crash
          | Some e => if is_empty e then fail else emit e
          end) ;;
    emit (B " WITH ") ;;
    (match nth_error operators i with
     | None => crash
     | Some o => if is_empty o then fail else emit o
     end) ;;
    exclusion_elements (S i) columns' exprs operators
  end.
(** constraint.go:92-171 [writeConstraintDefinition]. *)
Definition constraint_definition (d : dialect) (c : constraint) : M :=
  (if beqb (c_type c) CHECK then emit (B "CHECK (" ++ c_check c ++ B ")")
   else if beqb (c_type c) FOREIGN_KEY then
     emit (B "FOREIGN KEY (" ++ join (B ", ") (c_columns c) ++ B ") REFERENCES ") ;;
     when (negb (is_empty (c_ref_schema c))) (emit (c_ref_schema c ++ B ".")) ;;
     emit (c_ref_table c) ;;
     when (match c_ref_columns c with [] => false | _ => true end)
       (emit (B " (" ++ join (B ", ") (c_ref_columns c) ++ B ")")) ;;
     when (negb (is_empty (c_match c))) (emit (B " " ++ c_match c)) ;;
     when (negb (is_empty (c_update c))) (emit (B " ON UPDATE " ++ c_update c)) ;;
     when (negb (is_empty (c_delete c))) (emit (B " ON DELETE " ++ c_delete c))
   else if beqb (c_type c) EXCLUDE then
     when (negb (is_postgres d)) fail ;;
     when (is_empty (c_index_type c)) fail ;;
     emit (B "EXCLUDE USING " ++ c_index_type c) ;;
     emit (B " (") ;;
     exclusion_elements 0 (c_columns c) (c_exprs c) (c_operators c) ;;
     emit (B ")") ;;
     when (negb (is_empty (c_predicate c))) (emit (B " WHERE (" ++ c_predicate c ++ B ")"))
   else emit (c_type c ++ B " (" ++ join (B ", ") (c_columns c) ++ B ")")) ;;
  when (c_deferrable c)
    (match d with
     | DPostgres => when (beqb (c_type c) CHECK) fail
     | DSQLite => when (negb (beqb (c_type c) FOREIGN_KEY)) fail
     | _ => fail
     end ;;
     emit (deferrable_text (c_deferred c))).
Record add_constraint := mk_add_constraint {
  at_constraint : constraint; at_index : bytes; at_not_valid : bool; at_ignore : bool }.
(** constraint.go:41-90. *)
Definition add_constraint_sql (d : dialect) (c : add_constraint) : M :=
  let k := at_constraint c in
  if at_ignore c then ret
  else if is_sqlite d then fail
  else
    emit (B "ADD") ;;
    when (negb (is_mysql d) || negb (beqb (c_type k) PRIMARY_KEY))
      (emit (B " CONSTRAINT " ++ quote_identifier d (c_name k))) ;;
    (if negb (is_empty (at_index c)) then
       when (negb (is_postgres d)) fail ;;
       when (negb (beqb (c_type k) PRIMARY_KEY) && negb (beqb (c_type k) UNIQUE)) fail ;;
       emit (B " " ++ c_type k ++ B " USING INDEX " ++ quote_identifier d (at_index c)) ;;
       when (c_deferrable k) (emit (deferrable_text (c_deferred k)))
     else emit (B " ") ;; constraint_definition d k) ;;
    when (at_not_valid c)
      (match d with
       | DPostgres => if negb (beqb (c_type k) CHECK) && negb (beqb (c_type k) FOREIGN_KEY) then fail else emit (B " NOT VALID")
       | DMySQL => if negb (beqb (c_type k) CHECK) then fail else emit (B " NOT ENFORCED")
       | _ => ret
       end).
Record alter_constraint := mk_alter_constraint {
  ak_name : bytes; ak_alter : bool; ak_deferrable : bool; ak_deferred : bool; ak_ignore : bool }.
(** constraint.go:181-206. *)
Definition alter_constraint_sql (d : dialect) (c : alter_constraint) : M :=
  if ak_ignore c then ret
  else if is_mysql d then fail
  else if is_sqlite d then fail
  else if negb (ak_alter c) then ret
  else emit (B "ALTER CONSTRAINT " ++ quote_identifier d (ak_name c)) ;;
       (if ak_deferrable c then emit (deferrable_text (ak_deferred c)) else emit (B " NOT DEFERRABLE")).
Record drop_constraint := mk_drop_constraint {
  dk_if_exists : bool; dk_name : bytes; dk_cascade : bool; dk_ignore : bool }.
(** constraint.go:215-237. *)
Definition drop_constraint_sql (d : dialect) (c : drop_constraint) : M :=
  if dk_ignore c then ret
  else if is_sqlite d then fail
  else drop_sql d (B "CONSTRAINT") (dk_if_exists c) (dk_name c) (dk_cascade c).

(** ** Indexes *)
Record create_index := mk_create_index {
  ci_concurrently : bool; ci_if_not_exists : bool; ci_index : index; ci_ignore : bool }.
(** index.go:78-87; [cmd.Index.Exprs[i]] panics when out of range. *)
Fixpoint index_elements (d : dialect) (i : nat) (columns exprs : list bytes) : M :=
  match columns with
  | [] => ret
  | c :: columns' =>
    when (Nat.ltb 0 i) (emit (B ", ")) ;;
    (if negb (is_empty c) then emit (quote_identifier d c)
     else match nth_error exprs i with None => crash | Some e => emit e end) ;;
    index_elements d (S i) columns' exprs
  end.
(** index.go:33-109. *)
Definition create_index_sql (d : dialect) (c : create_index) : M :=
  let x := ci_index c in
  let special := equal_fold (x_type x) (B "FULLTEXT") || equal_fold (x_type x) (B "SPATIAL") in
  let index_type := if negb (is_empty (x_type x)) && negb special && negb (equal_fold (x_type x) (B "BTREE"))
                    then x_type x else [] in
  if ci_ignore c then ret
  else
    when (negb (is_mysql d)) (emit (B "CREATE ")) ;;
    (if is_mysql d && special then emit (x_type x ++ B " ")
     else when (x_unique x) (emit (B "UNIQUE "))) ;;
    emit (B "INDEX ") ;;
    when (ci_concurrently c) (if is_postgres d then emit (B "CONCURRENTLY ") else fail) ;;
    when (ci_if_not_exists c) (if is_mysql d then fail else emit (B "IF NOT EXISTS ")) ;;
    emit (quote_identifier d (x_name x)) ;;
    when (is_mysql d && negb (is_empty index_type)) (emit (B " USING " ++ index_type)) ;;
    when (negb (is_mysql d)) (emit (B " ON ") ;; emit (qualified d (x_schema x) (x_table x))) ;;
    when (is_postgres d && negb (is_empty index_type)) (emit (B " USING " ++ index_type)) ;;
    emit (B " (") ;;
    index_elements d 0 (x_columns x) (x_exprs x) ;;
    emit (B ")") ;;
    when (match x_include x with [] => false | _ => true end)
      (when (negb (is_postgres d)) fail ;;
       emit (B " INCLUDE (") ;;
       sep_by (B ", ") (map (fun l => emit (quote_identifier d l)) (x_include x)) ;;
       emit (B ")")) ;;
    when (negb (is_empty (x_predicate x)))
      (if is_postgres d || is_sqlite d then emit (B " WHERE " ++ x_predicate x) else fail).
Record drop_index := mk_drop_index {
  dx_concurrently : bool; dx_if_exists : bool; dx_schema : bytes; dx_table : bytes; dx_name : bytes;
  dx_cascade : bool; dx_ignore : bool }.
(** index.go:121-149. *)
Definition drop_index_sql (d : dialect) (c : drop_index) : M :=
  if dx_ignore c then ret
  else
    emit (B "DROP INDEX ") ;;
    when (dx_concurrently c) (if is_postgres d then emit (B "CONCURRENTLY ") else fail) ;;
    when (dx_if_exists c) (if is_postgres d || is_sqlite d then emit (B "IF EXISTS ") else fail) ;;
    emit (qualified d (if is_mysql d then [] else dx_schema c) (dx_name c)) ;;
    when (dx_cascade c) (if is_postgres d then emit (B " CASCADE") else fail).

(** ** Tables *)
Record create_table := mk_create_table {
  ct_if_not_exists : bool; ct_constraints : bool; ct_table : table; ct_indexes : list create_index;
  ct_ignore : bool }.
(** "\n    " before the first element, "\n    ," before the others. *)
Definition element_start (first : bool) : bytes := if first then B "
    " else B "
    ,".
Fixpoint elements_from (first : bool) (ms : list M) : M :=
  match ms with
  | [] => ret
  | m :: ms' => emit (element_start first) ;; m ;; elements_from false ms'
  end.
(** Which constraints CREATE TABLE writes, table.go:654-673. *)
Definition inline_constraint (d : dialect) (c : constraint) : bool :=
  negb (c_ignore c)
  && negb (is_sqlite d && beqb (c_type c) PRIMARY_KEY && Nat.eqb (length (c_columns c)) 1)
  && negb (negb (is_sqlite d) && beqb (c_type c) FOREIGN_KEY).
(** table.go:674-686. *)
Definition table_constraint (d : dialect) (c : constraint) : M :=
  emit (if is_empty (c_name c) || (is_mysql d && beqb (c_type c) PRIMARY_KEY) then B "
    ," else B "
    ,CONSTRAINT " ++ quote_identifier d (c_name c) ++ B " ") ;;
  constraint_definition d c.
(** [if !newlineWritten { buf.WriteString("\n") }] before the first
    constraint or index. *)
Definition newline_before (ms : list M) : M :=
  match ms with [] => ret | _ => emit (B "
") ;; seqs ms end.
(** table.go:594-710. *)
Definition create_table_sql (d : dialect) (c : create_table) : M :=
  let t := ct_table c in
  let virtual := negb (is_empty (t_virtual t)) in
  if ct_ignore c then ret
  else if is_empty (t_name t) then fail
  else
    (if virtual then when (negb (is_sqlite d)) fail ;; emit (B "CREATE VIRTUAL TABLE ")
     else emit (B "CREATE TABLE ")) ;;
    when (ct_if_not_exists c) (emit (B "IF NOT EXISTS ")) ;;
    emit (qualified d (t_schema t) (t_name t)) ;;
    when virtual (emit (B " USING " ++ t_virtual t)) ;;
    emit (B " (") ;;
    elements_from true (if virtual then []
                        else map (column_definition d) (filter (fun l => negb (l_ignore l)) (objects (t_columns t)))) ;;
    when (match t_virtual_args t with [] => false | _ => true end && negb virtual) fail ;;
    elements_from true (if virtual && is_sqlite d then map emit (t_virtual_args t) else []) ;;
    let ks := if ct_constraints c
              then map (table_constraint d) (filter (inline_constraint d) (objects (t_constraints t))) else [] in
    newline_before ks ;;
    when (match ct_indexes c with [] => false | _ => true end)
      (when (negb (is_mysql d)) fail ;;
       let xs := map (fun x => emit (B "
    ,") ;; create_index_sql d x) (filter (fun x => negb (ci_ignore x)) (ct_indexes c)) in
       match ks with [] => newline_before xs | _ => seqs xs end) ;;
    emit (B "
)").
Record alter_table := mk_alter_table {
  a_if_exists : bool; a_schema : bytes; a_table : bytes; a_add_columns : list add_column;
  a_alter_columns : list alter_column; a_drop_columns : list drop_column;
  a_add_constraints : list add_constraint; a_alter_constraints : list alter_constraint;
  a_drop_constraints : list drop_constraint; a_create_indexes : list create_index;
  a_drop_indexes : list drop_index; a_ignore : bool }.
(** table.go:727-830. *)
Definition alter_table_sql (d : dialect) (a : alter_table) : M :=
  if a_ignore a then ret
  else
    let columns := length (a_add_columns a) + length (a_alter_columns a) + length (a_drop_columns a) in
    let indexes := length (a_create_indexes a) + length (a_drop_indexes a) in
    emit (B "ALTER TABLE ") ;;
    when (a_if_exists a) (if is_postgres d then emit (B "IF EXISTS ") else fail) ;;
    emit (qualified d (a_schema a) (a_table a)) ;;
    when (is_sqlite d && Nat.ltb 1 columns) fail ;;
    when ((is_sqlite d || is_postgres d) && Nat.ltb 0 indexes) fail ;;
    elements_from true
      (map (add_column_sql d) (a_add_columns a)
       ++ map (alter_column_sql d) (a_alter_columns a)
       ++ map (drop_column_sql d) (a_drop_columns a)
       ++ map (drop_constraint_sql d) (a_drop_constraints a)
       ++ map (add_constraint_sql d) (a_add_constraints a)
       ++ map (alter_constraint_sql d) (a_alter_constraints a)
       ++ map (fun x => when (is_mysql d) (emit (B "ADD ")) ;; create_index_sql d x) (a_create_indexes a)
       ++ map (drop_index_sql d) (a_drop_indexes a)) ;;
    emit (B "
").
(** table.go:832-849 [decomposeAlterTableCommandSQLite2]; the same commands as pointers, table.go:851-871. *)
Definition plain_alter (schema name : bytes) : alter_table :=
  mk_alter_table false schema name [] [] [] [] [] [] [] [] false.
Definition with_add_columns (l : list add_column) (a : alter_table) : alter_table :=
  mk_alter_table (a_if_exists a) (a_schema a) (a_table a) l (a_alter_columns a) (a_drop_columns a)
    (a_add_constraints a) (a_alter_constraints a) (a_drop_constraints a) (a_create_indexes a) (a_drop_indexes a) (a_ignore a).
Definition with_drop_columns (l : list drop_column) (a : alter_table) : alter_table :=
  mk_alter_table (a_if_exists a) (a_schema a) (a_table a) (a_add_columns a) (a_alter_columns a) l
    (a_add_constraints a) (a_alter_constraints a) (a_drop_constraints a) (a_create_indexes a) (a_drop_indexes a) (a_ignore a).
Definition decompose_alter (a : alter_table) : list alter_table :=
  map (fun c => with_add_columns [c] (plain_alter (a_schema a) (a_table a))) (a_add_columns a)
  ++ map (fun c => with_drop_columns [c] (plain_alter (a_schema a) (a_table a))) (a_drop_columns a).

(** Several objects in one DROP: table.go:940-949, view.go:204-214.  The names
    are pairs (schema, name): Migrate always fills TableSchemas and TableNames
    with the same number of elements. *)
Definition drop_list (d : dialect) (names : list (bytes * bytes)) : M :=
  let many := Nat.ltb 1 (length names) in
  (fix go (first : bool) (l : list (bytes * bytes)) : M :=
     match l with
     | [] => ret
     | (s, n) :: l' =>
       emit (if first then (if many then element_start true else []) else element_start false) ;;
       emit (qualified d s n) ;; go false l'
     end) true names.
Record drop_table := mk_drop_table {
  dt_if_exists : bool; dt_names : list (bytes * bytes); dt_cascade : bool; dt_ignore : bool }.
Definition if_exists_text (names : list (bytes * bytes)) : bytes :=
  B "IF EXISTS" ++ (if Nat.eqb (length names) 1 then B " " else []).
Definition cascade_text (names : list (bytes * bytes)) : bytes :=
  (if Nat.ltb 1 (length names) then B "
" else B " ") ++ B "CASCADE".
(** table.go:929-964. *)
Definition drop_table_sql (d : dialect) (c : drop_table) : M :=
  if dt_ignore c then ret
  else
    emit (B "DROP TABLE ") ;;
    when (dt_if_exists c) (emit (if_exists_text (dt_names c))) ;;
    drop_list d (dt_names c) ;;
    when (dt_cascade c) (if is_postgres d || is_mysql d then emit (cascade_text (dt_names c)) else fail).
(** table.go:982-992 [decomposeDropTableCommandSQLite2]; the same commands as pointers, table.go:965-980. *)
Definition decompose_drop_table (c : drop_table) : list drop_table :=
  map (fun n => mk_drop_table (dt_if_exists c) [n] false false) (dt_names c).

(** ** Views, functions, triggers *)
Record create_view := mk_create_view {
  cv_or_replace : bool; cv_if_not_exists : bool; cv_view : view; cv_ignore : bool }.
(** view.go:140-172. *)
Definition create_view_sql (d : dialect) (c : create_view) : M :=
  let v := cv_view c in
  if cv_ignore c then ret
  else
    emit (B "CREATE ") ;;
    when (cv_or_replace c)
      (when (is_postgres d && v_materialized v) fail ;;
       when (negb (is_postgres d) && negb (is_mysql d)) fail ;;
       emit (B "OR REPLACE ")) ;;
    when (v_materialized v) (emit (B "MATERIALIZED ")) ;;
    emit (B "VIEW ") ;;
    when (cv_if_not_exists c)
      (when (is_postgres d && negb (v_materialized v)) fail ;;
       when (negb (is_sqlite d) && negb (is_postgres d)) fail ;;
       emit (B "IF NOT EXISTS ")) ;;
    emit (qualified d (v_schema v) (v_name v) ++ B " AS " ++ v_sql v).
Record drop_view := mk_drop_view {
  dv_if_exists : bool; dv_materialized : bool; dv_names : list (bytes * bytes); dv_cascade : bool;
  dv_ignore : bool }.
(** view.go:183-227. *)
Definition drop_view_sql (d : dialect) (c : drop_view) : M :=
  if dv_ignore c then ret
  else
    emit (B "DROP ") ;;
    when (dv_materialized c) (if is_postgres d then emit (B "MATERIALIZED ") else fail) ;;
    emit (B "VIEW ") ;;
    when (dv_if_exists c) (emit (if_exists_text (dv_names c))) ;;
    when (Nat.ltb 1 (length (dv_names c)) && is_sqlite d) fail ;;
    drop_list d (dv_names c) ;;
    when (dv_cascade c) (if is_sqlite d then fail else emit (cascade_text (dv_names c))).
(** view.go:245-255 [decomposeDropViewCommandSQLite2]; the same commands as pointers, view.go:229-242. *)
Definition decompose_drop_view (c : drop_view) : list drop_view :=
  map (fun n => mk_drop_view (dv_if_exists c) false [n] false false) (dv_names c).
Record create_function := mk_create_function { cf_function : func; cf_ignore : bool }.
(** function.go:92-101. *)
Definition create_function_sql (d : dialect) (c : create_function) : M :=
  if cf_ignore c then ret else if is_sqlite d then fail else emit (f_sql (cf_function c)).
Record drop_function := mk_drop_function {
  df_if_exists : bool; df_function : func; df_cascade : bool; df_ignore : bool }.
(** function.go:110-132. *)
Definition drop_function_sql (d : dialect) (c : drop_function) : M :=
  if df_ignore c then ret
  else if is_sqlite d then fail
  else
    emit (B "DROP FUNCTION ") ;;
    when (df_if_exists c) (emit (B "IF EXISTS ")) ;;
    emit (qualified d (f_schema (df_function c)) (f_name (df_function c))) ;;
    when (is_postgres d) (emit (B "(" ++ f_args (df_function c) ++ B ")")) ;;
    when (df_cascade c) (emit (B " CASCADE")).
Record create_trigger := mk_create_trigger { cg_trigger : trigger; cg_ignore : bool }.
(** trigger.go:76-82. *)
Definition create_trigger_sql (c : create_trigger) : M :=
  if cg_ignore c then ret else emit (g_sql (cg_trigger c)).
Record drop_trigger := mk_drop_trigger {
  dg_if_exists : bool; dg_schema : bytes; dg_table : bytes; dg_name : bytes; dg_cascade : bool;
  dg_ignore : bool }.
(** trigger.go:93-118. *)
Definition drop_trigger_sql (d : dialect) (c : drop_trigger) : M :=
  if dg_ignore c then ret
  else
    emit (B "DROP TRIGGER ") ;;
    when (dg_if_exists c) (emit (B "IF EXISTS ")) ;;
    (if is_postgres d then
       emit (quote_identifier d (dg_name c) ++ B " ON ") ;;
       emit (qualified d (dg_schema c) (dg_table c)) ;;
       when (dg_cascade c) (emit (B " CASCADE"))
     else emit (qualified d (dg_schema c) (dg_name c))).
