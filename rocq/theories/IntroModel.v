(** * IntroModel: reading the catalog of a database (ddl/introspect.go)

    The queries are opaque: the model starts from the rows they return. *)
From Verif Require Import GoBase QuoteModel BuildModel CacheModel UpsertModel TokenModel DdlModel MigrateModel LoadModel TriggerModel ViewModel DbModel.

(** ** Strings *)
(** [strings.TrimSuffix], [strings.TrimPrefix]. *)
Definition trim_suffix (suf s : bytes) : bytes :=
  if Nat.leb (length suf) (length s) && beqb (skipn (length s - length suf) s) suf
  then firstn (length s - length suf) s else s.
Definition trim_prefix (p s : bytes) : bytes := if GoBase.has_prefix p s then skipn (length p) s else s.
(** [strings.ReplaceAll(s, `\'`, `'`)]. *)
Fixpoint unescape (s : bytes) : bytes :=
  match s with
  | [] => []
  | c :: s' =>
    match s' with
    | q :: s'' => if Ascii.eqb c "\" && Ascii.eqb q "'" then "'"%char :: unescape s'' else c :: unescape s'
    | [] => [c]
    end
  end.
(** [strings.LastIndexByte]. *)
Fixpoint last_index_byte (c : ascii) (s : bytes) : option nat :=
  match s with
  | [] => None
  | a :: s' => match last_index_byte c s' with
               | Some i => Some (S i)
               | None => if Ascii.eqb a c then Some 0 else None
               end
  end.
(** [strings.Index]. *)
Fixpoint index_sub (sub s : bytes) : option nat :=
  if GoBase.has_prefix sub s then Some 0
  else match s with [] => None | _ :: s' => option_map S (index_sub sub s') end.

(** ** Result sets *)
(** What a query returns: an error, or rows.  [None] is a row that Scan refuses;
    the boolean says whether [rows.Close] and [rows.Err] are nil at the end. *)
Inductive result (R : Type) := QueryFails | Result (rs : list (option R)) (ends_well : bool).
Arguments QueryFails {R}.
Arguments Result {R}.
(** The loops [for rows.Next() { rows.Scan ... append }]. *)
Fixpoint read_rows {R A} (decode : R -> lexres A) (rs : list (option R)) : lexres (list A) :=
  match rs with
  | [] => LOk []
  | None :: _ => LErr
  | Some r :: rs' => lbind (decode r) (fun a => lbind (read_rows decode rs') (fun l => LOk (a :: l)))
  end.
(** ... followed by [rows.Close] and [rows.Err]. *)
Definition read {R A} (decode : R -> lexres A) (res : result R) : lexres (list A) :=
  match res with
  | QueryFails => LErr
  | Result rs ends_well => lbind (read_rows decode rs) (fun l => if ends_well then LOk l else LErr)
  end.
(** The loops that break after the first row (150-162, 208-214, 245-251): the
    first row, or the empty string. *)
Definition first_row (res : result bytes) : lexres bytes :=
  match res with
  | QueryFails => LErr
  | Result [] ends_well => if ends_well then LOk [] else LErr
  | Result (None :: _) _ => LErr
  | Result (Some s :: _) ends_well => if ends_well then LOk s else LErr
  end.

(** ** Names and versions *)
(** introspect.go:164-172: the numbers of the version. *)
Fixpoint version_nums (l : list bytes) : lexres (list Z) :=
  match l with
  | [] => LOk []
  | s :: l' => match atoi s with
               | None => LErr
               | Some z => lbind (version_nums l') (fun zs => LOk (z :: zs))
               end
  end.
(** ddl/introspect.go:132-187 [GetVersionNums].  Simplification: an error of Close and Err is
    returned before one of Atoi; both are errors. *)
Definition get_version (d : dialect) (res : result bytes) : lexres (list Z) :=
  lbind (first_row res) (fun s =>
    let s := if is_postgres d then match index_byte " " s with Some i => firstn i s | None => s end else s in
    version_nums (split_byte "." s)).
(** ddl/introspect.go:189-227 [GetDatabaseName]. *)
Definition get_database (res : result bytes) : lexres bytes := first_row res.
(** ddl/introspect.go:229-264 [GetCurrentSchema]: SQLite has none. *)
Definition get_current (d : dialect) (res : result bytes) : lexres bytes :=
  if is_sqlite d then LOk [] else first_row res.
(** ddl/introspect.go:266-284 [GetExtensions]: neither Close nor Err is looked at. *)
Definition get_extensions (d : dialect) (res : result (bytes * bytes)) : lexres (list bytes) :=
  if negb (is_postgres d) then LErr
  else match res with
       | QueryFails => LErr
       | Result rs _ => read_rows (fun r => LOk (fst r ++ B "@" ++ snd r)) rs
       end.

(** ** Tables, columns *)
(** The columns of the scripts.  A field that the script of a dialect does not
    have is not read. *)
Record table_raw := mk_tr { tr_schema : bytes; tr_name : bytes; tr_sql : bytes }.
(** ddl/introspect.go:308-324; the statement (SQL) is not kept in [table]. *)
Definition decode_table (d : dialect) (r : table_raw) : lexres table :=
  LOk (empty_table (if is_sqlite d then [] else tr_schema r) (tr_name r)).
Record column_raw := mk_lr {
  lr_schema : bytes; lr_table : bytes; lr_name : bytes; lr_type : bytes; lr_identity : bytes; lr_autoincrement : bool;
  lr_not_null : bool; lr_on_update : bool; lr_generated : bytes; lr_stored : bool; lr_collation : bytes; lr_default : bytes }.
(** ddl/introspect.go:361-422.  The precision, scale and comment are not kept in [column]. *)
Definition decode_column (numeric : bytes -> bool) (d : dialect) (r : column_raw) : lexres column :=
  LOk match d with
      | DSQLite =>
        mk_column [] (lr_table r) (lr_name r) (trim_suffix (B " GENERATED ALWAYS") (lr_type r)) [] false (lr_not_null r)
          false false false [] false [] (if is_empty (lr_default r) then [] else to_expr numeric d (lr_default r)) false
      | DPostgres =>
        mk_column (lr_schema r) (lr_table r) (lr_name r) (lr_type r) (lr_identity r) false (lr_not_null r)
          false false false (lr_generated r) (lr_stored r) (lr_collation r) (lr_default r) false
      | _ =>
        mk_column (lr_schema r) (lr_table r) (lr_name r) (lr_type r) [] (lr_autoincrement r) (lr_not_null r)
          false false (lr_on_update r) (unescape (lr_generated r)) (lr_stored r) (lr_collation r) (lr_default r) false
      end.

(** ** Constraints *)
(** [if raw != "" { xs = strings.Split(raw, ",") }]. *)
Definition split_list (raw : bytes) : list bytes := if is_empty raw then [] else split_byte "," raw.
(** The loops 492-497 and 594-599: an empty column takes the next expression. *)
Fixpoint take_exprs (wrap : bytes -> bytes) (columns exprs : list bytes) : list bytes :=
  match columns with
  | [] => []
  | c :: cs =>
    if is_empty c
    then match exprs with
         | e :: es => wrap (trim_space e) :: take_exprs wrap cs es
         | [] => [] :: take_exprs wrap cs []
         end
    else [] :: take_exprs wrap cs exprs
  end.
(** ddl/introspect.go:541-544: the brackets around a check. *)
Definition without_brackets (s : bytes) : bytes :=
  match s with
  | a :: s' => if Nat.ltb 2 (length s) && Ascii.eqb a "(" && Ascii.eqb (last_byte s) ")" then removelast s' else s
  | [] => s
  end.
Record constraint_raw := mk_cr {
  cr_schema : bytes; cr_table : bytes; cr_name : bytes; cr_type : bytes; cr_columns : bytes; cr_exprs : bytes;
  cr_ref_schema : bytes; cr_ref_table : bytes; cr_ref_columns : bytes; cr_update : bytes; cr_delete : bytes; cr_match : bytes;
  cr_check : bytes; cr_operators : bytes; cr_index_type : bytes; cr_predicate : bytes; cr_deferrable : bool; cr_deferred : bool }.
(** ddl/introspect.go:459-545. *)
Definition decode_constraint (d : dialect) (r : constraint_raw) : lexres constraint :=
  let columns := split_list (cr_columns r) in
  let blank_exprs := map (fun _ => []) columns in
  let references := split_list (cr_ref_columns r) in
  LOk match d with
      | DSQLite =>
        mk_constraint [] (cr_table r) [] (cr_type r) columns blank_exprs [] (cr_ref_table r) references (cr_update r) (cr_delete r)
          [] [] [] [] [] false false [] false
      | DPostgres =>
        mk_constraint (cr_schema r) (cr_table r) (cr_name r) (cr_type r) columns
          (take_exprs (fun e => e) columns (split_args (cr_exprs r))) (cr_ref_schema r) (cr_ref_table r) references (cr_update r)
          (cr_delete r) (cr_match r) (without_brackets (trim_prefix (B "CHECK ") (cr_check r)))
          (split_list (cr_operators r)) (cr_index_type r) (cr_predicate r) (cr_deferrable r) (cr_deferred r) [] false
      | _ =>
        mk_constraint (cr_schema r) (cr_table r) (cr_name r) (cr_type r) columns blank_exprs (cr_ref_schema r) (cr_ref_table r)
          references (cr_update r) (cr_delete r) (cr_match r) (without_brackets (cr_check r)) [] [] [] false false [] false
      end.

(** ** Indexes *)
Record index_raw := mk_xr {
  xr_schema : bytes; xr_table : bytes; xr_name : bytes; xr_type : bytes; xr_unique : bool; xr_keys : nat;
  xr_columns : bytes; xr_exprs : bytes; xr_predicate : bytes; xr_sql : bytes }.
(** ddl/introspect.go:606-616: each column is compared with what the statement says; [args[i]]
    panics if there are too few. *)
Fixpoint compare_args (columns args : list bytes) : lexres (list bytes) :=
  match columns with
  | [] => LOk []
  | c :: cs =>
    match args with
    | [] => LPanic
    | a :: args' =>
      let a := trim_space a in
      if is_empty c then lbind (compare_args cs args') (fun es => LOk (a :: es))
      else if beqb a c then lbind (compare_args cs args') (fun es => LOk ([] :: es))
      else LErr
    end
  end.
(** ddl/introspect.go:666-672: [exprs = exprs[1:]] panics if there is none. *)
Fixpoint pair_exprs (columns exprs : list bytes) : lexres (list bytes) :=
  match columns with
  | [] => LOk []
  | c :: cs =>
    match exprs with
    | [] => LPanic
    | e :: es => lbind (pair_exprs cs es) (fun l => LOk ((if is_empty c then B "(" ++ trim_space e ++ B ")" else []) :: l))
    end
  end.
(** ddl/introspect.go:588-622: the statement of SQLite gives the expressions and the predicate. *)
Definition sqlite_index_parts (columns : list bytes) (sql : bytes) : lexres (list bytes * bytes) :=
  let blank_exprs := map (fun _ => []) columns in
  if is_empty sql then LOk (blank_exprs, [])
  else
    let close := last_index_byte ")" sql in
    lbind (match index_byte "(" sql, close with
           | Some i, Some j => if Nat.ltb i j then compare_args columns (split_args (firstn (j - S i) (skipn (S i) sql))) else LOk blank_exprs
           | _, _ => LOk blank_exprs
           end) (fun exprs =>
    let (token, rest) := pop_identifier DSQLite (match close with Some j => skipn (S j) sql | None => sql end) in
    LOk (exprs, if equal_fold token (B "WHERE") then trim_space rest else [])).
(** ddl/introspect.go:582-674; [columns[:n]] panics if there are fewer than [n]. *)
Definition decode_index (d : dialect) (r : index_raw) : lexres index :=
  let columns := split_list (xr_columns r) in
  match d with
  | DSQLite =>
    lbind (sqlite_index_parts columns (xr_sql r)) (fun p =>
      LOk (mk_index [] (xr_table r) (xr_name r) [] (xr_unique r) columns (fst p) [] (snd p) (xr_sql r) [] false))
  | DPostgres =>
    let exprs := take_exprs (fun e => B "(" ++ e ++ B ")") columns (split_args (xr_exprs r)) in
    if Nat.leb (xr_keys r) (length columns)
    then LOk (mk_index (xr_schema r) (xr_table r) (xr_name r) (xr_type r) (xr_unique r) (firstn (xr_keys r) columns) exprs
                (skipn (xr_keys r) columns) (xr_predicate r) [] [] false)
    else LPanic
  | _ =>
    lbind (pair_exprs columns (split_args (trim_space (unescape (xr_exprs r))))) (fun exprs =>
      LOk (mk_index (xr_schema r) (xr_table r) (xr_name r) (xr_type r) (xr_unique r) columns exprs [] [] [] [] false))
  end.

(** ** Triggers, functions, views *)
Record trigger_raw := mk_gr { gr_schema : bytes; gr_table : bytes; gr_name : bytes; gr_sql : bytes; gr_timing : bytes; gr_event : bytes }.
(** ddl/introspect.go:711-759. *)
Definition decode_trigger (d : dialect) (r : trigger_raw) : lexres trigger :=
  LOk match d with
      | DSQLite => mk_trigger [] (gr_table r) (gr_name r) (gr_sql r) false
      | DPostgres => mk_trigger (gr_schema r) (gr_table r) (gr_name r) (gr_sql r) false
      | _ => mk_trigger (gr_schema r) (gr_table r) (gr_name r)
               (B "CREATE TRIGGER " ++ quote_identifier d (gr_name r) ++ B " " ++ gr_timing r ++ B " " ++ gr_event r ++ B " ON "
                ++ (if is_empty (gr_schema r) then [] else quote_identifier d (gr_schema r) ++ B ".")
                ++ quote_identifier d (gr_table r) ++ B " FOR EACH ROW " ++ gr_sql r) false
      end.
Record function_raw := mk_fr { fr_schema : bytes; fr_name : bytes; fr_sql : bytes; fr_args : bytes }.
(** ddl/introspect.go:793-809, Postgres only; the return type is not kept in [func]. *)
Definition decode_function (r : function_raw) : lexres func :=
  LOk (mk_func (fr_schema r) (fr_name r) (fr_args r) (fr_sql r) false).
Record view_raw := mk_vr { vr_schema : bytes; vr_name : bytes; vr_materialized : bool; vr_sql : bytes }.
(** ddl/introspect.go:845-880: SQLite's statement is cut after its first " AS ". *)
Definition decode_view (d : dialect) (r : view_raw) : lexres view :=
  LOk match d with
      | DSQLite => mk_view [] (vr_name r) false [] []
                     (match index_sub (B " AS ") (vr_sql r) with Some i => skipn (i + 4) (vr_sql r) | None => vr_sql r end) false
      | DPostgres => mk_view (vr_schema r) (vr_name r) (vr_materialized r) [] [] (vr_sql r) false
      | _ => mk_view (vr_schema r) (vr_name r) false [] [] (vr_sql r) false
      end.

(** ** A database *)
(** What the queries of the introspector return. *)
Record raw_db := mk_raw {
  rd_alive : bool; rd_version : result bytes; rd_database : result bytes; rd_current : result bytes;
  rd_extensions : result (bytes * bytes); rd_tables : result table_raw; rd_views : result view_raw; rd_columns : result column_raw;
  rd_constraints : result constraint_raw; rd_indexes : result index_raw; rd_functions : result function_raw;
  rd_triggers : result trigger_raw }.
(** database_metadata.go:197-338 [WithDB] on a database.  Between the queries
    WithDB can neither fail nor panic (DbModel.with_db), so that the order of the
    queries alone decides about the outcome. *)
Definition with_raw_db (numeric : bytes -> bool) (rd : raw_db) (b : dbm) : lexres dbm :=
  let d := dialect_of (b_dialect b) in
  if negb (rd_alive rd) || negb (is_sqlite d || is_postgres d || is_mysql d) then LErr
  else
    lbind (get_version d (rd_version rd)) (fun _ =>
    lbind (get_database (rd_database rd)) (fun _ =>
    lbind (get_current d (rd_current rd)) (fun current =>
    lbind (if is_postgres d then get_extensions d (rd_extensions rd) else LOk []) (fun extensions =>
    lbind (read (decode_table d) (rd_tables rd)) (fun tables =>
    lbind (read (decode_view d) (rd_views rd)) (fun views =>
    lbind (read (decode_column numeric d) (rd_columns rd)) (fun columns =>
    lbind (read (decode_constraint d) (rd_constraints rd)) (fun constraints =>
    lbind (read (decode_index d) (rd_indexes rd)) (fun indexes =>
    lbind (if is_postgres d then read decode_function (rd_functions rd) else LOk []) (fun functions =>
    lbind (read (decode_trigger d) (rd_triggers rd)) (fun triggers =>
    with_db (mk_answers true (Some tt) (Some tt) (Some current) (Some extensions) (Some tables) (Some views) (Some columns)
               (Some constraints) (Some indexes) (Some functions) (Some triggers)) b))))))))))).
