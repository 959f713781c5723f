(** * DbModel: building a DatabaseMetadata (ddl/database_metadata.go)

    NewDatabaseMetadata and its options: WithDB reads a database, WithTables,
    WithDDLViews, WithFunctions and WithExtensions read Go values. *)
From Verif Require Import GoBase QuoteModel BuildModel CacheModel UpsertModel TokenModel DdlModel MigrateModel LoadModel TriggerModel ViewModel.

(** view.go:10-21 [View]: the identity and Ignore, and the state (with the
    caches, which DdlModel.view leaves out). *)
Record db_view := mk_dv { dv_schema : bytes; dv_name : bytes; dv_ignore : bool; dv_state : v_state }.
Definition plain_view (v : db_view) : view := view_of (dv_schema v) (dv_name v) (dv_ignore v) (dv_state v).
(** schema.go:10-20 [Schema], without Comment. *)
Record db_schema := mk_ds {
  ds_name : bytes; ds_tables : cached table; ds_views : cached db_view; ds_functions : fcached func; ds_ignore : bool }.
Definition empty_ds (name : bytes) : db_schema := mk_ds name cached_new cached_new fcached_new false.
Definition with_tables (ts : cached table) (s : db_schema) : db_schema := mk_ds (ds_name s) ts (ds_views s) (ds_functions s) (ds_ignore s).
Definition with_views (vs : cached db_view) (s : db_schema) : db_schema := mk_ds (ds_name s) (ds_tables s) vs (ds_functions s) (ds_ignore s).
Definition with_functions (fs : fcached func) (s : db_schema) : db_schema := mk_ds (ds_name s) (ds_tables s) (ds_views s) fs (ds_ignore s).
(** database_metadata.go:12-22 [DatabaseMetadata], without VersionNums,
    DatabaseName and Comment. *)
Record dbm := mk_dbm {
  b_dialect : bytes; b_current : bytes; b_extensions : list bytes; b_ext_cache : list (bytes * nat); b_schemas : cached db_schema }.
Definition with_schemas (ss : cached db_schema) (b : dbm) : dbm := mk_dbm (b_dialect b) (b_current b) (b_extensions b) (b_ext_cache b) ss.
(** What Migrate sees of it. *)
Definition plain_cached {A C} (f : A -> C) (c : cached A) : cached C := mk_cached (map f (objects c)) (positions c).
Definition plain_schema (s : db_schema) : schema :=
  mk_schema (ds_name s) (ds_tables s) (plain_cached plain_view (ds_views s)) (ds_functions s) (ds_ignore s).
Definition plain_metadata (b : dbm) : metadata :=
  mk_metadata (b_dialect b) (b_current b) (b_extensions b) (b_ext_cache b) (plain_cached plain_schema (b_schemas b)).

(** [xs[i]] changed in place by [f]. *)
Definition change_at {A} (i : nat) (f : A -> A) (c : cached A) : cached A :=
  match nth_error (objects c) i with
  | Some a => edit (list_set (objects c) i (f a)) c
  | None => c                                                            (* unreachable *)
  end.

(** ** WithDB, database_metadata.go:193-338 *)
(** [n := dbm.CachedSchemaPosition(name); if n < 0 { n = dbm.AppendSchema(Schema{SchemaName: name}) }]
    or [{ continue }], then a change of [dbm.Schemas[n]]. *)
Definition in_schema (create : bool) (name : bytes) (f : db_schema -> db_schema) (ss : cached db_schema) : cached db_schema :=
  match lookup ds_name ds_ignore true name ss with
  | (Some i, ss1) => change_at i f ss1
  | (None, ss1) => if create then let (i, ss2) := append ds_name (empty_ds name) ss1 in change_at i f ss2 else ss1
  end.
Definition in_table (name : bytes) (f : table -> table) (s : db_schema) : db_schema :=
  match lookup t_name t_ignore false name (ds_tables s) with
  | (Some i, ts) => with_tables (change_at i f ts) s
  | (None, ts) => with_tables ts s
  end.
Definition in_view (name : bytes) (f : v_state -> v_state) (s : db_schema) : db_schema :=
  match lookup dv_name dv_ignore false name (ds_views s) with
  | (Some i, vs) => with_views (change_at i (fun v => mk_dv (dv_schema v) (dv_name v) (dv_ignore v) (f (dv_state v))) vs) s
  | (None, vs) => with_views vs s
  end.
Definition add_column_row (l : column) (t : table) : table :=
  mk_table (t_schema t) (t_name t) (snd (append l_name l (t_columns t))) (t_constraints t) (t_indexes t) (t_triggers t)
    (t_virtual t) (t_virtual_args t) (t_ignore t).
Definition add_constraint_row (c : constraint) (t : table) : table :=
  mk_table (t_schema t) (t_name t)
    (if beqb (c_type c) PRIMARY_KEY || beqb (c_type c) UNIQUE then mark_column (t_columns t) c else t_columns t)
    (snd (append c_name c (t_constraints t))) (t_indexes t) (t_triggers t) (t_virtual t) (t_virtual_args t) (t_ignore t).
Definition add_index_row (x : index) (t : table) : table :=
  mk_table (t_schema t) (t_name t) (t_columns t) (t_constraints t) (snd (append x_name x (t_indexes t))) (t_triggers t)
    (t_virtual t) (t_virtual_args t) (t_ignore t).
Definition add_trigger_row (g : trigger) (t : table) : table :=
  mk_table (t_schema t) (t_name t) (t_columns t) (t_constraints t) (t_indexes t) (snd (append g_name g (t_triggers t)))
    (t_virtual t) (t_virtual_args t) (t_ignore t).
Definition add_view_index (x : index) (st : v_state) : v_state :=
  mk_v (vs_materialized st) (vs_sql st) (snd (append x_name x (fst (vs_indexes st))), snd (vs_indexes st)) (vs_triggers st).
Definition add_view_trigger (g : trigger) (st : v_state) : v_state :=
  mk_v (vs_materialized st) (vs_sql st) (vs_indexes st) (vt_append g (vs_triggers st)).
(** A view as GetViews returns it: no cache. *)
Definition view_row (v : view) : db_view :=
  mk_dv (v_schema v) (v_name v) (v_ignore v) (mk_v (v_materialized v) (v_sql v) (mk_cached (v_indexes v) [], []) (mk_vt (v_triggers v) [])).

(** 230-239: tables. *)
Definition table_rows (rows : list table) (ss : cached db_schema) : cached db_schema :=
  fold_left (fun ss t => in_schema true (t_schema t) (fun s => with_tables (snd (append t_name t (ds_tables s))) s) ss) rows ss.
(** 244-250: views. *)
Definition view_rows (rows : list view) (ss : cached db_schema) : cached db_schema :=
  fold_left (fun ss v => in_schema true (v_schema v) (fun s => with_views (snd (append dv_name (view_row v) (ds_views s))) s) ss) rows ss.
(** 255-265: columns. *)
Definition column_rows (rows : list column) (ss : cached db_schema) : cached db_schema :=
  fold_left (fun ss l => in_schema false (l_schema l) (in_table (l_table l) (add_column_row l)) ss) rows ss.
(** 270-292: constraints. *)
Definition constraint_rows (rows : list constraint) (ss : cached db_schema) : cached db_schema :=
  fold_left (fun ss c => in_schema false (c_schema c) (in_table (c_table c) (add_constraint_row c)) ss) rows ss.
(** 297-305: an index of a table, else of a view. *)
Definition index_row (x : index) (s : db_schema) : db_schema :=
  match lookup t_name t_ignore false (x_table x) (ds_tables s) with
  | (Some _, _) => in_table (x_table x) (add_index_row x) s
  | (None, ts) => in_view (x_table x) (add_view_index x) (with_tables ts s)
  end.
Definition index_rows (rows : list index) (ss : cached db_schema) : cached db_schema :=
  fold_left (fun ss x => in_schema false (x_schema x) (index_row x) ss) rows ss.
(** 311-317: functions. *)
Definition function_rows (rows : list func) (ss : cached db_schema) : cached db_schema :=
  fold_left (fun ss f => in_schema true (f_schema f) (fun s => with_functions (snd (fappend f_name f (ds_functions s))) s) ss) rows ss.
(** 323-332: triggers, of a table and of a view. *)
Definition trigger_rows (rows : list trigger) (ss : cached db_schema) : cached db_schema :=
  fold_left (fun ss g => in_schema false (g_schema g)
    (fun s => in_view (g_table g) (add_view_trigger g) (in_table (g_table g) (add_trigger_row g) s)) ss) rows ss.

(** What the introspector answers; [None]: an error. *)
Record answers := mk_answers {
  an_alive : bool;                                       (* NewDatabaseIntrospector: db is not nil and SELECT 1 works *)
  an_version : option unit; an_database : option unit; an_current : option bytes; an_extensions : option (list bytes);
  an_tables : option (list table); an_views : option (list view); an_columns : option (list column);
  an_constraints : option (list constraint); an_indexes : option (list index); an_functions : option (list func);
  an_triggers : option (list trigger) }.
Definition answer {A C} (o : option A) (k : A -> lexres C) : lexres C := match o with Some a => k a | None => LErr end.
(** 197-338 [WithDB]; 59-61 of introspect.go: the dialects it knows.  The slice
    of schemas is made anew (229); the map of positions is not. *)
Definition with_db (an : answers) (b : dbm) : lexres dbm :=
  let d := dialect_of (b_dialect b) in
  if negb (an_alive an) || negb (is_sqlite d || is_postgres d || is_mysql d) then LErr
  else
    answer (an_version an) (fun _ => answer (an_database an) (fun _ => answer (an_current an) (fun current =>
    answer (if is_postgres d then an_extensions an else Some (b_extensions b)) (fun extensions =>
    answer (an_tables an) (fun tables =>
    let ss1 := table_rows tables (edit [] (b_schemas b)) in
    answer (an_views an) (fun views =>
    let ss2 := view_rows views ss1 in
    answer (an_columns an) (fun columns =>
    let ss3 := column_rows columns ss2 in
    answer (an_constraints an) (fun constraints =>
    let ss4 := constraint_rows constraints ss3 in
    answer (an_indexes an) (fun indexes =>
    let ss5 := index_rows indexes ss4 in
    answer (if is_postgres d then an_functions an else Some []) (fun functions =>
    let ss6 := function_rows functions ss5 in
    answer (an_triggers an) (fun triggers =>
    let ss7 := trigger_rows triggers ss6 in
    LOk (mk_dbm (b_dialect b) current extensions (b_ext_cache b) ss7)))))))))))).

(** ** The other options *)
(** A table struct and a view struct: what GetSchema, GetName, the fields and the
    DDL method give. *)
Record table_struct := mk_ts { ts_schema : bytes; ts_name : bytes; ts_fields : list struct_field; ts_ddl : list t_call }.
Record view_struct := mk_vs { vw_schema : bytes; vw_name : bytes; vw_fields : list view_field; vw_ddl : list v_call }.
Inductive db_option :=
| OTables (l : list (option table_struct))                 (* [None]: nil *)
| OViews (l : list (option view_struct))
| OFunctions (l : list func)
| OExtensions (l : list bytes)
| ODb (an : answers).

Section Numeric.
  Context (numeric : bytes -> bool).
  (** The schema at the position found or a new one, and how to put it back:
      [schema := Schema{SchemaName: name}; if n >= 0 { schema = dbm.Schemas[n] }]. *)
  Definition on_schema (name : bytes) (f : db_schema -> lexres db_schema) (ss : cached db_schema) : lexres (cached db_schema) :=
    match lookup ds_name ds_ignore true name ss with
    | (Some i, ss1) =>
      match nth_error (objects ss1) i with
      | Some s => lbind (f s) (fun s' => LOk (edit (list_set (objects ss1) i s') ss1))
      | None => LPanic                                                   (* unreachable *)
      end
    | (None, ss1) => lbind (f (empty_ds name)) (fun s' => LOk (snd (append ds_name s' ss1)))
    end.
  (** database_metadata.go:103-132 [loadTable].  After an error the metadata is
      returned with the error; the model drops it. *)
  Definition load_table_in (d : dialect) (t : table_struct) (s : db_schema) : lexres db_schema :=
    match lookup t_name t_ignore false (ts_name t) (ds_tables s) with
    | (Some i, ts) =>
      match nth_error (objects ts) i with
      | Some old => lbind (load_table numeric d (ts_schema t) (ts_name t) (ts_fields t) (ts_ddl t) old) (fun t' =>
                      LOk (with_tables (edit (list_set (objects ts) i t') ts) s))
      | None => LPanic                                                   (* unreachable *)
      end
    | (None, ts) =>
      lbind (load_table numeric d (ts_schema t) (ts_name t) (ts_fields t) (ts_ddl t) (empty_table (ts_schema t) (ts_name t))) (fun t' =>
        LOk (with_tables (snd (append t_name t' ts)) s))
    end.
  Definition load_table_option (d : dialect) (ss : cached db_schema) (t : option table_struct) : lexres (cached db_schema) :=
    match t with
    | None => LErr
    | Some t => if is_empty (ts_name t) then LErr else on_schema (ts_schema t) (load_table_in d t) ss
    end.
  (** 138-166 [loadDDLView]. *)
  Definition load_view_in (d : dialect) (v : view_struct) (s : db_schema) : lexres db_schema :=
    match lookup dv_name dv_ignore false (vw_name v) (ds_views s) with
    | (Some i, vs) =>
      match nth_error (objects vs) i with
      | Some old => lbind (load_view_state d (vw_schema v) (vw_name v) (vw_fields v) (vw_ddl v) (dv_state old)) (fun st =>
                      LOk (with_views (edit (list_set (objects vs) i (mk_dv (vw_schema v) (vw_name v) (dv_ignore old) st)) vs) s))
      | None => LPanic                                                   (* unreachable *)
      end
    | (None, vs) =>
      lbind (load_view_state d (vw_schema v) (vw_name v) (vw_fields v) (vw_ddl v) v_start) (fun st =>
        LOk (with_views (snd (append dv_name (mk_dv (vw_schema v) (vw_name v) false st) vs)) s))
    end.
  Definition load_view_option (d : dialect) (ss : cached db_schema) (v : option view_struct) : lexres (cached db_schema) :=
    match v with
    | None => LErr
    | Some v => if is_empty (vw_name v) then LErr else on_schema (vw_schema v) (load_view_in d v) ss
    end.
  (** 168-182 [loadFunction]: the slice only, not the cache. *)
  Definition load_function_in (f : func) (s : db_schema) : lexres db_schema :=
    LOk (with_functions (mk_fcached (fobjects (ds_functions s) ++ [f]) (fpositions (ds_functions s))) s).
  (** 371-384: one function of WithFunctions; the return type is not kept. *)
  Definition load_function_option (d : dialect) (ss : cached db_schema) (f : func) : lexres (cached db_schema) :=
    lbind (function_info (S (length (f_sql f))) d f []) (fun r =>
      let f' := fst r in
      if is_empty (f_name f') then LErr else on_schema (f_schema f') (load_function_in f') ss).
  (** 340-385 [WithExtensions], [WithTables], [WithDDLViews], [WithFunctions]. *)
  Definition run_option (b : dbm) (o : db_option) : lexres dbm :=
    let d := dialect_of (b_dialect b) in
    match o with
    | OTables l => lbind (lfold (load_table_option d) l (b_schemas b)) (fun ss => LOk (with_schemas ss b))
    | OViews l => lbind (lfold (load_view_option d) l (b_schemas b)) (fun ss => LOk (with_schemas ss b))
    | OFunctions l => lbind (lfold (load_function_option d) l (b_schemas b)) (fun ss => LOk (with_schemas ss b))
    | OExtensions l => LOk (mk_dbm (b_dialect b) (b_current b) l (b_ext_cache b) (b_schemas b))
    | ODb an => with_db an b
    end.
  (** 186-195 [NewDatabaseMetadata]. *)
  Definition new_metadata (dialect : bytes) (opts : list db_option) : lexres dbm :=
    lfold run_option opts (mk_dbm dialect [] [] [] cached_new).
End Numeric.
