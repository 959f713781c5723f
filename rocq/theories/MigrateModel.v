(** * MigrateModel: computing, writing and executing migrations (ddl/migration.go) *)
From Verif Require Import GoBase QuoteModel EffectModel BuildModel CacheModel UpsertModel DdlModel.

(** The bits of MigrationMode that Migrate reads, migration.go:17-24. *)
Record mode := mk_mode { create_missing : bool; update_existing : bool; drop_extraneous : bool; drop_cascade : bool }.

(** database_metadata.go:12-22 [DatabaseMetadata], without VersionNums,
    DatabaseName and Comment. *)
Record metadata := mk_metadata {
  d_dialect : bytes; d_current : bytes; d_extensions : list bytes; d_ext_cache : list (bytes * nat);
  d_schemas : cached schema }.

(** The struct [Migration] (migration.go:26-45) holds one slice per kind of
    command.  The model holds one list of tagged commands: the slice of a kind
    is the sublist of commands with its tag, in the order of the appends. *)
Inductive command :=
| KCreateSchema (c : create_schema) | KCreateExtension (c : create_extension)
| KCreateFunction (c : create_function) | KCreateTable (c : create_table)
| KAlterTable (c : alter_table) | KCreateView (c : create_view) | KCreateIndex (c : create_index)
| KCreateTrigger (c : create_trigger) | KAddForeignKey (c : alter_table) | KDropView (c : drop_view)
| KDropTable (c : drop_table) | KDropTrigger (c : drop_trigger) | KDropIndex (c : drop_index)
| KAlterTableDrop (c : alter_table) | KDropFunction (c : drop_function) | KDropExtension (c : drop_extension).
Record migration := mk_migration { m_dialect : bytes; m_current : bytes; m_cmds : list command }.

(** ** Lookups
    [if n := x.Cached...Position(name); n >= 0 { o = x.Objects[n] }].  A lookup
    may delete a stale entry from the map; this never changes the result of a
    later lookup (lemma [lookup_pure], MigrateFacts), so the model forgets it. *)
Definition found {A} (name_of : A -> bytes) (ignored : A -> bool) (allow_empty : bool) (name : bytes)
    (c : cached A) : option A :=
  match fst (lookup name_of ignored allow_empty name c) with
  | Some i => nth_error (objects c) i
  | None => None
  end.
Definition missing {A} (o : option A) : bool := match o with None => true | Some _ => false end.
Definition find_schema (name : bytes) (c : cached schema) := found s_name s_ignore true name c.
Definition find_table (name : bytes) (c : cached table) := found t_name t_ignore false name c.
Definition find_view (name : bytes) (c : cached view) := found v_name v_ignore false name c.
Definition find_column (name : bytes) (c : cached column) := found l_name l_ignore false name c.
Definition find_constraint (name : bytes) (c : cached constraint) := found c_name c_ignore false name c.
Definition find_index (name : bytes) (c : cached index) := found x_name x_ignore false name c.
Definition find_trigger (name : bytes) (c : cached trigger) := found g_name g_ignore false name c.
Definition has_function (name : bytes) (c : fcached func) : bool :=
  match fst (flookup f_name name c) with [] => false | _ => true end.
(** CachedExtensionPosition deletes stale entries from the map of the schemas
    (CacheModel), so its effect is kept. *)
Definition ext_state_of (db : metadata) : ext_state :=
  mk_ext (d_extensions db) (d_ext_cache db) (length (objects (d_schemas db))) (positions (d_schemas db)).
(** The extensions that are not found; [None]: a panic. *)
Fixpoint missing_extensions (es : list bytes) (s : ext_state) : option (list bytes * ext_state) :=
  match es with
  | [] => Some ([], s)
  | e :: es' =>
    match ext_lookup e s with
    | (Ok (Some _), s1) => missing_extensions es' s1
    | (Ok None, s1) => option_map (fun r => (e :: fst r, snd r)) (missing_extensions es' s1)
    | (_, _) => None
    end
  end.
Definition schemas_after (s : ext_state) (db : metadata) : cached schema :=
  mk_cached (objects (d_schemas db)) (x_schema_cache s).

(** ** migration.go:470-510 [diffColumn] *)
Definition no_column : column := mk_column [] [] [] [] [] false false false false false [] false [] [] false.
Definition diff_column (d : dialect) (got want : column) : alter_column * bool :=
  let retype := negb (equal_fold (l_type got) (l_type want)) in
  let drop_not_null := l_not_null got && negb (l_not_null want) in
  let set_not_null := negb (l_not_null got) && l_not_null want in
  let drop_default := negb (is_empty (l_default got)) && is_empty (l_default want) in
  let set_default := is_empty (l_default got) && negb (is_empty (l_default want)) in
  let drop_identity := is_postgres d && negb (is_empty (l_identity got)) && is_empty (l_identity want) in
  let set_identity := is_postgres d && is_empty (l_identity got) && negb (is_empty (l_identity want)) in
  (mk_alter_column
     (mk_column [] [] [] (if retype then l_type want else []) (if set_identity then l_identity want else [])
        false set_not_null false false false [] false [] (if set_default then l_default want else []) false)
     drop_default drop_not_null false false drop_identity drop_identity [] false,
   retype || drop_not_null || set_not_null || drop_default || set_default || drop_identity || set_identity).

(** ** The create phase, migration.go:84-290 *)
(** 143-172: the columns of a table that exists. *)
Definition added_columns (d : dialect) (m : mode) (got want : table) : list add_column :=
  flat_map (fun l =>
    if l_ignore l then []
    else match find_column (l_name l) (t_columns got) with
         | Some _ => []
         | None => if create_missing m then [mk_add_column (is_postgres d) l [] [] [] false] else []
         end) (objects (t_columns want)).
Definition altered_columns (d : dialect) (m : mode) (got want : table) : list alter_column :=
  flat_map (fun l =>
    if l_ignore l then []
    else match find_column (l_name l) (t_columns got) with
         | Some g =>
           if update_existing m then
             let (c, different) := diff_column d g l in
             if different then
               [if is_mysql d
                then mk_alter_column l (ac_drop_default c) (ac_drop_not_null c) false false (ac_drop_identity c)
                       (ac_drop_identity_if_exists c) [] false
                else c]
             else []
           else []
         | None => []
         end) (objects (t_columns want)).
(** 173-190: not for sqlite. *)
Definition missing_constraints (d : dialect) (got want : table) : list constraint :=
  if is_sqlite d then []
  else filter (fun c => negb (c_ignore c) && missing (find_constraint (c_name c) (t_constraints got)))
         (objects (t_constraints want)).
Definition is_foreign_key (c : constraint) : bool := beqb (c_type c) FOREIGN_KEY.
Definition added_constraint (c : constraint) : add_constraint := mk_add_constraint c [] false false.
(** 191-211. *)
Definition missing_indexes (d : dialect) (got want : table) : list create_index :=
  map (fun x => mk_create_index false (negb (is_mysql d)) x false)
    (filter (fun x => negb (x_ignore x) && missing (find_index (x_name x) (t_indexes got))) (objects (t_indexes want))).
(** 212-223. *)
Definition missing_triggers (got want : table) : list command :=
  map (fun g => KCreateTrigger (mk_create_trigger g false))
    (filter (fun g => negb (g_ignore g) && missing (find_trigger (g_name g) (t_triggers got))) (objects (t_triggers want))).
Definition is_nil {A} (l : list A) : bool := match l with [] => true | _ => false end.
(** 118-239: one table.  [tableExists] is [negb (missing got)]; [gotTable] of a
    table that does not exist has no objects.  createTableCmd.Table is set only
    with CreateMissing (141), but the command is appended regardless (224-226).
    createTableCmd.IncludeConstraints is always true (125), so a table that does
    not exist gets its other constraints only with CREATE TABLE. *)
Definition create_table_cmds (d : dialect) (m : mode) (got_schema : schema) (want : table) : list command :=
  if t_ignore want then []
  else
    let got := find_table (t_name want) (s_tables got_schema) in
    let got_table := match got with Some t => t | None => empty_table (t_schema want) (t_name want) end in
    let exists_ := negb (missing got) in
    let ks := missing_constraints d got_table want in
    let xs := missing_indexes d got_table want in
    let fks := filter is_foreign_key ks in
    let alter := mk_alter_table (is_postgres d) (t_schema want) (t_name want)
                   (if exists_ then added_columns d m got_table want else [])
                   (if exists_ then altered_columns d m got_table want else [])
                   []
                   (if exists_ then map added_constraint (filter (fun c => negb (is_foreign_key c)) ks) else [])
                   [] []
                   (if is_mysql d && exists_ then xs else []) [] false in
    (if is_mysql d then [] else map KCreateIndex xs)
    ++ missing_triggers got_table want
    ++ (if exists_ then []
        else [KCreateTable (mk_create_table true true (if create_missing m then want else empty_table [] [])
                (if is_mysql d then xs else []) false)])
    ++ (if is_sqlite d then map KAlterTable (decompose_alter alter)
        else if is_nil (a_add_columns alter) && is_nil (a_alter_columns alter)
                && is_nil (a_add_constraints alter) && is_nil (a_create_indexes alter)
             then [] else [KAlterTable alter])
    ++ (if is_nil fks then []
        else [KAddForeignKey (mk_alter_table (is_postgres d) (t_schema want) (t_name want) [] [] []
                (map added_constraint fks) [] [] [] [] false)]).
(** 240-274: one view. *)
Definition create_view_cmds (d : dialect) (got_schema : schema) (want : view) : list command :=
  if v_ignore want then []
  else match find_view (v_name want) (s_views got_schema) with
  | Some _ => []
  | None =>
    [KCreateView (mk_create_view (is_mysql d || (is_postgres d && negb (v_materialized want)))
       (is_sqlite d || (is_postgres d && v_materialized want)) want false)]
    ++ (if v_materialized want && is_postgres d then
          map (fun x => KCreateIndex (mk_create_index false true x false))
            (filter (fun x => negb (x_ignore x)) (v_indexes want))
          ++ map (fun g => KCreateTrigger (mk_create_trigger g false))
               (filter (fun g => negb (g_ignore g)) (v_triggers want))
        else [])
  end.
(** 275-288. *)
Definition create_function_cmds (d : dialect) (got_schema : schema) (want : func) : list command :=
  if is_sqlite d || f_ignore want || has_function (f_name want) (s_functions got_schema) then []
  else [KCreateFunction (mk_create_function want false)].
(** 97-289: one schema. *)
Definition create_schema_cmds (d : dialect) (m : mode) (current : bytes) (got : cached schema) (want : schema)
  : list command :=
  if s_ignore want then []
  else
    let name := if is_empty (s_name want) then current else s_name want in
    let found_schema := find_schema name got in
    let got_schema := match found_schema with Some s => s | None => empty_schema name end in
    (if missing found_schema && create_missing m && negb (is_empty name)
     then [KCreateSchema (mk_create_schema true name false)] else [])
    ++ flat_map (create_table_cmds d m got_schema) (objects (s_tables want))
    ++ flat_map (create_view_cmds d got_schema) (objects (s_views want))
    ++ flat_map (create_function_cmds d got_schema) (fobjects (s_functions want)).

(** ** The drop phase, migration.go:291-465 *)
(** 336-350: the tables that are dropped; the others are compared (351-417). *)
Definition drop_table_names (want_schema : schema) (got : table) : list (bytes * bytes) :=
  if t_ignore got then []
  else match find_table (t_name got) (s_tables want_schema) with
  | Some _ => []
  | None => [(t_schema got, t_name got)]
  end.
(** 355-366 *)
Definition dropped_columns (d : dialect) (got want : table) : list drop_column :=
  map (fun l => mk_drop_column (is_postgres d) (l_name l) (is_postgres d) false)
    (filter (fun l => missing (find_column (l_name l) (t_columns want))) (objects (t_columns got))).
(** 367-380 *)
Definition dropped_constraints (d : dialect) (got want : table) : list drop_constraint :=
  if is_sqlite d then []
  else map (fun c => mk_drop_constraint (is_postgres d) (c_name c) (is_postgres d) false)
         (filter (fun c => missing (find_constraint (c_name c) (t_constraints want))) (objects (t_constraints got))).
(** 381-398 *)
Definition dropped_indexes (d : dialect) (got want : table) : list drop_index :=
  map (fun x => mk_drop_index false (is_postgres d || is_sqlite d) (x_schema x) (x_table x) (x_name x) (is_postgres d) false)
    (filter (fun x => missing (find_index (x_name x) (t_indexes want))) (objects (t_indexes got))).
(** 399-412 *)
Definition dropped_triggers (d : dialect) (got want : table) : list command :=
  map (fun g => KDropTrigger (mk_drop_trigger true (g_schema g) (g_table g) (g_name g) (is_postgres d) false))
    (filter (fun g => missing (find_trigger (g_name g) (t_triggers want))) (objects (t_triggers got))).
(** The compared table that is wanted, if any. *)
Definition kept_table (want_schema : schema) (got : table) : option table :=
  if t_ignore got then None else find_table (t_name got) (s_tables want_schema).
(** The commands appended directly for one table (396, 411). *)
Definition drop_parts_cmds (d : dialect) (want_schema : schema) (got : table) : list command :=
  match kept_table want_schema got with
  | None => []
  | Some want => (if is_mysql d then [] else map KDropIndex (dropped_indexes d got want)) ++ dropped_triggers d got want
  end.
(** alterTableCmds (413-417). *)
Definition drop_alters (d : dialect) (want_schema : schema) (got : table) : list alter_table :=
  match kept_table want_schema got with
  | None => []
  | Some want =>
    let ls := dropped_columns d got want in
    let ks := dropped_constraints d got want in
    let xs := if is_mysql d then dropped_indexes d got want else [] in
    if is_nil ls && is_nil ks && is_nil xs then []
    else [mk_alter_table false (t_schema got) (t_name got) [] [] ls [] [] ks [] xs false]
  end.
(** 419-431 *)
Definition drop_view_names (materialized : bool) (want_schema : schema) (got : view) : list (bytes * bytes) :=
  match find_view (v_name got) (s_views want_schema) with
  | Some _ => []
  | None => if Bool.eqb (v_materialized got) materialized then [(v_schema got, v_name got)] else []
  end.
(** 432-443 *)
Definition drop_function_cmds (want_schema : schema) (got : func) : list command :=
  if has_function (f_name got) (s_functions want_schema) then []
  else [KDropFunction (mk_drop_function true got true false)].
(** 325-334: the got schemas that are looked at, each with the wanted schema of
    its name (or an empty one). *)
Definition paired (want : cached schema) (got : cached schema) : list (schema * schema) :=
  flat_map (fun g => if s_ignore g then []
                     else [(g, match find_schema (s_name g) want with Some w => w | None => empty_schema (s_name g) end)])
    (objects got).
(** 310-324: dropped extensions. *)
Definition droppable_extensions (es : list bytes) : list bytes :=
  filter (fun e => negb (GoBase.has_prefix (B "plpgsql") e)) es.
Definition drop_cmds (d : dialect) (m : mode) (want got : cached schema) : list command :=
  let pairs := paired want got in
  let tables := flat_map (fun p => flat_map (drop_table_names (snd p)) (objects (s_tables (fst p)))) pairs in
  let views b := flat_map (fun p => flat_map (drop_view_names b (snd p)) (objects (s_views (fst p)))) pairs in
  let alters := flat_map (fun p => flat_map (drop_alters d (snd p)) (objects (s_tables (fst p)))) pairs in
  let drop_table := mk_drop_table true tables (drop_cascade m) false in
  let drop_view := mk_drop_view true false (views false) (drop_cascade m) false in
  let drop_mat := mk_drop_view true true (views true) (drop_cascade m) false in
  flat_map (fun p => flat_map (drop_parts_cmds d (snd p)) (objects (s_tables (fst p)))
                     ++ flat_map (drop_function_cmds (snd p)) (fobjects (s_functions (fst p)))) pairs
  ++ (if is_sqlite d then                                       (* 445-450 *)
        map KDropView (decompose_drop_view drop_view)
        ++ map KDropTable (decompose_drop_table drop_table)
        ++ map KAlterTableDrop (flat_map decompose_alter alters)
      else                                                       (* 451-464 *)
        map KAlterTableDrop alters
        ++ (if is_nil (dv_names drop_view) then [] else [KDropView drop_view])
        ++ (if is_nil (dv_names drop_mat) then [] else [KDropView drop_mat])
        ++ (if is_nil (dt_names drop_table) then [] else [KDropTable drop_table])).

(** migration.go:70-467 [Migrate].  The maps of [got] and [want] are taken not
    to be shared. *)
Definition migrate (m : mode) (got want : metadata) : outcome migration :=
  if is_empty (d_dialect got) && is_empty (d_dialect want) then Err (B "dialect missing")
  else if negb (is_empty (d_dialect got)) && negb (is_empty (d_dialect want))
          && negb (beqb (d_dialect got) (d_dialect want)) then Err (B "dialect mismatch")
  else
    let name := if is_empty (d_dialect got) then d_dialect want else d_dialect got in
    let d := dialect_of name in
    let creates :=
      if create_missing m || update_existing m then
        match (if is_postgres d && create_missing m then missing_extensions (d_extensions want) (ext_state_of got)
               else Some ([], ext_state_of got)) with
        | None => None
        | Some (es, s) =>
          Some (map (fun e => KCreateExtension (mk_create_extension true e false false)) es
                ++ flat_map (create_schema_cmds d m (d_current got) (schemas_after s got)) (objects (d_schemas want)))
        end
      else Some [] in
    let drops :=
      if drop_extraneous m then
        match missing_extensions (droppable_extensions (d_extensions got)) (ext_state_of want) with
        | None => None
        | Some (es, s) =>
          Some ((if is_nil es then [] else [KDropExtension (mk_drop_extension true es (drop_cascade m) false)])
                ++ drop_cmds d m (schemas_after s want) (d_schemas got))
        end
      else Some [] in
    match creates, drops with
    | Some cs, Some ds => Ok (mk_migration name (d_current got) (cs ++ ds))
    | _, _ => Panic
    end.

(** ** Executing and writing a migration *)
(** The SQL of a command: [sq.ToSQL(m.Dialect, cmd)], migration.go:516, 712. *)
Definition command_sql (d : dialect) (c : command) : M :=
  match c with
  | KCreateSchema c => create_schema_sql d c | KCreateExtension c => create_extension_sql d c
  | KCreateFunction c => create_function_sql d c | KCreateTable c => create_table_sql d c
  | KAlterTable c | KAddForeignKey c | KAlterTableDrop c => alter_table_sql d c
  | KCreateView c => create_view_sql d c | KCreateIndex c => create_index_sql d c
  | KCreateTrigger c => create_trigger_sql c | KDropView c => drop_view_sql d c
  | KDropTable c => drop_table_sql d c | KDropTrigger c => drop_trigger_sql d c
  | KDropIndex c => drop_index_sql d c | KDropFunction c => drop_function_sql d c
  | KDropExtension c => drop_extension_sql d c
  end.
Definition cmd_ignore (c : command) : bool :=
  match c with
  | KCreateSchema c => cs_ignore c | KCreateExtension c => ce_ignore c
  | KCreateFunction c => cf_ignore c | KCreateTable c => ct_ignore c
  | KAlterTable c | KAddForeignKey c | KAlterTableDrop c => a_ignore c
  | KCreateView c => cv_ignore c | KCreateIndex c => ci_ignore c
  | KCreateTrigger c => cg_ignore c | KDropView c => dv_ignore c
  | KDropTable c => dt_ignore c | KDropTrigger c => dg_ignore c
  | KDropIndex c => dx_ignore c | KDropFunction c => df_ignore c
  | KDropExtension c => de_ignore c
  end.
(** The text a method wrote. *)
Definition cmd_text (c : cmd) : bytes := match c with CText b => b | _ => [] end.
Definition written_text (m : M) : bytes := flat_map cmd_text (fst m).

(** The slices of [Migration]. *)
Inductive slice :=
| LCreateSchema | LCreateExtension | LCreateFunction | LCreateTable | LAlterTable | LCreateView | LCreateIndex
| LCreateTrigger | LAddForeignKey | LDropView | LDropTable | LDropTrigger | LDropIndex | LAlterTableDrop
| LDropFunction | LDropExtension.
Definition in_slice (s : slice) (c : command) : bool :=
  match s, c with
  | LCreateSchema, KCreateSchema _ | LCreateExtension, KCreateExtension _ | LCreateFunction, KCreateFunction _
  | LCreateTable, KCreateTable _ | LAlterTable, KAlterTable _ | LCreateView, KCreateView _
  | LCreateIndex, KCreateIndex _ | LCreateTrigger, KCreateTrigger _ | LAddForeignKey, KAddForeignKey _
  | LDropView, KDropView _ | LDropTable, KDropTable _ | LDropTrigger, KDropTrigger _
  | LDropIndex, KDropIndex _ | LAlterTableDrop, KAlterTableDrop _ | LDropFunction, KDropFunction _
  | LDropExtension, KDropExtension _ => true
  | _, _ => false
  end.
Definition slice_of (s : slice) (m : migration) : list command := filter (in_slice s) (m_cmds m).

(** migration.go:722-865: the loops of ExecContext, in order; each skips the
    ignored commands. *)
Definition exec_order : list slice :=
  [LCreateSchema; LCreateExtension; LCreateFunction; LCreateTable; LAlterTable; LCreateView; LCreateIndex;
   LCreateTrigger; LAddForeignKey; LDropView; LDropTable; LDropTrigger; LDropIndex; LAlterTableDrop;
   LDropFunction; LDropExtension].
Definition exec_cmds (m : migration) : list command :=
  flat_map (fun s => filter (fun c => negb (cmd_ignore c)) (slice_of s m)) exec_order.
(** The database: whether the statement succeeds, given all statements sent
    before it. *)
Definition database := list bytes -> bytes -> bool.
(** migration.go:711-721 [execCmd] and the loops: the statements sent so far
    and how the call ended. *)
Fixpoint exec_loop (d : dialect) (db : database) (sent : list bytes) (cs : list command) : list bytes * status :=
  match cs with
  | [] => (sent, SOk)
  | c :: cs' =>
    match snd (command_sql d c) with
    | SOk =>
      let q := written_text (command_sql d c) in
      if db sent q then exec_loop d db (sent ++ [q]) cs' else (sent ++ [q], SErr)
    | s => (sent, s)
    end
  end.
(** migration.go:709-867 [ExecContext]. *)
Definition exec_context (db : database) (m : migration) : list bytes * status :=
  exec_loop (dialect_of (m_dialect m)) db [] (exec_cmds m).

(** [strings.TrimSpace]: drops white space at both ends.  A trailing character
    is recognised from its encoding, which has at most 3 bytes. *)
Fixpoint trim_left (fuel : nat) (s : bytes) : bytes :=
  match fuel with
  | 0 => s
  | S f =>
    match s with
    | [] => []
    | _ => let (r, w) := decode_rune s in if is_space r then trim_left f (skipn w s) else s
    end
  end.
Definition ends_in_space (w : nat) (s : bytes) : bool :=
  Nat.leb w (length s)
  && let (r, w') := decode_rune (skipn (length s - w) s) in Nat.eqb w' w && is_space r.
Fixpoint trim_right (fuel : nat) (s : bytes) : bytes :=
  match fuel with
  | 0 => s
  | S f =>
    if ends_in_space 1 s then trim_right f (firstn (length s - 1) s)
    else if ends_in_space 2 s then trim_right f (firstn (length s - 2) s)
    else if ends_in_space 3 s then trim_right f (firstn (length s - 3) s)
    else s
  end.
Definition trim_space (s : bytes) : bytes :=
  let s' := trim_left (length s) s in trim_right (length s') s'.

(** What WriteSQL has written, and whether [written] is set. *)
Record wstate := mk_wstate { w_text : bytes; w_written : bool }.
(** migration.go:515-541 [writeCmd]; the arguments are always empty, so
    Sprintf is not called.  [query[last]] panics on an empty query (536).
    Simplification: errors of the io.Writer are dropped by the code and cannot
    be seen here. *)
Definition write_cmd (d : dialect) (mysql_function : bool) (c : command) (w : wstate) : wstate * status :=
  match snd (command_sql d c) with
  | SOk =>
    let q := trim_space (written_text (command_sql d c)) in
    let t := w_text w ++ (if w_written w then B "

" else []) ++ q in
    if mysql_function then (mk_wstate (t ++ B "; -- ;;") true, SOk)
    else match q with
         | [] => (mk_wstate t true, SPanic)
         | _ => (mk_wstate (t ++ (if Ascii.eqb (last_byte q) ";" then [] else B ";")) true, SOk)
         end
  | s => (w, s)
  end.
Fixpoint write_loop (d : dialect) (mysql_function : bool) (cs : list command) (w : wstate) : wstate * status :=
  match cs with
  | [] => (w, SOk)
  | c :: cs' =>
    if cmd_ignore c then write_loop d mysql_function cs' w
    else match write_cmd d mysql_function c w with
         | (w', SOk) => write_loop d mysql_function cs' w'
         | r => r
         end
  end.
(** One loop of WriteSQL; CreateFunctionCmds (560-576) and CreateTriggerCmds
    (613-629) are put between DELIMITER comments for MySQL, unless the slice is
    empty. *)
Definition is_routine (s : slice) : bool :=
  match s with LCreateFunction | LCreateTrigger => true | _ => false end.
Definition write_group (d : dialect) (m : migration) (s : slice) (w : wstate) : wstate * status :=
  let cs := slice_of s m in
  if is_routine s && is_mysql d && negb (is_nil cs) then
    match write_loop d true cs (mk_wstate (w_text w ++ B "

-- DELIMITER ;;") (w_written w)) with
    | (w', SOk) => (mk_wstate (w_text w' ++ B "

-- DELIMITER ;") (w_written w'), SOk)
    | r => r
    end
  else write_loop d false cs w.
(** migration.go:542-701: the loops of WriteSQL, in order. *)
Definition write_order : list slice :=
  [LCreateSchema; LCreateExtension; LCreateFunction; LCreateTable; LAlterTable; LCreateView; LCreateIndex;
   LCreateTrigger; LAddForeignKey; LDropView; LDropTable; LDropTrigger; LDropIndex; LAlterTableDrop;
   LDropFunction; LDropExtension].
Fixpoint write_groups (d : dialect) (m : migration) (ss : list slice) (w : wstate) : wstate * status :=
  match ss with
  | [] => (w, SOk)
  | s :: ss' =>
    match write_group d m s w with
    | (w', SOk) => write_groups d m ss' w'
    | r => r
    end
  end.
(** migration.go:512-703 [WriteSQL]: the text written and how the call ended. *)
Definition write_sql (m : migration) : bytes * status :=
  let (w, s) := write_groups (dialect_of (m_dialect m)) m write_order (mk_wstate [] false) in
  (w_text w, s).
