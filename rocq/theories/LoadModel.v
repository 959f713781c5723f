(** * LoadModel: struct tags and DDL methods to table metadata (ddl/table.go:197-584, ddl/t.go, ddl/ddl.go:77-171)

    Simplification: an error or a panic ends the loading; what was stored in the
    table before is not kept (LoadTable turns both into an error, t.go:718-727). *)
From Verif Require Import GoBase QuoteModel CacheModel UpsertModel TokenModel NameModel DdlModel MigrateModel TriggerModel.

Definition lbind {A C} (r : lexres A) (f : A -> lexres C) : lexres C :=
  match r with LOk a => f a | LErr => LErr | LPanic => LPanic | LDiverge => LDiverge end.
(** [for _, x := range l { state = f(state, x) }], stopping at an error. *)
Fixpoint lfold {S X} (f : S -> X -> lexres S) (l : list X) (s : S) : lexres S :=
  match l with [] => LOk s | x :: l' => lbind (f s x) (lfold f l') end.

(** [strings.Split(s, c)] for a one-byte separator. *)
Fixpoint split_byte (c : ascii) (s : bytes) : list bytes :=
  match s with
  | [] => [[]]
  | a :: s' =>
    if Ascii.eqb a c then [] :: split_byte c s'
    else match split_byte c s' with x :: l => (a :: x) :: l | [] => [[a]] end
  end.
(** [strings.SplitN(s, ".", 3)]. *)
Definition split_dots (s : bytes) : list bytes :=
  match index_byte "." s with
  | None => [s]
  | Some i =>
    let r := skipn (S i) s in
    firstn i s :: match index_byte "." r with
                  | None => [r]
                  | Some j => [firstn j r; skipn (S j) r]
                  end
  end.
(** [strings.ToUpper].  Simplification: ASCII only. *)
Definition upper (c : ascii) : ascii := if in_range 97 122 (ord c) then chr (ord c - 32)%N else c.
Definition to_upper (s : bytes) : bytes := map upper s.
(** The value of the last modifier of that name: [modifiers[modifierPositions[k]][1]]. *)
Definition modifier_value (k : bytes) (ms : list (bytes * bytes)) : option bytes :=
  fold_left (fun r m => if beqb (fst m) k then Some (snd m) else r) ms None.
Definition value_tokens (s : bytes) := tokenize_value (S (length s)) s.
Definition modifier_tokens (s : bytes) := tokenize_modifiers (S (length s)) s [].
(** The cases "ignore" (table.go:240-251, 371-382, 493-504, 567-578): whether
    Ignore is set. *)
Definition ignores (d : dialect) (value : bytes) : bool :=
  is_empty value || existsb (beqb (dialect_name d)) (split_byte "," value).
(** table.go:419-425, 519-525: the name after the "dialect:" prefix; [None]: for
    another dialect. *)
Definition strip_dialect (d : dialect) (k : bytes) : option bytes :=
  match index_byte ":" k with
  | None => Some k
  | Some i => if beqb (firstn i k) (dialect_name d) then Some (skipn (S i) k) else None
  end.
Definition INDEX := B "INDEX".

(** ** Indexes *)
Definition x_set_ignore (b : bool) (x : index) : index :=
  mk_index (x_schema x) (x_table x) (x_name x) (x_type x) (x_unique x) (x_columns x) (x_exprs x) (x_include x)
    (x_predicate x) (x_sql x) (x_comment x) b.
(** table.go:228-255: one modifier. *)
Definition index_modifier (d : dialect) (tb : table_id) (x : index) (m : bytes * bytes) : lexres index :=
  let (k, v) := m in
  let set := fun a => LOk (apply_index_attr tb (x_name x) a x) in
  if beqb k (B "cols") then LOk x
  else if beqb k (B "unique") then set IUnique
  else if beqb k (B "using") then set (IUsing (to_upper v))
  else if beqb k (B "where") then set (IWhere v)
  else if beqb k (B "include") then set (IInclude (split_byte "," v))
  else if beqb k (B "ignore") then LOk (if ignores d v then x_set_ignore true x else x)
  else LErr.
(** [defer func() { tbl.Indexes[n] = index }()] or [tbl.AppendIndex(index)]: the
    object under that name is changed, or a new one appended, by [f]. *)
Section Store.
  Context {A T : Type} (name_of : A -> bytes) (ignored : A -> bool).
  Definition store (name : bytes) (create : A) (found : A -> A) (f : A -> lexres (A * T)) (s : cached A)
    : lexres (cached A * T) :=
    match lookup name_of ignored false name s with
    | (Some i, s1) =>
      match nth_error (objects s1) i with
      | Some a => lbind (f (found a)) (fun r => LOk (edit (list_set (objects s1) i (fst r)) s1, snd r))
      | None => LPanic                                                   (* unreachable *)
      end
    | (None, s1) => lbind (f create) (fun r => LOk (snd (append name_of (fst r) s1), snd r))
    end.
End Store.
(** table.go:197-257 [loadIndexConfig]; [tb] is the table itself, [tname] the
    argument tableName. *)
Definition load_index (d : dialect) (tb : table_id) (tname : bytes) (columns : list bytes) (config : bytes)
    (s : cached index) : lexres (cached index) :=
  lbind (value_tokens config) (fun r =>
    let (names, ms) := r in
    let columns := if beqb names (B ".") || is_empty names then columns else split_byte "," names in
    match columns with
    | [] => LErr
    | _ =>
      let name := match modifier_value (B "name") ms with Some n => n | None => [] end in
      let name := if is_empty name then generate_name INDEX tname columns else name in
      lbind (store x_name x_ignore name
               (mk_index (tb_schema tb) (tb_name tb) name [] false columns [] [] [] [] [] false) (fun x => x)
               (fun x => lbind (lfold (index_modifier d tb) ms x) (fun x' => LOk (x', tt))) s)
        (fun r => LOk (fst r))
    end).

(** ** Constraints *)
Definition c_set_ignore (b : bool) (c : constraint) : constraint :=
  mk_constraint (c_schema c) (c_table c) (c_name c) (c_type c) (c_columns c) (c_exprs c) (c_ref_schema c)
    (c_ref_table c) (c_ref_columns c) (c_update c) (c_delete c) (c_match c) (c_check c) (c_operators c)
    (c_index_type c) (c_predicate c) (c_deferrable c) (c_deferred c) (c_comment c) b.
Definition c_set_type (ty : bytes) (c : constraint) : constraint :=
  mk_constraint (c_schema c) (c_table c) (c_name c) ty (c_columns c) (c_exprs c) (c_ref_schema c)
    (c_ref_table c) (c_ref_columns c) (c_update c) (c_delete c) (c_match c) (c_check c) (c_operators c)
    (c_index_type c) (c_predicate c) (c_deferrable c) (c_deferred c) (c_comment c) (c_ignore c).
Definition c_set_ref_schema (schema : bytes) (c : constraint) : constraint :=
  mk_constraint (c_schema c) (c_table c) (c_name c) (c_type c) (c_columns c) (c_exprs c) schema
    (c_ref_table c) (c_ref_columns c) (c_update c) (c_delete c) (c_match c) (c_check c) (c_operators c)
    (c_index_type c) (c_predicate c) (c_deferrable c) (c_deferred c) (c_comment c) (c_ignore c).
(** table.go:301-314, 319-331. *)
Definition set_references (value : bytes) (columns : list bytes) (c : constraint) : constraint :=
  match split_dots value with
  | [t] => c_references t columns c
  | [t; cs] => c_references t (split_byte "," cs) c
  | [s; t; cs] => c_set_ref_schema s (c_references t (split_byte "," cs) c)
  | _ => c
  end.
(** table.go:332-346, 347-361; the actions of ddl.go:32-36. *)
Definition rule_of (v : bytes) : option bytes :=
  if beqb v (B "cascade") then Some (B "CASCADE")
  else if beqb v (B "restrict") then Some (B "RESTRICT")
  else if beqb v (B "noaction") then Some (B "NO ACTION")
  else if beqb v (B "setnull") then Some (B "SET NULL")
  else if beqb v (B "setdefault") then Some (B "SET DEFAULT")
  else None.
(** table.go:315-391: one modifier. *)
Definition constraint_modifier (d : dialect) (tb : table_id) (tname : bytes) (columns : list bytes)
    (st : constraint * cached index) (m : bytes * bytes) : lexres (constraint * cached index) :=
  let (c, x) := st in
  let (k, v) := m in
  if beqb k (B "name") || beqb k (B "cols") then LOk st
  else if beqb k (B "references") then LOk (set_references v columns c, x)
  else if beqb k (B "onupdate") then match rule_of v with Some r => LOk (c_on_update r c, x) | None => LErr end
  else if beqb k (B "ondelete") then match rule_of v with Some r => LOk (c_on_delete r c, x) | None => LErr end
  else if beqb k (B "deferrable") then LOk (c_set_deferrable d false c, x)
  else if beqb k (B "deferred") then LOk (c_set_deferrable d true c, x)
  else if beqb k (B "ignore") then LOk (if ignores d v then c_set_ignore true c else c, x)
  else if beqb k (B "index") then lbind (load_index d tb tname columns v x) (fun x' => LOk (c, x'))
  else LErr.
(** table.go:259-393 [loadConstraintConfig]; [refs]: called with "references".
    [schema], [tname]: the arguments tableSchema, tableName. *)
Definition load_constraint (d : dialect) (tb : table_id) (ty : bytes) (refs : bool) (schema tname : bytes)
    (columns : list bytes) (config : bytes) (st : cached constraint * cached index)
    : lexres (cached constraint * cached index) :=
  lbind (value_tokens config) (fun r =>
    let (value, ms) := r in
    let columns := if refs || beqb value (B ".") || is_empty value then columns else split_byte "," value in
    match columns with
    | [] => LErr
    | _ =>
      let name := match modifier_value (B "name") ms with Some n => n | None => [] end in
      let name := if is_empty name then generate_name ty tname columns else name in
      store c_name c_ignore name
        (mk_constraint schema tname name ty columns [] [] [] [] [] [] [] [] [] [] [] false false [] false)
        (c_set_type ty)
        (fun c => lfold (constraint_modifier d tb tname columns) ms
                    (if refs then set_references value columns c else c, snd st))
        (fst st)
    end).

(** ** Default values *)
Section Numeric.
  (** [numeric s]: strconv.ParseInt(s, 10, 64) or strconv.ParseFloat(s, 64)
      accepts s.  Not modelled further: everything holds for any function. *)
  Context (numeric : bytes -> bool).
  Definition enclosed (o c : ascii) (s : bytes) : bool :=
    match s with a :: _ :: _ => Ascii.eqb a o && Ascii.eqb (last_byte s) c | _ => false end.
  Definition constant_words : list bytes :=
    [B "TRUE"; B "FALSE"; B "CURRENT_DATE"; B "CURRENT_TIME"; B "CURRENT_TIMESTAMP"].
  (** ddl.go:125-142 [needsExpressionBrackets]. *)
  Definition needs_brackets (s : bytes) : bool :=
    negb (enclosed "'" "'" s || existsb (equal_fold s) (constant_words ++ [B "NULL"]) || numeric s || enclosed "(" ")" s).
  (** ddl.go:146-171 [toExpr], for defaults read from the database. *)
  Definition to_expr (d : dialect) (s : bytes) : bytes :=
    if needs_brackets s then
      match d with
      | DMySQL => B "'" ++ escape_quote s "'" ++ B "'"
      | DPostgres => s
      | _ => B "(" ++ s ++ B ")"
      end
    else s.
  (** table.go:462-467: the modifier "default". *)
  Definition tag_default (d : dialect) (v : bytes) : bytes :=
    if needs_brackets v && negb (is_postgres d) then B "(" ++ v ++ B ")" else v.
  (** t.go:120-142: TColumn.Default without values. *)
  Definition t_default (d : dialect) (format : bytes) : bytes :=
    if enclosed "'" "'" format || existsb (equal_fold format) constant_words || numeric format || is_postgres d
    then format else B "(" ++ format ++ B ")".
  (** t.go:143-152: with values; [expr] is the formatted text. *)
  Definition t_default_expr (d : dialect) (expr : bytes) : bytes :=
    if is_postgres d then expr else B "(" ++ expr ++ B ")".

  (** ** Columns *)
  Inductive column_attr :=
  | LType (v : bytes) | LAutoincrement | LIdentity (v : bytes) | LNotNull | LOnUpdate
  | LGenerated (v : bytes) | LStored (b : bool) | LCollate (v : bytes) | LDefault (v : bytes) | LIgnore
  | LPrimaryKey | LUnique.
  (** One assignment to a field of a Column. *)
  Definition set_column (a : column_attr) (l : column) : column :=
    match a with
    | LType v => mk_column (l_schema l) (l_table l) (l_name l) v (l_identity l) (l_autoincrement l) (l_not_null l) (l_unique l) (l_primary_key l) (l_on_update l) (l_generated l) (l_stored l) (l_collation l) (l_default l) (l_ignore l)
    | LAutoincrement => mk_column (l_schema l) (l_table l) (l_name l) (l_type l) (l_identity l) true (l_not_null l) (l_unique l) (l_primary_key l) (l_on_update l) (l_generated l) (l_stored l) (l_collation l) (l_default l) (l_ignore l)
    | LIdentity v => mk_column (l_schema l) (l_table l) (l_name l) (l_type l) v (l_autoincrement l) (l_not_null l) (l_unique l) (l_primary_key l) (l_on_update l) (l_generated l) (l_stored l) (l_collation l) (l_default l) (l_ignore l)
    | LNotNull => mk_column (l_schema l) (l_table l) (l_name l) (l_type l) (l_identity l) (l_autoincrement l) true (l_unique l) (l_primary_key l) (l_on_update l) (l_generated l) (l_stored l) (l_collation l) (l_default l) (l_ignore l)
    | LOnUpdate => mk_column (l_schema l) (l_table l) (l_name l) (l_type l) (l_identity l) (l_autoincrement l) (l_not_null l) (l_unique l) (l_primary_key l) true (l_generated l) (l_stored l) (l_collation l) (l_default l) (l_ignore l)
    | LGenerated v => mk_column (l_schema l) (l_table l) (l_name l) (l_type l) (l_identity l) (l_autoincrement l) (l_not_null l) (l_unique l) (l_primary_key l) (l_on_update l) v (l_stored l) (l_collation l) (l_default l) (l_ignore l)
    | LStored b => mk_column (l_schema l) (l_table l) (l_name l) (l_type l) (l_identity l) (l_autoincrement l) (l_not_null l) (l_unique l) (l_primary_key l) (l_on_update l) (l_generated l) b (l_collation l) (l_default l) (l_ignore l)
    | LCollate v => mk_column (l_schema l) (l_table l) (l_name l) (l_type l) (l_identity l) (l_autoincrement l) (l_not_null l) (l_unique l) (l_primary_key l) (l_on_update l) (l_generated l) (l_stored l) v (l_default l) (l_ignore l)
    | LDefault v => mk_column (l_schema l) (l_table l) (l_name l) (l_type l) (l_identity l) (l_autoincrement l) (l_not_null l) (l_unique l) (l_primary_key l) (l_on_update l) (l_generated l) (l_stored l) (l_collation l) v (l_ignore l)
    | LIgnore => mk_column (l_schema l) (l_table l) (l_name l) (l_type l) (l_identity l) (l_autoincrement l) (l_not_null l) (l_unique l) (l_primary_key l) (l_on_update l) (l_generated l) (l_stored l) (l_collation l) (l_default l) true
    | LPrimaryKey => mk_column (l_schema l) (l_table l) (l_name l) (l_type l) (l_identity l) (l_autoincrement l) (l_not_null l) (l_unique l) true (l_on_update l) (l_generated l) (l_stored l) (l_collation l) (l_default l) (l_ignore l)
    | LUnique => mk_column (l_schema l) (l_table l) (l_name l) (l_type l) (l_identity l) (l_autoincrement l) (l_not_null l) true (l_primary_key l) (l_on_update l) (l_generated l) (l_stored l) (l_collation l) (l_default l) (l_ignore l)
    end.
  (** The four modifiers that declare a constraint: type, and whether it is "references". *)
  Definition constraint_kind (k : bytes) : option (bytes * bool) :=
    if beqb k (B "primarykey") then Some (PRIMARY_KEY, false)
    else if beqb k (B "references") then Some (FOREIGN_KEY, true)
    else if beqb k (B "foreignkey") then Some (FOREIGN_KEY, false)
    else if beqb k (B "unique") then Some (UNIQUE, false)
    else None.
  (** table.go:426-467, 493-504: the assignments to the column, for the modifiers that only
      make such. *)
  Definition column_setting (d : dialect) (k v : bytes) : option (list column_attr) :=
    if beqb k (B "type") then Some [LType v]
    else if beqb k (B "auto_increment") then Some (if is_mysql d then [LAutoincrement] else [])
    else if beqb k (B "autoincrement") then Some (if is_sqlite d then [LAutoincrement] else [])
    else if beqb k (B "identity") then Some (if is_postgres d then [LIdentity (B "BY DEFAULT AS IDENTITY")] else [])
    else if beqb k (B "alwaysidentity") then Some (if is_postgres d then [LIdentity (B "ALWAYS AS IDENTITY")] else [])
    else if beqb k (B "notnull") then Some [LNotNull]
    else if beqb k (B "onupdatecurrenttimestamp") then Some (if is_mysql d then [LOnUpdate] else [])
    else if beqb k (B "expr") then Some [LGenerated v; LStored (is_postgres d)]
    else if beqb k (B "storedexpr") then Some [LGenerated v; LStored true]
    else if beqb k (B "collate") then Some [LCollate v]
    else if beqb k (B "default") then Some [LDefault (tag_default d v)]
    else if beqb k (B "ignore") then Some (if ignores d v then [LIgnore] else [])
    else None.
  Definition load_state := (cached constraint * cached index)%type.
  (** table.go:417-508: one modifier of a column. *)
  Definition column_modifier (d : dialect) (tb : table_id) (st : column * load_state) (m : bytes * bytes)
    : lexres (column * load_state) :=
    let (l, s) := st in
    match strip_dialect d (fst m) with
    | None => LOk st
    | Some k =>
      let v := snd m in
      match column_setting d k v with
      | Some attrs => LOk (fold_left (fun l a => set_column a l) attrs l, s)
      | None =>
        match constraint_kind k with
        | Some (ty, refs) =>
          lbind (load_constraint d tb ty refs (l_schema l) (l_table l) [l_name l] v s) (fun s' => LOk (l, s'))
        | None =>
          if beqb k (B "index")
          then lbind (load_index d tb (l_table l) [l_name l] v (snd s)) (fun x => LOk (l, (fst s, x)))
          else LErr
        end
      end
    end.
  Definition with_columns (cs : cached column) (s : load_state) (t : table) : table :=
    mk_table (t_schema t) (t_name t) cs (fst s) (snd s) (t_triggers t) (t_virtual t) (t_virtual_args t) (t_ignore t).
  Definition table_of (t : table) : table_id := mk_table_id (t_schema t) (t_name t).
  (** table.go:395-510 [loadColumnConfig]. *)
  Definition load_column (d : dialect) (name type tag : bytes) (t : table) : lexres table :=
    lbind (modifier_tokens tag) (fun ms =>
    lbind (store l_name l_ignore name
             (mk_column (t_schema t) (t_name t) name type [] false false false false false [] false [] [] false)
             (fun l => l)
             (fun l => lfold (column_modifier d (table_of t)) ms (l, (t_constraints t, t_indexes t)))
             (t_columns t))
      (fun r => LOk (with_columns (fst r) (snd r) t))).

  (** ** Tables *)
  Definition set_virtual (module : bytes) (args : list bytes) (t : table) : table :=
    mk_table (t_schema t) (t_name t) (t_columns t) (t_constraints t) (t_indexes t) (t_triggers t) module args (t_ignore t).
  Definition set_table_ignore (t : table) : table :=
    mk_table (t_schema t) (t_name t) (t_columns t) (t_constraints t) (t_indexes t) (t_triggers t) (t_virtual t) (t_virtual_args t) true.
  (** table.go:534-539. *)
  Definition virtual_arg (m : bytes * bytes) : bytes :=
    fst m ++ (if is_empty (snd m) then [] else B "=" ++ snd m).
  (** table.go:517-582: one modifier of a table. *)
  Definition table_modifier (d : dialect) (t : table) (m : bytes * bytes) : lexres table :=
    match strip_dialect d (fst m) with
    | None => LOk t
    | Some k =>
      let v := snd m in
      if beqb k (B "virtual") then
        if is_sqlite d
        then lbind (value_tokens v) (fun r =>
               LOk (set_virtual (fst r) (t_virtual_args t ++ map virtual_arg (snd r)) t))
        else LOk t
      else match constraint_kind k with
      | Some (ty, refs) =>
        lbind (load_constraint d (table_of t) ty refs (t_schema t) (t_name t) [] v (t_constraints t, t_indexes t))
          (fun s => LOk (with_columns (t_columns t) s t))
      | None =>
        if beqb k (B "index")
        then lbind (load_index d (table_of t) (t_name t) [] v (t_indexes t))
               (fun x => LOk (with_columns (t_columns t) (t_constraints t, x) t))
        else if beqb k (B "ignore") then LOk (if ignores d v then set_table_ignore t else t)
        else LErr
      end
    end.
  (** table.go:512-584 [loadTableConfig]. *)
  Definition load_table_tag (d : dialect) (tag : bytes) (t : table) : lexres table :=
    lbind (modifier_tokens tag) (fun ms => lfold (table_modifier d) ms t).

  (** The kinds of fields that defaultColumnType distinguishes. *)
  Inductive field_kind := KBinary | KBoolean | KJSON | KNumber | KString | KTime | KUUID | KOther.
  (** ddl.go:77-120 [defaultColumnType]. *)
  Definition default_type (d : dialect) (k : field_kind) : bytes :=
    match k with
    | KBinary => if is_postgres d then B "BYTEA" else B "BLOB"
    | KBoolean => B "BOOLEAN"
    | KJSON => if is_postgres d then B "JSONB" else B "JSON"
    | KNumber => B "INT"
    | KString => if is_sqlite d || is_postgres d then B "TEXT" else B "VARCHAR(255)"
    | KTime => if is_postgres d then B "TIMESTAMPTZ" else B "DATETIME"
    | KUUID => if is_sqlite d || is_postgres d then B "UUID" else B "BINARY(16)"
    | KOther => B "VARCHAR(255)"
    end.
  (** A field of the table struct: unexported or not a column; or a column (its
      name is what GetName returns). *)
  Inductive struct_field := SOther (tag : bytes) | SColumn (name : bytes) (kind : field_kind) (tag : bytes).
  (** t.go:748-781: the loop over the fields.  The flag: stopped because the
      table is ignored. *)
  Fixpoint load_fields (d : dialect) (fs : list struct_field) (t : table) : lexres (table * bool) :=
    match fs with
    | [] => LOk (t, false)
    | SOther tag :: fs' =>
      lbind (load_table_tag d tag t) (fun t' => if t_ignore t' then LOk (t', true) else load_fields d fs' t')
    | SColumn name kind tag :: fs' =>
      if is_empty name then LErr
      else lbind (load_column d name (default_type d kind) tag t) (load_fields d fs')
    end.
  (** t.go:783-794: the arguments of an FTS5 table. *)
  Definition fts5_args (t : table) : table :=
    if equal_fold (t_virtual t) (B "FTS5")
    then set_virtual (t_virtual t)
           (map l_name (filter (fun l => negb (l_ignore l) && equal_fold (l_type l) (B "TEXT")) (objects (t_columns t)))
            ++ t_virtual_args t) t
    else t.
  (** t.go:795-809. *)
  Definition mark_column (cs : cached column) (c : constraint) : cached column :=
    match c_columns c with
    | [name] =>
      match lookup l_name l_ignore false name cs with
      | (None, cs1) => cs1
      | (Some i, cs1) =>
        match nth_error (objects cs1) i with
        | None => cs1                                                    (* unreachable *)
        | Some l =>
          if beqb (c_type c) PRIMARY_KEY then edit (list_set (objects cs1) i (set_column LPrimaryKey l)) cs1
          else if beqb (c_type c) UNIQUE then edit (list_set (objects cs1) i (set_column LUnique l)) cs1
          else cs1
        end
      end
    | _ => cs
    end.
  Definition mark_columns (t : table) : table :=
    with_columns (fold_left mark_column (objects (t_constraints t)) (t_columns t)) (t_constraints t, t_indexes t) t.

  (** ** The DDL method: what it can do with its *T (t.go:24-226, 300-716)

      The texts made from formats and values (sprintf) are arguments here. *)
  Inductive t_column_call :=
  | TCIgnore | TCType (v : bytes) | TCConfig (f : column -> column) | TCGenerated (expr : bytes) | TCStored
  | TCDefault (format : bytes) | TCDefaultExpr (expr : bytes) | TCAutoIncrement | TCAutoincrement | TCIdentity
  | TCAlwaysIdentity | TCOnUpdate | TCNotNull | TCCollate (v : bytes) | TCPrimaryKey | TCUnique.
  Inductive t_call :=
  | TIgnore | TVirtualTable (module : bytes) (args : list bytes)
  | TColumn (name : bytes)                      (* makes a TColumn *)
  | TColumnCall (handle : nat) (c : t_column_call)
  | TConstraintCall (c : constraint_call)       (* see UpsertModel *)
  | TIndexCall (c : index_call)
  | TTrigger (text : option bytes).             (* the formatted text; [None]: an error *)
  (** t.go:74-81 [Config]. *)
  Definition config_column (tb : table_id) (name : bytes) (f : column -> column) (l0 : column) : column :=
    let l := f l0 in
    mk_column (tb_schema tb) (tb_name tb) name (l_type l) (l_identity l) (l_autoincrement l) (l_not_null l) (l_unique l)
      (l_primary_key l) (l_on_update l) (l_generated l) (l_stored l) (l_collation l) (l_default l) (l_ignore l).
  (** t.go:65-215: the change of the column; PrimaryKey and Unique change the
      constraints instead. *)
  Definition t_column_change (d : dialect) (tb : table_id) (name : bytes) (c : t_column_call) (l : column) : column :=
    match c with
    | TCIgnore => set_column LIgnore l
    | TCType v => set_column (LType v) l
    | TCConfig f => config_column tb name f l
    | TCGenerated e => set_column (LGenerated e) l
    | TCStored => set_column (LStored true) l
    | TCDefault f => set_column (LDefault (t_default d f)) l
    | TCDefaultExpr e => set_column (LDefault (t_default_expr d e)) l
    | TCAutoIncrement => if is_mysql d then set_column LAutoincrement l else l
    | TCAutoincrement => if is_sqlite d then set_column LAutoincrement l else l
    | TCIdentity => if is_postgres d then set_column (LIdentity (B "BY DEFAULT AS IDENTITY")) l else l
    | TCAlwaysIdentity => if is_postgres d then set_column (LIdentity (B "ALWAYS AS IDENTITY")) l else l
    | TCOnUpdate => if is_mysql d then set_column LOnUpdate l else l
    | TCNotNull => set_column LNotNull l
    | TCCollate v => set_column (LCollate v) l
    | TCPrimaryKey | TCUnique => l
    end.
  Record t_state := mk_t {
    ts_table : table; ts_columns : list (nat * bytes); ts_constraints : list (nat * bytes);
    ts_indexes : list (nat * bytes) }.
  Definition t_key (c : t_column_call) : option bytes :=
    match c with TCPrimaryKey => Some PRIMARY_KEY | TCUnique => Some UNIQUE | _ => None end.
  (** One call; [None]: it panics. *)
  Definition t_step (d : dialect) (st : t_state) (call : t_call) : option t_state :=
    let t := ts_table st in
    let tb := table_of t in
    match call with
    | TIgnore => Some (mk_t (set_table_ignore t) (ts_columns st) (ts_constraints st) (ts_indexes st))
    | TVirtualTable m args => Some (mk_t (set_virtual m args t) (ts_columns st) (ts_constraints st) (ts_indexes st))
    | TColumn name =>
      match lookup l_name l_ignore false name (t_columns t) with
      | (Some i, cs) => Some (mk_t (with_columns cs (t_constraints t, t_indexes t) t) (ts_columns st ++ [(i, name)])
                                (ts_constraints st) (ts_indexes st))
      | (None, _) => None
      end
    | TColumnCall h c =>
      match nth_error (ts_columns st) h with
      | None => None
      | Some (i, name) =>
        match t_key c with
        | Some ty =>
          match put_constraint d tb ty (generate_name ty (tb_name tb) [name]) [name] [] (t_constraints t) with
          | Some (_, ks) => Some (mk_t (with_columns (t_columns t) (ks, t_indexes t) t) (ts_columns st)
                                    (ts_constraints st) (ts_indexes st))
          | None => None
          end
        | None =>
          match nth_error (objects (t_columns t)) i with
          | None => None
          | Some l => Some (mk_t (with_columns (edit (list_set (objects (t_columns t)) i (t_column_change d tb name c l)) (t_columns t))
                                    (t_constraints t, t_indexes t) t)
                              (ts_columns st) (ts_constraints st) (ts_indexes st))
          end
        end
      end
    | TConstraintCall c =>
      match constraint_step d tb (Some (t_constraints t, ts_constraints st)) c with
      | Some (ks, hs) => Some (mk_t (with_columns (t_columns t) (ks, t_indexes t) t) (ts_columns st) hs (ts_indexes st))
      | None => None
      end
    | TIndexCall c =>
      match index_step tb (Some (t_indexes t, ts_indexes st)) c with
      | Some (xs, hs) => Some (mk_t (with_columns (t_columns t) (t_constraints t, xs) t) (ts_columns st) (ts_constraints st) hs)
      | None => None
      end
    | TTrigger None => None
    | TTrigger (Some text) =>                   (* t.go:694-716; TriggerModel.t_trigger *)
      match t_trigger (S (length (trim_space text))) d text t with
      | LOk t' => Some (mk_t t' (ts_columns st) (ts_constraints st) (ts_indexes st))
      | _ => None
      end
    end.
  Fixpoint t_run (d : dialect) (calls : list t_call) (st : t_state) : option t_state :=
    match calls with
    | [] => Some st
    | c :: calls' => match t_step d st c with Some st' => t_run d calls' st' | None => None end
    end.
  (** t.go:717-815 [LoadTable]; [ddl]: the calls of the table's DDL method, if it
      has one.  The table was [t] before (empty, or one loaded earlier). *)
  Definition load_table (d : dialect) (schema name : bytes) (fs : list struct_field) (ddl : list t_call) (t0 : table)
    : lexres table :=
    if is_empty name then LErr
    else
      let t := mk_table schema name (t_columns t0) (t_constraints t0) (t_indexes t0) (t_triggers t0) (t_virtual t0)
                 (t_virtual_args t0) (t_ignore t0) in
      lbind (load_fields d fs t) (fun r =>
        if snd r then LOk (fst r)
        else match t_run d ddl (mk_t (fst r) [] [] []) with
             | None => LErr
             | Some st => LOk (mark_columns (fts5_args (ts_table st)))
             end).
End Numeric.
