(** * SpecLoad: what the struct tags of a table declare

    Written without the loader's functions.  The tags are taken as the lists of
    (name, value) pairs that C35 and C37 describe: [value_tokens] and
    [modifier_tokens] read them from the text. *)
From Verif Require Import GoBase QuoteModel UpsertModel TokenModel NameModel DdlModel LoadModel.

(** Before and after the first [c]. *)
Fixpoint cut (c : ascii) (s : bytes) : option (bytes * bytes) :=
  match s with
  | [] => None
  | a :: s' => if Ascii.eqb a c then Some ([], s')
               else match cut c s' with Some (x, y) => Some (a :: x, y) | None => None end
  end.
(** The modifiers that count in this dialect: "mysql:type=INT" only in MySQL. *)
Definition mine (d : dialect) (ms : list (bytes * bytes)) : list (bytes * bytes) :=
  flat_map (fun m => match cut ":" (fst m) with
                     | None => [m]
                     | Some (p, k) => if beqb p (dialect_name d) then [(k, snd m)] else []
                     end) ms.

Definition named (names : list bytes) (ms : list (bytes * bytes)) : list (bytes * bytes) :=
  filter (fun m => existsb (beqb (fst m)) names) ms.
Definition says (k : bytes) (ms : list (bytes * bytes)) : bool := existsb (fun m => beqb (fst m) k) ms.
Definition final {A} (l : list A) : option A := last (map Some l) None.
(** The last modifier with one of these names. *)
Definition final_named (names : list bytes) (ms : list (bytes * bytes)) : option (bytes * bytes) := final (named names ms).
(** The value of the last modifier of that name, else [old]. *)
Definition value_or (old : bytes) (k : bytes) (ms : list (bytes * bytes)) : bytes :=
  match final_named [k] ms with Some m => snd m | None => old end.
(** "ignore", or "ignore=..." with the dialect in the list. *)
Definition ignored_for (d : dialect) (ms : list (bytes * bytes)) : bool :=
  existsb (fun m => is_empty (snd m) || existsb (beqb (dialect_name d)) (split_byte "," (snd m))) (named [B "ignore"] ms).

(** ** Columns *)
Section Numeric.
  Context (numeric : bytes -> bool).
  (** The column [l] with the modifiers of one more tag. *)
  Definition extend_column (d : dialect) (tag : list (bytes * bytes)) (l : column) : column :=
    let ms := mine d tag in
    let identity := if is_postgres d then final_named [B "identity"; B "alwaysidentity"] ms else None in
    let expr := final_named [B "expr"; B "storedexpr"] ms in
    mk_column (l_schema l) (l_table l) (l_name l)
      (value_or (l_type l) (B "type") ms)
      (match identity with
       | Some (k, _) => if beqb k (B "identity") then B "BY DEFAULT AS IDENTITY" else B "ALWAYS AS IDENTITY"
       | None => l_identity l
       end)
      (l_autoincrement l || (is_mysql d && says (B "auto_increment") ms) || (is_sqlite d && says (B "autoincrement") ms))
      (l_not_null l || says (B "notnull") ms)
      (l_unique l) (l_primary_key l)
      (l_on_update l || (is_mysql d && says (B "onupdatecurrenttimestamp") ms))
      (match expr with Some (_, v) => v | None => l_generated l end)
      (match expr with Some (k, _) => beqb k (B "storedexpr") || is_postgres d | None => l_stored l end)
      (value_or (l_collation l) (B "collate") ms)
      (match final_named [B "default"] ms with
       | Some (_, v) => if is_postgres d || negb (needs_brackets numeric v) then v else B "(" ++ v ++ B ")"
       | None => l_default l
       end)
      (l_ignore l || ignored_for d ms).
  Definition blank_column (tb : table_id) (name type : bytes) : column :=
    mk_column (tb_schema tb) (tb_name tb) name type [] false false false false false [] false [] [] false.

  (** The column type of a struct field, by dialect: Binary, Boolean, JSON,
      Number, String, Time, UUID, any other. *)
  Definition kind_types (d : dialect) : list bytes :=
    match d with
    | DPostgres => [B "BYTEA"; B "BOOLEAN"; B "JSONB"; B "INT"; B "TEXT"; B "TIMESTAMPTZ"; B "UUID"; B "VARCHAR(255)"]
    | DSQLite => [B "BLOB"; B "BOOLEAN"; B "JSON"; B "INT"; B "TEXT"; B "DATETIME"; B "UUID"; B "VARCHAR(255)"]
    | _ => [B "BLOB"; B "BOOLEAN"; B "JSON"; B "INT"; B "VARCHAR(255)"; B "DATETIME"; B "BINARY(16)"; B "VARCHAR(255)"]
    end.
  Definition kind_number (k : field_kind) : nat :=
    match k with
    | KBinary => 0 | KBoolean => 1 | KJSON => 2 | KNumber => 3 | KString => 4 | KTime => 5 | KUUID => 6 | KOther => 7
    end.
  Definition kind_type (d : dialect) (k : field_kind) : bytes := nth (kind_number k) (kind_types d) [].
End Numeric.

(** ** Constraints *)
(** "table", "table.columns" or "schema.table.columns". *)
Definition ref_target (columns : list bytes) (s : bytes) : option bytes * bytes * list bytes :=
  match cut "." s with
  | None => (None, s, columns)
  | Some (a, r) =>
    match cut "." r with
    | None => (None, a, split_byte "," r)
    | Some (t, cs) => (Some a, t, split_byte "," cs)
    end
  end.
Definition rules : list (bytes * bytes) :=
  [(B "cascade", B "CASCADE"); (B "restrict", B "RESTRICT"); (B "noaction", B "NO ACTION");
   (B "setnull", B "SET NULL"); (B "setdefault", B "SET DEFAULT")].
Definition rule_or (old k : bytes) (ms : list (bytes * bytes)) : bytes :=
  match final_named [k] ms with
  | Some (_, v) => match mget v rules with Some r => r | None => old end
  | None => old
  end.
Definition some_schemas (l : list (option bytes * bytes * list bytes)) : list bytes :=
  flat_map (fun t => match fst (fst t) with Some s => [s] | None => [] end) l.
(** [value], [ms]: the configuration; [refs]: the modifier is "references", whose
    value is the target. *)
Definition extend_constraint (d : dialect) (columns : list bytes) (refs : bool) (value : bytes)
    (ms : list (bytes * bytes)) (c : constraint) : constraint :=
  let targets := map (ref_target columns) ((if refs then [value] else []) ++ map snd (named [B "references"] ms)) in
  mk_constraint (c_schema c) (c_table c) (c_name c) (c_type c) (c_columns c) (c_exprs c)
    (last (some_schemas targets) (c_ref_schema c))
    (match final targets with Some t => snd (fst t) | None => c_ref_table c end)
    (match final targets with Some t => snd t | None => c_ref_columns c end)
    (rule_or (c_update c) (B "onupdate") ms)
    (rule_or (c_delete c) (B "ondelete") ms)
    (c_match c) (c_check c) (c_operators c) (c_index_type c) (c_predicate c)
    (c_deferrable c || (negb (is_mysql d) && (says (B "deferrable") ms || says (B "deferred") ms)))
    (c_deferred c || (negb (is_mysql d) && says (B "deferred") ms))
    (c_comment c)
    (c_ignore c || ignored_for d ms).
(** The columns: those of the value, or those of the field. *)
Definition config_columns (columns : list bytes) (value : bytes) : list bytes :=
  if beqb value (B ".") || is_empty value then columns else split_byte "," value.
Definition config_name (ty tname : bytes) (columns : list bytes) (ms : list (bytes * bytes)) : bytes :=
  let name := value_or [] (B "name") ms in if is_empty name then generate_name ty tname columns else name.
Definition declared_constraint (d : dialect) (ty : bytes) (refs : bool) (schema tname : bytes) (columns : list bytes)
    (value : bytes) (ms : list (bytes * bytes)) : constraint :=
  let columns := if refs then columns else config_columns columns value in
  extend_constraint d columns refs value ms
    (mk_constraint schema tname (config_name ty tname columns ms) ty columns [] [] [] [] [] [] [] [] [] [] [] false false [] false).
Definition constraint_words : list (bytes * (bytes * bool)) :=
  [(B "primarykey", (PRIMARY_KEY, false)); (B "unique", (UNIQUE, false)); (B "foreignkey", (FOREIGN_KEY, false));
   (B "references", (FOREIGN_KEY, true))].

(** ** Indexes *)
Definition extend_index (d : dialect) (ms : list (bytes * bytes)) (x : index) : index :=
  mk_index (x_schema x) (x_table x) (x_name x)
    (match final_named [B "using"] ms with Some (_, v) => map upper v | None => x_type x end)
    (x_unique x || says (B "unique") ms) (x_columns x) (x_exprs x)
    (match final_named [B "include"] ms with Some (_, v) => split_byte "," v | None => x_include x end)
    (value_or (x_predicate x) (B "where") ms) (x_sql x) (x_comment x) (x_ignore x || ignored_for d ms).
Definition declared_index (d : dialect) (tb : table_id) (tname : bytes) (columns : list bytes) (value : bytes)
    (ms : list (bytes * bytes)) : index :=
  let columns := config_columns columns value in
  extend_index d ms
    (mk_index (tb_schema tb) (tb_name tb) (config_name (B "INDEX") tname columns ms) [] false columns [] [] [] [] [] false).

(** ** What one tag declares *)
Definition config_of (s : bytes) : option (bytes * list (bytes * bytes)) :=
  match value_tokens s with LOk r => Some r | _ => None end.
Definition tag_of (s : bytes) : list (bytes * bytes) :=
  match modifier_tokens s with LOk ms => ms | _ => [] end.
(** The constraints; [columns]: the column of the field, or nothing. *)
Definition constraints_of (d : dialect) (tb : table_id) (columns : list bytes) (tag : list (bytes * bytes)) : list constraint :=
  flat_map (fun m =>
    match mget (fst m) constraint_words, config_of (snd m) with
    | Some (ty, refs), Some (value, ms) => [declared_constraint d ty refs (tb_schema tb) (tb_name tb) columns value ms]
    | _, _ => []
    end) (mine d tag).
(** The indexes: modifiers "index", in the tag or in the configuration of a
    constraint. *)
Definition index_of (d : dialect) (tb : table_id) (columns : list bytes) (s : bytes) : list index :=
  match config_of s with
  | Some (value, ms) => [declared_index d tb (tb_name tb) columns value ms]
  | None => []
  end.
Definition indexes_of (d : dialect) (tb : table_id) (columns : list bytes) (tag : list (bytes * bytes)) : list index :=
  flat_map (fun m =>
    match mget (fst m) constraint_words, config_of (snd m) with
    | Some (ty, refs), Some (value, ms) =>
      flat_map (fun i => index_of d tb (if refs then columns else config_columns columns value) (snd i)) (named [B "index"] ms)
    | _, _ => if beqb (fst m) (B "index") then index_of d tb columns (snd m) else []
    end) (mine d tag).

(** ** The struct *)
Definition field_columns (f : struct_field) : list bytes := match f with SOther _ => [] | SColumn n _ _ => [n] end.
Definition field_tag (f : struct_field) : bytes := match f with SOther s => s | SColumn _ _ s => s end.
Definition declared_columns (numeric : bytes -> bool) (d : dialect) (tb : table_id) (fs : list struct_field) : list column :=
  flat_map (fun f => match f with
                     | SOther _ => []
                     | SColumn n k s => [extend_column numeric d (tag_of s) (blank_column tb n (kind_type d k))]
                     end) fs.
Definition declared_constraints (d : dialect) (tb : table_id) (fs : list struct_field) : list constraint :=
  flat_map (fun f => constraints_of d tb (field_columns f) (tag_of (field_tag f))) fs.
Definition declared_indexes (d : dialect) (tb : table_id) (fs : list struct_field) : list index :=
  flat_map (fun f => indexes_of d tb (field_columns f) (tag_of (field_tag f))) fs.
(** A column is marked as key if it alone makes up a primary key or unique
    constraint.  Ignored columns are not marked. *)
Definition alone (ty : bytes) (ks : list constraint) (name : bytes) : bool :=
  existsb (fun c => beqb (c_type c) ty && match c_columns c with [n] => beqb n name | _ => false end) ks.
Definition mark (ks : list constraint) (l : column) : column :=
  if l_ignore l then l else
  mk_column (l_schema l) (l_table l) (l_name l) (l_type l) (l_identity l) (l_autoincrement l) (l_not_null l)
    (l_unique l || alone UNIQUE ks (l_name l)) (l_primary_key l || alone PRIMARY_KEY ks (l_name l))
    (l_on_update l) (l_generated l) (l_stored l) (l_collation l) (l_default l) (l_ignore l).
(** Whether a tag of the table itself says "ignore". *)
Definition table_ignored (d : dialect) (fs : list struct_field) : bool :=
  existsb (fun f => match f with SOther s => ignored_for d (mine d (tag_of s)) | SColumn _ _ _ => false end) fs.
(** The fields that are read: nothing after the tag with "ignore". *)
Fixpoint fields_read (d : dialect) (fs : list struct_field) : list struct_field :=
  match fs with
  | [] => []
  | f :: fs' => f :: (if table_ignored d [f] then [] else fields_read d fs')
  end.
(** The module and arguments of "virtual={...}" (SQLite): the last module, the
    arguments of all. *)
Definition virtuals (d : dialect) (fs : list struct_field) : list (bytes * list (bytes * bytes)) :=
  if is_sqlite d
  then flat_map (fun f => match f with
         | SOther s => flat_map (fun m => match config_of (snd m) with Some r => [r] | None => [] end)
                         (named [B "virtual"] (mine d (tag_of s)))
         | SColumn _ _ _ => []
         end) fs
  else [].
Definition virtual_text (m : bytes * bytes) : bytes :=
  match snd m with [] => fst m | v => fst m ++ B "=" ++ v end.

(** ** Which tags are accepted *)
Definition index_config_ok (columns : list bytes) (s : bytes) : Prop :=
  exists value ms, config_of s = Some (value, ms) /\ config_columns columns value <> [] /\
    Forall (fun m => In (fst m) [B "cols"; B "unique"; B "using"; B "where"; B "include"; B "ignore"]) ms.
Definition constraint_modifier_ok (columns : list bytes) (m : bytes * bytes) : Prop :=
  In (fst m) [B "name"; B "cols"; B "references"; B "deferrable"; B "deferred"; B "ignore"] \/
  (In (fst m) [B "onupdate"; B "ondelete"] /\ In (snd m) (map fst rules)) \/
  (fst m = B "index" /\ index_config_ok columns (snd m)).
Definition constraint_config_ok (refs : bool) (columns : list bytes) (s : bytes) : Prop :=
  exists value ms, config_of s = Some (value, ms) /\
    (if refs then columns else config_columns columns value) <> [] /\
    Forall (constraint_modifier_ok (if refs then columns else config_columns columns value)) ms.
(** Modifiers that any tag accepts. *)
Definition declares_ok (columns : list bytes) (m : bytes * bytes) : Prop :=
  (exists ty refs, mget (fst m) constraint_words = Some (ty, refs) /\ constraint_config_ok refs columns (snd m)) \/
  (fst m = B "index" /\ index_config_ok columns (snd m)).
Definition column_words : list bytes :=
  [B "type"; B "auto_increment"; B "autoincrement"; B "identity"; B "alwaysidentity"; B "notnull";
   B "onupdatecurrenttimestamp"; B "expr"; B "storedexpr"; B "collate"; B "default"; B "ignore"].
Definition field_ok (d : dialect) (f : struct_field) : Prop :=
  exists ms, modifier_tokens (field_tag f) = LOk ms /\
  match f with
  | SColumn n _ _ => n <> [] /\ Forall (fun m => In (fst m) column_words \/ declares_ok [n] m) (mine d ms)
  | SOther _ =>
    Forall (fun m => fst m = B "ignore" \/ declares_ok [] m \/
                     (fst m = B "virtual" /\ (d = DSQLite -> config_of (snd m) <> None))) (mine d ms)
  end.
