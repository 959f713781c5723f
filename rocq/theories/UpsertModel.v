(** * UpsertModel: defining constraints and indexes with the methods of ddl.T (ddl/t.go) *)
From Verif Require Import GoBase QuoteModel CacheModel.

(** ddl/constraint.go:11-32 [Constraint]. *)
Record constraint := mk_constraint {
  c_schema : bytes; c_table : bytes; c_name : bytes; c_type : bytes; c_columns : list bytes;
  c_exprs : list bytes; c_ref_schema : bytes; c_ref_table : bytes; c_ref_columns : list bytes;
  c_update : bytes; c_delete : bytes; c_match : bytes; c_check : bytes; c_operators : list bytes;
  c_index_type : bytes; c_predicate : bytes; c_deferrable : bool; c_deferred : bool;
  c_comment : bytes; c_ignore : bool }.
(** ddl/index.go:11-24 [Index]. *)
Record index := mk_index {
  x_schema : bytes; x_table : bytes; x_name : bytes; x_type : bytes; x_unique : bool;
  x_columns : list bytes; x_exprs : list bytes; x_include : list bytes; x_predicate : bytes;
  x_sql : bytes; x_comment : bytes; x_ignore : bool }.

(** The pattern of t.go:239-262, 264-298, 592-613: update the object found
    under the name, or append a new one.  Returns its position. *)
Section Upsert.
  Context {A : Type} (name_of : A -> bytes) (ignored : A -> bool).
  Definition upsert (name : bytes) (create : A) (update : A -> A) (s : cached A) : nat * cached A :=
    match lookup name_of ignored false name s with
    | (Some i, s1) =>
      match nth_error (objects s1) i with
      | Some a => (i, edit (list_set (objects s1) i (update a)) s1)
      | None => (i, s1)                                        (* unreachable *)
      end
    | (None, s1) => append name_of create s1
    end.
End Upsert.

(** The table whose DDL method runs: TableSchema and TableName. *)
Record table_id := mk_table_id { tb_schema : bytes; tb_name : bytes }.

(** t.go:239-262 [createOrUpdateConstraint] (Check, Unique, PrimaryKey,
    ForeignKey and the Name... variants); [None]: an error, which the methods
    turn into a panic. *)
Definition put_constraint (d : dialect) (tb : table_id) (ty name : bytes) (columns : list bytes) (check : bytes)
    (s : cached constraint) : option (nat * cached constraint) :=
  if negb (is_sqlite d) && is_empty name then None
  else Some (upsert c_name c_ignore name
    (mk_constraint (tb_schema tb) (tb_name tb) name ty columns [] [] [] [] [] [] [] check [] [] [] false false [] false)
    (fun c => mk_constraint (tb_schema tb) (tb_name tb) (c_name c) ty columns (c_exprs c) (c_ref_schema c)
       (c_ref_table c) (c_ref_columns c) (c_update c) (c_delete c) (c_match c) check (c_operators c)
       (c_index_type c) (c_predicate c) (c_deferrable c) (c_deferred c) (c_comment c) (c_ignore c)) s).
(** t.go:264-298 [createOrUpdateExclusionConstraint] (Exclude, NameExclude);
    columns and exprs are what getColumnNamesAndExprs made of the fields. *)
Definition put_exclusion (d : dialect) (tb : table_id) (name index_type : bytes) (columns exprs operators : list bytes)
    (s : cached constraint) : option (nat * cached constraint) :=
  if negb (is_postgres d) || is_empty name then None
  else Some (upsert c_name c_ignore name
    (mk_constraint (tb_schema tb) (tb_name tb) name (B "EXCLUDE") columns exprs [] [] [] [] [] [] [] operators index_type
       [] false false [] false)
    (fun c => mk_constraint (tb_schema tb) (tb_name tb) (c_name c) (B "EXCLUDE") columns exprs (c_ref_schema c)
       (c_ref_table c) (c_ref_columns c) (c_update c) (c_delete c) (c_match c) (c_check c) operators
       index_type (c_predicate c) (c_deferrable c) (c_deferred c) (c_comment c) (c_ignore c)) s).
(** t.go:592-613 [createOrUpdateIndex] (Index, NameIndex). *)
Definition put_index (tb : table_id) (name : bytes) (columns exprs : list bytes) (s : cached index)
  : option (nat * cached index) :=
  if is_empty name then None
  else Some (upsert x_name x_ignore name
    (mk_index (tb_schema tb) (tb_name tb) name [] false columns exprs [] [] [] [] false)
    (fun x => mk_index (tb_schema tb) (tb_name tb) (x_name x) (x_type x) (x_unique x) columns exprs (x_include x)
       (x_predicate x) (x_sql x) (x_comment x) (x_ignore x)) s).

(** ** The methods of TConstraint, t.go:471-541 *)
(** 480-497 [References] (ReferencesSchema is not set), 499-511 [OnUpdate],
    [OnDelete], 513-532 [Deferrable], [InitiallyDeferred], 534-541 [Where]. *)
Definition c_references (table : bytes) (columns : list bytes) (c : constraint) : constraint :=
  mk_constraint (c_schema c) (c_table c) (c_name c) (c_type c) (c_columns c) (c_exprs c) (c_ref_schema c)
    table columns (c_update c) (c_delete c) (c_match c) (c_check c) (c_operators c)
    (c_index_type c) (c_predicate c) (c_deferrable c) (c_deferred c) (c_comment c) (c_ignore c).
Definition c_on_update (action : bytes) (c : constraint) : constraint :=
  mk_constraint (c_schema c) (c_table c) (c_name c) (c_type c) (c_columns c) (c_exprs c) (c_ref_schema c)
    (c_ref_table c) (c_ref_columns c) action (c_delete c) (c_match c) (c_check c) (c_operators c)
    (c_index_type c) (c_predicate c) (c_deferrable c) (c_deferred c) (c_comment c) (c_ignore c).
Definition c_on_delete (action : bytes) (c : constraint) : constraint :=
  mk_constraint (c_schema c) (c_table c) (c_name c) (c_type c) (c_columns c) (c_exprs c) (c_ref_schema c)
    (c_ref_table c) (c_ref_columns c) (c_update c) action (c_match c) (c_check c) (c_operators c)
    (c_index_type c) (c_predicate c) (c_deferrable c) (c_deferred c) (c_comment c) (c_ignore c).
Definition c_set_deferrable (d : dialect) (initially : bool) (c : constraint) : constraint :=
  if is_mysql d then c else
  mk_constraint (c_schema c) (c_table c) (c_name c) (c_type c) (c_columns c) (c_exprs c) (c_ref_schema c)
    (c_ref_table c) (c_ref_columns c) (c_update c) (c_delete c) (c_match c) (c_check c) (c_operators c)
    (c_index_type c) (c_predicate c) true (if initially then true else c_deferred c) (c_comment c) (c_ignore c).
Definition c_where (expr : bytes) (c : constraint) : constraint :=
  mk_constraint (c_schema c) (c_table c) (c_name c) (c_type c) (c_columns c) (c_exprs c) (c_ref_schema c)
    (c_ref_table c) (c_ref_columns c) (c_update c) (c_delete c) (c_match c) (c_check c) (c_operators c)
    (c_index_type c) expr (c_deferrable c) (c_deferred c) (c_comment c) (c_ignore c).
(** 471-478 [Config]: the user's function may change anything, then the table
    and the name are put back. *)
Definition c_config (tb : table_id) (name : bytes) (f : constraint -> constraint) (c0 : constraint) : constraint :=
  let c := f c0 in
  mk_constraint (tb_schema tb) (tb_name tb) name (c_type c) (c_columns c) (c_exprs c) (c_ref_schema c)
    (c_ref_table c) (c_ref_columns c) (c_update c) (c_delete c) (c_match c) (c_check c) (c_operators c)
    (c_index_type c) (c_predicate c) (c_deferrable c) (c_deferred c) (c_comment c) (c_ignore c).

(** What a DDL method does to the constraints of its table. *)
Inductive constraint_attr :=
| AReferences (table : bytes) (columns : list bytes)
| AOnUpdate (action : bytes) | AOnDelete (action : bytes)
| ADeferrable | AInitiallyDeferred
| AWhere (expr : bytes)
| AConfig (f : constraint -> constraint).
Definition apply_attr (d : dialect) (tb : table_id) (name : bytes) (a : constraint_attr) : constraint -> constraint :=
  match a with
  | AReferences t cs => c_references t cs
  | AOnUpdate r => c_on_update r
  | AOnDelete r => c_on_delete r
  | ADeferrable => c_set_deferrable d false
  | AInitiallyDeferred => c_set_deferrable d true
  | AWhere e => c_where e
  | AConfig f => c_config tb name f
  end.
Inductive constraint_call :=
| CDefine (ty name : bytes) (columns : list bytes) (check : bytes)
| CExclude (name index_type : bytes) (columns exprs operators : list bytes)
| CAttr (handle : nat) (a : constraint_attr).
      (* a method of the TConstraint that the handle-th defining call returned *)

(** The constraints and the TConstraint values (position, name) so far. *)
Definition ddl_state := (cached constraint * list (nat * bytes))%type.
Definition constraint_step (d : dialect) (tb : table_id) (st : option ddl_state) (call : constraint_call)
  : option ddl_state :=
  match st with
  | None => None
  | Some (s, handles) =>
    match call with
    | CDefine ty name columns check =>
      match put_constraint d tb ty name columns check s with
      | Some (i, s') => Some (s', handles ++ [(i, name)])
      | None => None
      end
    | CExclude name ixt columns exprs operators =>
      match put_exclusion d tb name ixt columns exprs operators s with
      | Some (i, s') => Some (s', handles ++ [(i, name)])
      | None => None
      end
    | CAttr h a =>
      match nth_error handles h with
      | None => None
      | Some (i, name) =>
        match nth_error (objects s) i with
        | None => None
        | Some c => Some (edit (list_set (objects s) i (apply_attr d tb name a c)) s, handles)
        end
      end
    end
  end.
Definition run_constraints (d : dialect) (tb : table_id) (calls : list constraint_call) : option ddl_state :=
  fold_left (constraint_step d tb) calls (Some (cached_new, [])).

(** The same for indexes.  t.go:650-685: Unique, Using, Where, Include, Config. *)
Inductive index_attr := IUnique | IUsing (upper : bytes) | IWhere (expr : bytes) | IInclude (columns : list bytes)
| IConfig (f : index -> index).
Definition apply_index_attr (tb : table_id) (name : bytes) (a : index_attr) (x : index) : index :=
  match a with
  | IUnique => mk_index (x_schema x) (x_table x) (x_name x) (x_type x) true (x_columns x) (x_exprs x) (x_include x)
                 (x_predicate x) (x_sql x) (x_comment x) (x_ignore x)
  | IUsing t => mk_index (x_schema x) (x_table x) (x_name x) t (x_unique x) (x_columns x) (x_exprs x) (x_include x)
                 (x_predicate x) (x_sql x) (x_comment x) (x_ignore x)
  | IWhere e => mk_index (x_schema x) (x_table x) (x_name x) (x_type x) (x_unique x) (x_columns x) (x_exprs x) (x_include x)
                 e (x_sql x) (x_comment x) (x_ignore x)
  | IInclude cs => mk_index (x_schema x) (x_table x) (x_name x) (x_type x) (x_unique x) (x_columns x) (x_exprs x) cs
                 (x_predicate x) (x_sql x) (x_comment x) (x_ignore x)
  | IConfig f => let y := f x in
                 mk_index (tb_schema tb) (tb_name tb) name (x_type y) (x_unique y) (x_columns y) (x_exprs y) (x_include y)
                 (x_predicate y) (x_sql y) (x_comment y) (x_ignore y)
  end.
Inductive index_call :=
| IDefine (name : bytes) (columns exprs : list bytes)
| IAttr (handle : nat) (a : index_attr).
Definition index_state := (cached index * list (nat * bytes))%type.
Definition index_step (tb : table_id) (st : option index_state) (call : index_call) : option index_state :=
  match st with
  | None => None
  | Some (s, handles) =>
    match call with
    | IDefine name columns exprs =>
      match put_index tb name columns exprs s with
      | Some (i, s') => Some (s', handles ++ [(i, name)])
      | None => None
      end
    | IAttr h a =>
      match nth_error handles h with
      | None => None
      | Some (i, name) =>
        match nth_error (objects s) i with
        | None => None
        | Some x => Some (edit (list_set (objects s) i (apply_index_attr tb name a x)) s, handles)
        end
      end
    end
  end.
Definition run_indexes (tb : table_id) (calls : list index_call) : option index_state :=
  fold_left (index_step tb) calls (Some (cached_new, [])).
