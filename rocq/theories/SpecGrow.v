(** * SpecGrow: what declaring more may do to metadata (C89) *)
From Verif Require Import GoBase QuoteModel CacheModel UpsertModel DdlModel MigrateModel LoadModel DbModel.

(** The list l grew to l': every element is where it was, changed as [may] allows; new ones follow. *)
Definition grown {A} (may : A -> A -> Prop) (l l' : list A) : Prop :=
  exists kept more, l' = kept ++ more /\ Forall2 may l kept.
Definition same_name {A} (name : A -> bytes) (a a' : A) : Prop := name a' = name a.

(** A struct and its DDL method mention a column. *)
Definition mentions (fs : list struct_field) (ddl : list t_call) (n : bytes) : Prop :=
  (exists kind tag, In (SColumn n kind tag) fs) \/ In (TColumn n) ddl.
(** Two columns equal but for the marks of one-column keys, which are only added. *)
Definition only_marked (l l' : column) : Prop :=
  l' = mk_column (l_schema l) (l_table l) (l_name l) (l_type l) (l_identity l) (l_autoincrement l) (l_not_null l) (l_unique l')
         (l_primary_key l') (l_on_update l) (l_generated l) (l_stored l) (l_collation l) (l_default l) (l_ignore l) /\
  (l_unique l = true -> l_unique l' = true) /\ (l_primary_key l = true -> l_primary_key l' = true).
Definition column_kept (fs : list struct_field) (ddl : list t_call) (l l' : column) : Prop :=
  l_name l' = l_name l /\ (~ mentions fs ddl (l_name l) -> only_marked l l').
(** A table declared (again) by a struct. *)
Definition table_grown (fs : list struct_field) (ddl : list t_call) (t t' : table) : Prop :=
  t_name t' = t_name t /\
  grown (column_kept fs ddl) (objects (t_columns t)) (objects (t_columns t')) /\
  grown (same_name c_name) (objects (t_constraints t)) (objects (t_constraints t')) /\
  grown (same_name x_name) (objects (t_indexes t)) (objects (t_indexes t')) /\
  grown (same_name g_name) (objects (t_triggers t)) (objects (t_triggers t')).

(** Steps that follow each other. *)
Inductive chain {A} (step : A -> A -> Prop) : A -> A -> Prop :=
| chain_none a : chain step a a
| chain_one a b c : step a b -> chain step b c -> chain step a c.
(** What the structs of a list of options do to a table, a view of a schema. *)
Definition redeclares_table (o : db_option) (schema : bytes) (t t' : table) : Prop :=
  exists l ts, o = OTables l /\ In (Some ts) l /\ ts_schema ts = schema /\ ts_name ts = t_name t /\ t_ignore t = false /\ table_grown (ts_fields ts) (ts_ddl ts) t t'.
Definition redeclares_view (o : db_option) (schema : bytes) (v v' : db_view) : Prop :=
  exists l vs, o = OViews l /\ In (Some vs) l /\ vw_schema vs = schema /\ vw_name vs = dv_name v /\ dv_ignore v = false /\ dv_name v' = dv_name v /\ dv_ignore v' = dv_ignore v.
(** A table or view is changed only by structs of its schema and name, and only if it is not ignored;
    functions are only added. *)
Definition schema_grown (o : db_option) (s s' : db_schema) : Prop :=
  ds_name s' = ds_name s /\ ds_ignore s' = ds_ignore s /\
  grown (chain (redeclares_table o (ds_name s))) (objects (ds_tables s)) (objects (ds_tables s')) /\
  grown (chain (redeclares_view o (ds_name s))) (objects (ds_views s)) (objects (ds_views s')) /\
  grown eq (fobjects (ds_functions s)) (fobjects (ds_functions s')).
(** The metadata lists the column of the table, or the table is to be ignored. *)
Definition has_column (ss : list db_schema) (schema tname n : bytes) : Prop :=
  exists s t, In s ss /\ ds_name s = schema /\ In t (objects (ds_tables s)) /\ t_name t = tname /\
    (In n (map l_name (objects (t_columns t))) \/ t_ignore t = true).
