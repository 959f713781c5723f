(** * SpecMigrate: what a catalog lists and what DDL commands do to a database (C30-C32, C45)

    A database is seen as the set of the objects in it; a command adds objects
    to the set and removes objects from it.  Not represented: the definitions
    of the objects, and what CASCADE removes beyond the object itself and the
    parts of a dropped table. *)
From Verif Require Import GoBase QuoteModel CacheModel UpsertModel DdlModel MigrateModel.

Inductive item :=
| ISchema (s : bytes)
| ITable (s t : bytes) | IColumn (s t c : bytes) | IConstraint (s t k : bytes)
| IIndex (s t x : bytes) | ITrigger (s t g : bytes)
| IView (s v : bytes) | IFunction (s f : bytes).

(** ** What a catalog lists: everything that is not ignored *)
Definition present {A} (name_of : A -> bytes) (ignored : A -> bool) (l : list A) (n : bytes) : Prop :=
  exists a, In a l /\ ignored a = false /\ name_of a = n.
(** The part of table [t], in the schema named [s], that [i] is. *)
Definition table_has (s : bytes) (t : table) (i : item) : Prop :=
  match i with
  | ITable s' n => s' = s /\ n = t_name t
  | IColumn s' n c => s' = s /\ n = t_name t /\ present l_name l_ignore (objects (t_columns t)) c
  | IConstraint s' n k => s' = s /\ n = t_name t /\ present c_name c_ignore (objects (t_constraints t)) k
  | IIndex s' n x => s' = s /\ n = t_name t /\ present x_name x_ignore (objects (t_indexes t)) x
  | ITrigger s' n g => s' = s /\ n = t_name t /\ present g_name g_ignore (objects (t_triggers t)) g
  | _ => False
  end.
Definition schema_has (sc : schema) (i : item) : Prop :=
  match i with
  | ISchema s => s = s_name sc
  | IView s v => s = s_name sc /\ present v_name v_ignore (objects (s_views sc)) v
  | IFunction s f => s = s_name sc /\ present f_name f_ignore (fobjects (s_functions sc)) f
  | _ => exists t, In t (objects (s_tables sc)) /\ t_ignore t = false /\ table_has (s_name sc) t i
  end.
Definition lists (db : metadata) (i : item) : Prop :=
  exists sc, In sc (objects (d_schemas db)) /\ s_ignore sc = false /\ schema_has sc i.

(** ** What commands do *)
Definition database_state := item -> Prop.
(** An unqualified name means the current schema. *)
Definition resolve (current s : bytes) : bytes := match s with [] => current | _ => s end.
(** [i] is table [t] of schema [s] or a part of it. *)
Definition part_of (s t : bytes) (i : item) : Prop :=
  match i with
  | ITable s' t' | IColumn s' t' _ | IConstraint s' t' _ | IIndex s' t' _ | ITrigger s' t' _ => s' = s /\ t' = t
  | _ => False
  end.
Section Semantics.
  Variable d : dialect.
  Variable current : bytes.

  (** CREATE TABLE brings the columns, the constraints (foreign keys only for
      SQLite) and for MySQL the indexes given with it. *)
  Definition create_table_adds (c : create_table) (i : item) : Prop :=
    let t := ct_table c in
    part_of (resolve current (t_schema t)) (t_name t) i /\
    match i with
    | ITable _ _ => True
    | IColumn _ _ l => present l_name l_ignore (objects (t_columns t)) l
    | IConstraint _ _ k =>
      exists x, In x (objects (t_constraints t)) /\ c_ignore x = false /\ c_name x = k /\
                (d = DSQLite \/ c_type x <> B "FOREIGN KEY")
    | IIndex _ _ n => exists x, In x (ct_indexes c) /\ x_name (ci_index x) = n
    | _ => False
    end.
  Definition alter_table_adds (a : alter_table) (i : item) : Prop :=
    part_of (resolve current (a_schema a)) (a_table a) i /\
    match i with
    | IColumn _ _ l => exists x, In x (a_add_columns a) /\ l_name (al_column x) = l
    | IConstraint _ _ k => exists x, In x (a_add_constraints a) /\ c_name (at_constraint x) = k
    | IIndex _ _ n => exists x, In x (a_create_indexes a) /\ x_name (ci_index x) = n
    | _ => False
    end.
  Definition alter_table_removes (a : alter_table) (i : item) : Prop :=
    part_of (resolve current (a_schema a)) (a_table a) i /\
    match i with
    | IColumn _ _ l => exists x, In x (a_drop_columns a) /\ dl_name x = l
    | IConstraint _ _ k => exists x, In x (a_drop_constraints a) /\ dk_name x = k
    | IIndex _ _ n => exists x, In x (a_drop_indexes a) /\ dx_name x = n
    | _ => False
    end.
  Definition adds (c : command) (i : item) : Prop :=
    match c with
    | KCreateSchema c => i = ISchema (cs_name c)
    | KCreateTable c => create_table_adds c i
    | KAlterTable a | KAddForeignKey a | KAlterTableDrop a => alter_table_adds a i
    | KCreateView c => i = IView (resolve current (v_schema (cv_view c))) (v_name (cv_view c))
    | KCreateIndex c =>
      i = IIndex (resolve current (x_schema (ci_index c))) (x_table (ci_index c)) (x_name (ci_index c))
    | KCreateTrigger c =>
      i = ITrigger (resolve current (g_schema (cg_trigger c))) (g_table (cg_trigger c)) (g_name (cg_trigger c))
    | KCreateFunction c =>
      i = IFunction (resolve current (f_schema (cf_function c))) (f_name (cf_function c))
    | _ => False
    end.
  (** IF NOT EXISTS: nothing happens if the name is taken.  The name of an
      index is taken if any table of the schema has an index of that name
      (MySQL: if that table has it). *)
  Definition acts (c : command) (st : database_state) : Prop :=
    match c with
    | KCreateTable c => ~ st (ITable (resolve current (t_schema (ct_table c))) (t_name (ct_table c)))
    | KCreateIndex c => d <> DMySQL ->
      forall t, ~ st (IIndex (resolve current (x_schema (ci_index c))) t (x_name (ci_index c)))
    | _ => True
    end.
  Definition removes (c : command) (i : item) : Prop :=
    match c with
    | KDropTable c => exists s t, In (s, t) (dt_names c) /\ part_of (resolve current s) t i
    | KDropView c => exists s v, In (s, v) (dv_names c) /\ i = IView (resolve current s) v
    | KDropIndex c =>                                (* DROP INDEX schema.name *)
      exists t, i = IIndex (resolve current (dx_schema c)) t (dx_name c)
    | KDropTrigger c =>                              (* DROP TRIGGER [schema.]name [ON table] *)
      exists t, i = ITrigger (resolve current (dg_schema c)) t (dg_name c) /\ (d = DPostgres -> t = dg_table c)
    | KAlterTable a | KAddForeignKey a | KAlterTableDrop a => alter_table_removes a i
    | KDropFunction c => i = IFunction (resolve current (f_schema (df_function c))) (f_name (df_function c))
    | _ => False
    end.
  Definition step (st : database_state) (c : command) : database_state :=
    fun i => (st i /\ ~ removes c i) \/ (acts c st /\ adds c i).
  Definition after (cs : list command) (st : database_state) : database_state := fold_left step cs st.
End Semantics.

(** ** Catalogs *)
Section Slices.
  Context {A : Type} (name_of : A -> bytes) (ignored : A -> bool) (allow_empty : bool).
  (** The lookup by name finds what is there (C29: true after any history in
      which the program refreshed the cache after editing the slice). *)
  Definition in_step (c : cached A) : Prop :=
    forall n, n <> [] \/ allow_empty = true ->
      present name_of ignored (objects c) n -> exists i, fst (lookup name_of ignored allow_empty n c) = Some i.
  Definition distinct (l : list A) : Prop := NoDup (map name_of (filter (fun a => negb (ignored a)) l)).
  Definition named (l : list A) : Prop := forall a, In a l -> name_of a <> [].
  Definition good_slice (c : cached A) : Prop :=
    in_step c /\ distinct (objects c) /\ (allow_empty = false -> named (objects c)).
End Slices.
(** Functions may be overloaded. *)
Definition good_functions (c : fcached func) : Prop :=
  named f_name (fobjects c) /\
  forall n, n <> [] -> (fst (flookup f_name n c) <> [] <-> present f_name f_ignore (fobjects c) n).
(** SQLite reports no names for constraints; there nothing is asked of them. *)
Definition good_table (d : dialect) (s : bytes) (t : table) : Prop :=
  t_schema t = s /\
  good_slice l_name l_ignore false (t_columns t) /\
  (d <> DSQLite -> good_slice c_name c_ignore false (t_constraints t)) /\
  good_slice x_name x_ignore false (t_indexes t) /\
  (forall x, In x (objects (t_indexes t)) -> x_schema x = s /\ x_table x = t_name t) /\
  good_slice g_name g_ignore false (t_triggers t) /\
  (forall g, In g (objects (t_triggers t)) -> g_schema g = s /\ g_table g = t_name t).
Definition good_schema (d : dialect) (current : bytes) (sc : schema) : Prop :=
  (s_name sc <> [] \/ current = []) /\
  good_slice t_name t_ignore false (s_tables sc) /\
  (forall t, In t (objects (s_tables sc)) -> good_table d (s_name sc) t) /\
  good_slice v_name v_ignore false (s_views sc) /\
  (forall v, In v (objects (s_views sc)) -> v_schema v = s_name sc) /\
  good_functions (s_functions sc) /\
  (forall f, In f (fobjects (s_functions sc)) -> f_schema f = s_name sc).
Definition catalog (d : dialect) (current : bytes) (db : metadata) : Prop :=
  good_slice s_name s_ignore true (d_schemas db) /\
  forall sc, In sc (objects (d_schemas db)) -> good_schema d current sc.
(** Extensions never share a name with a schema, or were not loaded through
    AppendExtension/RefreshExtensionCache.  (A failed lookup of an extension
    makes the schema of that name unfindable, C29.) *)
Definition extensions_apart (db : metadata) (es : list bytes) : Prop :=
  d_ext_cache db = [] \/
  forall e sc, In e es -> In sc (objects (d_schemas db)) -> s_name sc <> ext_name e.

(** Nothing in the catalog is ignored (as when it was read from a database). *)
Definition nothing_ignored (db : metadata) : Prop :=
  forall sc, In sc (objects (d_schemas db)) ->
    s_ignore sc = false /\
    (forall t, In t (objects (s_tables sc)) ->
       t_ignore t = false /\
       (forall l, In l (objects (t_columns t)) -> l_ignore l = false) /\
       (forall c, In c (objects (t_constraints t)) -> c_ignore c = false) /\
       (forall x, In x (objects (t_indexes t)) -> x_ignore x = false) /\
       (forall g, In g (objects (t_triggers t)) -> g_ignore g = false)) /\
    (forall v, In v (objects (s_views sc)) -> v_ignore v = false) /\
    (forall f, In f (fobjects (s_functions sc)) -> f_ignore f = false).
(** An index name (a trigger name) of a schema always means the same table. *)
Definition names_agree (got want : metadata) : Prop :=
  (forall s t t' x, lists got (IIndex s t x) \/ lists want (IIndex s t x) ->
                    lists got (IIndex s t' x) \/ lists want (IIndex s t' x) -> t = t') /\
  (forall s t t' g, lists got (ITrigger s t g) \/ lists want (ITrigger s t g) ->
                    lists got (ITrigger s t' g) \/ lists want (ITrigger s t' g) -> t = t').
(** No view has indexes or triggers of its own. *)
Definition plain_views (db : metadata) : Prop :=
  forall sc v, In sc (objects (d_schemas db)) -> In v (objects (s_views sc)) -> v_indexes v = [] /\ v_triggers v = [].
(** What Migrate takes care of: not the constraints and functions of SQLite,
    not the nameless schema. *)
Definition in_scope (d : dialect) (i : item) : Prop :=
  match i with
  | ISchema s => s <> []
  | IConstraint _ _ _ | IFunction _ _ => d <> DSQLite
  | _ => True
  end.
(** All the conditions together. *)
Definition comparable (d : dialect) (got want : metadata) : Prop :=
  catalog d (d_current got) got /\ catalog d (d_current got) want /\
  extensions_apart got (d_extensions want) /\ extensions_apart want (d_extensions got) /\
  nothing_ignored got /\ names_agree got want /\ plain_views want /\
  (forall sc, In sc (objects (d_schemas want)) ->
     NoDup (map f_name (filter (fun f => negb (f_ignore f)) (fobjects (s_functions sc))))) /\
  (d = DSQLite -> forall sc v, In sc (objects (d_schemas got)) -> In v (objects (s_views sc)) -> v_materialized v = false).
(** Commands that touch extensions only. *)
Definition is_extension_command (c : command) : Prop :=
  match c with KCreateExtension _ | KDropExtension _ => True | _ => False end.
