(** * SpecColumn: definitions carried by a migration, and changed columns (C46, C47) *)
From Verif Require Import GoBase QuoteModel CacheModel UpsertModel DdlModel MigrateModel.

(** [tb] is a table, not ignored, of the schema named [s] of the catalog. *)
Definition has_table (db : metadata) (s : bytes) (tb : table) : Prop :=
  exists sc, In sc (objects (d_schemas db)) /\ s_ignore sc = false /\ s_name sc = s /\
             In tb (objects (s_tables sc)) /\ t_ignore tb = false.
Definition has_view (db : metadata) (v : view) : Prop :=
  exists sc, In sc (objects (d_schemas db)) /\ s_ignore sc = false /\ In v (objects (s_views sc)) /\ v_ignore v = false.
Definition has_function_def (db : metadata) (f : func) : Prop :=
  exists sc, In sc (objects (d_schemas db)) /\ s_ignore sc = false /\ In f (fobjects (s_functions sc)) /\ f_ignore f = false.
Definition table_column (tb : table) (l : column) : Prop := In l (objects (t_columns tb)) /\ l_ignore l = false.
Definition table_constraint (tb : table) (c : constraint) : Prop := In c (objects (t_constraints tb)) /\ c_ignore c = false.
Definition table_index (tb : table) (x : index) : Prop := In x (objects (t_indexes tb)) /\ x_ignore x = false.
Definition table_trigger (tb : table) (g : trigger) : Prop := In g (objects (t_triggers tb)) /\ g_ignore g = false.

(** Every definition in a create command is one of the wanted catalog.  Foreign
    keys come separately. *)
Definition from_catalog (want : metadata) (c : command) : Prop :=
  match c with
  | KCreateExtension c => In (ce_extension c) (d_extensions want)
  | KCreateTable c => exists s, has_table want s (ct_table c) /\
      forall x, In x (ct_indexes c) -> table_index (ct_table c) (ci_index x)
  | KAlterTable a | KAddForeignKey a =>
      exists s tb, has_table want s tb /\ t_schema tb = a_schema a /\ t_name tb = a_table a /\
        (forall l, In l (a_add_columns a) -> table_column tb (al_column l)) /\
        (forall k, In k (a_add_constraints a) -> table_constraint tb (at_constraint k) /\
           (c_type (at_constraint k) = B "FOREIGN KEY" <-> exists a', c = KAddForeignKey a')) /\
        (forall x, In x (a_create_indexes a) -> table_index tb (ci_index x))
  | KCreateIndex c => (exists s tb, has_table want s tb /\ table_index tb (ci_index c)) \/
                      (exists v, has_view want v /\ v_materialized v = true /\ In (ci_index c) (v_indexes v))
  | KCreateTrigger c => (exists s tb, has_table want s tb /\ table_trigger tb (cg_trigger c)) \/
                        (exists v, has_view want v /\ v_materialized v = true /\ In (cg_trigger c) (v_triggers v))
  | KCreateView c => has_view want (cv_view c)
  | KCreateFunction c => has_function_def want (cf_function c)
  | KCreateSchema _ => True                                 (* has only a name: C32 *)
  | _ => True
  end.

(** ** Changed columns *)
(** The same letter, in upper or lower case. *)
Definition same_letter (x y : ascii) : Prop :=
  x = y \/ (65 <= ord x <= 90 /\ ord y = ord x + 32)%N \/ (65 <= ord y <= 90 /\ ord x = ord y + 32)%N.
Definition same_type (a b : bytes) : Prop := Forall2 same_letter a b.
Definition differs (d : dialect) (k l : column) : Prop :=
  ~ same_type (l_type k) (l_type l) \/ l_not_null k <> l_not_null l \/
  (l_default k = [] <-> l_default l <> []) \/
  (d = DPostgres /\ (l_identity k = [] <-> l_identity l <> [])).
Definition has_column (db : metadata) (s t : bytes) (l : column) : Prop :=
  exists tb, has_table db s tb /\ t_name tb = t /\ table_column tb l.

(** What ALTER COLUMN does to a column: MySQL's MODIFY COLUMN replaces the
    definition; Postgres' actions change the named attributes. *)
Definition effect (d : dialect) (a : alter_column) (k : column) : column :=
  let c := ac_column a in
  let pick (x y : bytes) := match x with [] => y | _ => x end in
  match d with
  | DPostgres =>
    mk_column (l_schema k) (l_table k) (l_name k) (pick (l_type c) (l_type k))
      (if ac_drop_identity a then [] else pick (l_identity c) (l_identity k))
      (l_autoincrement k)
      (if ac_drop_not_null a then false else l_not_null c || l_not_null k)
      (l_unique k) (l_primary_key k) (l_on_update k) (l_generated k) (l_stored k) (l_collation k)
      (if ac_drop_default a then [] else pick (l_default c) (l_default k)) (l_ignore k)
  | _ => c
  end.
(** [a] turns the existing column [k] into the wanted [l]: the attributes that
    differ become the wanted ones, the others stay. *)
Definition alteration (d : dialect) (k l : column) (a : alter_column) : Prop :=
  let e := effect d a k in
  match d with
  | DMySQL => e = l
  | DPostgres =>
    (same_type (l_type k) (l_type l) -> l_type e = l_type k) /\
    (~ same_type (l_type k) (l_type l) -> l_type l <> [] -> l_type e = l_type l) /\
    l_not_null e = l_not_null l /\
    ((l_default k = [] <-> l_default l <> []) -> l_default e = l_default l) /\
    (~ (l_default k = [] <-> l_default l <> []) -> l_default e = l_default k) /\
    ((l_identity k = [] <-> l_identity l <> []) -> l_identity e = l_identity l) /\
    (~ (l_identity k = [] <-> l_identity l <> []) -> l_identity e = l_identity k)
  | _ => True
  end.
