(** * SpecAuto: what AutoMigrate is given and what is wanted of it (C61)

    The objects of a database are those of SpecMigrate ([item]); what the
    database reports is [told] (SpecDb); what a struct declares is [declares]
    (SpecDeclare). *)
From Verif Require Import GoBase QuoteModel UpsertModel CacheModel DdlModel MigrateModel LoadModel SpecT SpecMigrate SpecDb DbModel.

(** No Config function of a DDL method brings back what was ignored. *)
Definition constraint_keeps (c : constraint_call) : Prop :=
  match c with CAttr _ (AConfig f) => forall k, c_ignore k = true -> c_ignore (f k) = true | _ => True end.
Definition index_keeps (c : index_call) : Prop :=
  match c with IAttr _ (IConfig f) => forall x, x_ignore x = true -> x_ignore (f x) = true | _ => True end.
Definition call_keeps (call : t_call) : Prop :=
  match call with
  | TConstraintCall c => constraint_keeps c
  | TIndexCall c => index_keeps c
  | _ => keeps_ignored call
  end.
(** The options: tables (with such DDL methods), views, extensions. *)
Definition struct_keeps (t : option table_struct) : Prop :=
  match t with Some t => Forall call_keeps (ts_ddl t) | None => True end.
Definition only_structs (o : db_option) : Prop :=
  match o with OTables l => Forall struct_keeps l | OViews _ | OExtensions _ => True | OFunctions _ | ODb _ => False end.
(** Triggers name the schema of their table; views have neither indexes nor
    triggers.  A schema has a name, unless the current one has none either. *)
Definition migratable (current : bytes) (x : declared) : Prop :=
  (d_schema x <> [] \/ current = []) /\
  match x with
  | DTable t => forall g, In g (objects (t_triggers t)) -> g_schema g = t_schema t
  | DView v => v_indexes v = [] /\ v_triggers v = []
  | DFunction _ => True
  end.

(** What the declarations want. *)
Definition wanted (xs : list declared) (i : item) : Prop :=
  match i with
  | ISchema s => exists x, In x xs /\ d_schema x = s
  | IView s n => exists v, In (DView v) xs /\ v_schema v = s /\ v_name v = n
  | IFunction s n => exists f, In (DFunction f) xs /\ f_schema f = s /\ f_name f = n
  | _ => exists t, In (DTable t) xs /\ t_ignore t = false /\ table_has (t_schema t) t i
  end.
(** An index (trigger) name of a schema means the same table everywhere. *)
Definition same_tables (R : rows) (xs : list declared) : Prop :=
  (forall s t t' x, told R (IIndex s t x) \/ wanted xs (IIndex s t x) -> told R (IIndex s t' x) \/ wanted xs (IIndex s t' x) -> t = t') /\
  (forall s t t' g, told R (ITrigger s t g) \/ wanted xs (ITrigger s t g) -> told R (ITrigger s t' g) \/ wanted xs (ITrigger s t' g) -> t = t').
