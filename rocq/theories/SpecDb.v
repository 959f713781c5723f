(** * SpecDb: the catalog that the rows of an introspected database describe (C56) *)
From Verif Require Import GoBase QuoteModel CacheModel UpsertModel DdlModel MigrateModel SpecLoad SpecMigrate.

(** Each key once, where it is first seen. *)
Fixpoint first_seen (seen l : list bytes) : list bytes :=
  match l with
  | [] => []
  | k :: l' => if existsb (beqb k) seen then first_seen seen l' else k :: first_seen (seen ++ [k]) l'
  end.

(** What the introspector returned: lists of rows. *)
Record rows := mk_rows {
  r_tables : list table; r_views : list view; r_columns : list column; r_constraints : list constraint;
  r_indexes : list index; r_functions : list func; r_triggers : list trigger }.

(** The rows of the table (or view) [t] of the schema [s]. *)
Definition those_of {R} (schema_of table_of : R -> bytes) (s t : bytes) (l : list R) : list R :=
  filter (fun r => beqb (schema_of r) s && beqb (table_of r) t) l.
Definition in_schema_of {R} (schema_of : R -> bytes) (s : bytes) (l : list R) : list R := filter (fun r => beqb (schema_of r) s) l.

(** A table has its columns (marked as keys by its constraints), constraints,
    indexes and triggers, each in the order of the rows. *)
Definition table_as_read (R : rows) (row t : table) : Prop :=
  let s := t_schema row in let n := t_name row in
  t_schema t = s /\ t_name t = n /\ t_virtual t = t_virtual row /\ t_virtual_args t = t_virtual_args row /\ t_ignore t = false /\
  objects (t_columns t) = map (mark (those_of c_schema c_table s n (r_constraints R))) (those_of l_schema l_table s n (r_columns R)) /\
  objects (t_constraints t) = those_of c_schema c_table s n (r_constraints R) /\
  objects (t_indexes t) = those_of x_schema x_table s n (r_indexes R) /\
  objects (t_triggers t) = those_of g_schema g_table s n (r_triggers R).
(** A view has its indexes, unless a table has its name, and its triggers. *)
Definition view_as_read (R : rows) (row v : view) : Prop :=
  let s := v_schema row in let n := v_name row in
  v_schema v = s /\ v_name v = n /\ v_materialized v = v_materialized row /\ v_sql v = v_sql row /\ v_ignore v = false /\
  v_indexes v = (if existsb (fun t => beqb (t_schema t) s && beqb (t_name t) n) (r_tables R) then []
                 else those_of x_schema x_table s n (r_indexes R)) /\
  v_triggers v = those_of g_schema g_table s n (r_triggers R).
Definition schema_as_read (R : rows) (sc : schema) : Prop :=
  s_ignore sc = false /\
  Forall2 (table_as_read R) (in_schema_of t_schema (s_name sc) (r_tables R)) (objects (s_tables sc)) /\
  Forall2 (view_as_read R) (in_schema_of v_schema (s_name sc) (r_views R)) (objects (s_views sc)) /\
  fobjects (s_functions sc) = in_schema_of f_schema (s_name sc) (r_functions R).
(** The schemas, in the order in which the tables, views and functions name them. *)
Definition catalog_as_read (R : rows) (scs : list schema) : Prop :=
  map s_name scs = first_seen [] (map t_schema (r_tables R) ++ map v_schema (r_views R) ++ map f_schema (r_functions R)) /\
  Forall (schema_as_read R) scs.

(** What a database returns: bare tables and views, no name twice, no empty
    name, nothing ignored. *)
Definition bare_table (t : table) : Prop :=
  t_name t <> [] /\ t = mk_table (t_schema t) (t_name t) cached_new cached_new cached_new cached_new (t_virtual t) (t_virtual_args t) false.
Definition bare_view (v : view) : Prop :=
  v_name v <> [] /\ v = mk_view (v_schema v) (v_name v) (v_materialized v) [] [] (v_sql v) false.
Definition well_formed (R : rows) : Prop :=
  NoDup (map (fun t => (t_schema t, t_name t)) (r_tables R)) /\ Forall bare_table (r_tables R) /\
  NoDup (map (fun v => (v_schema v, v_name v)) (r_views R)) /\ Forall bare_view (r_views R) /\
  NoDup (map (fun l => (l_schema l, l_table l, l_name l)) (r_columns R)) /\
  Forall (fun l => l_name l <> [] /\ l_ignore l = false) (r_columns R).
(** The same for constraints, indexes, triggers and functions (which may be
    overloaded).  SQLite does not tell the names of constraints. *)
Definition well_named (d : dialect) (R : rows) : Prop :=
  (d <> DSQLite -> NoDup (map (fun c => (c_schema c, c_table c, c_name c)) (r_constraints R)) /\ Forall (fun c => c_name c <> []) (r_constraints R)) /\
  Forall (fun c => c_ignore c = false) (r_constraints R) /\
  NoDup (map (fun x => (x_schema x, x_table x, x_name x)) (r_indexes R)) /\ Forall (fun x => x_name x <> [] /\ x_ignore x = false) (r_indexes R) /\
  NoDup (map (fun g => (g_schema g, g_table g, g_name g)) (r_triggers R)) /\ Forall (fun g => g_name g <> [] /\ g_ignore g = false) (r_triggers R) /\
  Forall (fun f => f_name f <> [] /\ f_ignore f = false) (r_functions R).

(** The objects that the rows tell of. *)
Definition told (R : rows) (i : item) : Prop :=
  let is_table s t := exists r, In r (r_tables R) /\ t_schema r = s /\ t_name r = t in
  match i with
  | ISchema s => (exists r, In r (r_tables R) /\ t_schema r = s) \/ (exists r, In r (r_views R) /\ v_schema r = s) \/
                 (exists r, In r (r_functions R) /\ f_schema r = s)
  | ITable s t => is_table s t
  | IColumn s t n => is_table s t /\ exists r, In r (r_columns R) /\ l_schema r = s /\ l_table r = t /\ l_name r = n
  | IConstraint s t n => is_table s t /\ exists r, In r (r_constraints R) /\ c_schema r = s /\ c_table r = t /\ c_name r = n
  | IIndex s t n => is_table s t /\ exists r, In r (r_indexes R) /\ x_schema r = s /\ x_table r = t /\ x_name r = n
  | ITrigger s t n => is_table s t /\ exists r, In r (r_triggers R) /\ g_schema r = s /\ g_table r = t /\ g_name r = n
  | IView s v => exists r, In r (r_views R) /\ v_schema r = s /\ v_name r = v
  | IFunction s f => exists r, In r (r_functions R) /\ f_schema r = s /\ f_name r = f
  end.

(** ** Reading Go values (WithTables, WithDDLViews, WithFunctions) *)
(** What the options declare, in their order. *)
Inductive declared := DTable (t : table) | DView (v : view) | DFunction (f : func).
Definition d_schema (x : declared) : bytes :=
  match x with DTable t => t_schema t | DView v => v_schema v | DFunction f => f_schema f end.
Definition tables_in (s : bytes) (xs : list declared) : list table :=
  flat_map (fun x => match x with DTable t => if beqb (t_schema t) s then [t] else [] | _ => [] end) xs.
Definition views_in (s : bytes) (xs : list declared) : list view :=
  flat_map (fun x => match x with DView v => if beqb (v_schema v) s then [v] else [] | _ => [] end) xs.
Definition functions_in (s : bytes) (xs : list declared) : list func :=
  flat_map (fun x => match x with DFunction f => if beqb (f_schema f) s then [f] else [] | _ => [] end) xs.
(** Every schema named has the tables, views and functions declared in it, in
    their order; the schemas are in the order in which they are first named. *)
Definition as_declared (xs : list declared) (scs : list schema) : Prop :=
  map s_name scs = first_seen [] (map d_schema xs) /\
  forall sc, In sc scs -> s_ignore sc = false /\ objects (s_tables sc) = tables_in (s_name sc) xs /\
    objects (s_views sc) = views_in (s_name sc) xs /\ fobjects (s_functions sc) = functions_in (s_name sc) xs.
