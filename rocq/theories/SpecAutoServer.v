(** * SpecAutoServer: AutoMigrate on a database that carries out its statements (C85) *)
From Verif Require Import GoBase QuoteModel SpecLex SpecIdent SpecSql.
From Verif Require Import CacheModel UpsertModel DdlModel MigrateModel LoadModel DbModel SpecDdl SpecDrop SpecMigrate SpecColumn SpecDb SpecAuto SpecServer.

(** [i] is declared, and [v] is its definition. *)
Definition declared_definition (d : dialect) (xs : list declared) (i : item) (v : definition) : Prop :=
  let declares_table s t tb := In (DTable tb) xs /\ t_ignore tb = false /\ t_schema tb = s /\ t_name tb = t in
  match i with
  | ISchema _ => wanted xs i /\ v = FSchema
  | ITable _ _ => wanted xs i /\ v = FTable
  | IColumn s t n => exists tb l, declares_table s t tb /\ table_column tb l /\ l_name l = n /\ v = FColumn (said_column d l [] None)
  | IConstraint s t n => exists tb k, declares_table s t tb /\ table_constraint tb k /\ c_name k = n /\
      v = FConstraint (said_def d k) (said_deferrable k) false false
  | IIndex s t n => exists tb x, declares_table s t tb /\ table_index tb x /\ x_name x = n /\
      v = index_definition (said_index d (mk_create_index false false x false))
  | ITrigger s t n => exists tb g, declares_table s t tb /\ table_trigger tb g /\ g_name g = n /\ v = FTrigger (frag d (g_sql g))
  | IView s n => exists w, In (DView w) xs /\ v_schema w = s /\ v_name w = n /\ v = FView (v_materialized w) (frag d (v_sql w))
  | IFunction _ _ => False
  end.
(** The names and fragments that are declared can be written, and the dialect
    has what is declared ([present] are the objects there are). *)
Record declarations_fit (d : dialect) (current : bytes) (present : item -> Prop) (opts : list db_option) (xs : list declared) : Prop := {
  df_schemas : forall x, In x xs -> d_schema x <> [] -> plain_word d (d_schema x) /\ (d = DSQLite -> present (ISchema (d_schema x)));
  df_tables : forall tb, In (DTable tb) xs -> t_ignore tb = false ->
    wanted_table_ok d current (wanted xs) tb /\ table_expressible d present (t_schema tb) tb;
  df_views : forall v, In (DView v) xs -> good_name d (v_schema v) /\ good_name d (v_name v) /\ tokens d (v_sql v) <> None;
  df_extensions : forall l e, In (OExtensions l) opts -> In e l -> exists n v, extension_parts e n v /\ good_name DPostgres n /\ ~ has_inner_pair "'" v }.
(** The names in the rows can be written; no index is called CONCURRENTLY. *)
Record rows_fit (d : dialect) (extensions : list bytes) (R : rows) : Prop := {
  rf_tables : forall r, In r (r_tables R) -> good_name d (t_schema r) /\ is_not_word "CONCURRENTLY" (t_schema r) /\ good_name d (t_name r);
  rf_columns : forall r, In r (r_columns R) -> good_name d (l_name r);
  rf_constraints : forall r, In r (r_constraints R) -> good_name d (c_name r);
  rf_indexes : forall r, In r (r_indexes R) -> good_name d (x_name r) /\ is_not_word "CONCURRENTLY" (x_name r);
  rf_triggers : forall r, In r (r_triggers R) -> good_name d (g_name r);
  rf_views : forall r, In r (r_views R) -> good_name d (v_schema r) /\ good_name d (v_name r) /\ (v_materialized r = true -> d = DPostgres);
  rf_functions : forall r, In r (r_functions R) -> good_name d (f_schema r) /\ good_name d (f_name r) /\ plain_sql d no_stop (f_args r);
  rf_extensions : d = DPostgres -> forall e, In e extensions -> exists n v, extension_parts e n v /\ good_name DPostgres n }.
(** The database has the objects that the rows tell of. *)
Definition tells (d : dialect) (R : rows) (db : contents) : Prop := forall i, in_scope d i -> (has db i = true <-> told R i).
