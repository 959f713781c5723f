(** * SpecDeclare: what the options of NewDatabaseMetadata declare (C56)

    Reading one struct is the subject of C52-C55 (tables), C57 (views) and
    C44 (functions). *)
From Verif Require Import GoBase QuoteModel CacheModel TokenModel DdlModel LoadModel TriggerModel ViewModel DbModel SpecDb.

(** One table, view or function after the other. *)
Inductive db_item := ITb (t : option table_struct) | IVw (v : option view_struct) | IFn (f : func).
(** The items of an option, the extensions after it. *)
Definition items_of (o : db_option) : list db_item :=
  match o with OTables l => map ITb l | OViews l => map IVw l | OFunctions l => map IFn l | OExtensions _ | ODb _ => [] end.
Definition extensions_after (e : list bytes) (o : db_option) : list bytes := match o with OExtensions l => l | _ => e end.
Definition no_db (o : db_option) : Prop := match o with ODb _ => False | _ => True end.
(** What an item declares. *)
Inductive declares (numeric : bytes -> bool) (d : dialect) : db_item -> declared -> Prop :=
| declares_table t t' : load_table numeric d (ts_schema t) (ts_name t) (ts_fields t) (ts_ddl t) (empty_table (ts_schema t) (ts_name t)) = LOk t' ->
    declares numeric d (ITb (Some t)) (DTable t')
| declares_view v v' : load_view d (vw_schema v) (vw_name v) (vw_fields v) (vw_ddl v) = LOk v' -> declares numeric d (IVw (Some v)) (DView v')
| declares_function f f' r : function_info (S (length (f_sql f))) d f [] = LOk (f', r) -> f_name f' <> [] -> declares numeric d (IFn f) (DFunction f').
(** The kind (table or not), schema and name. *)
Definition item_key (i : db_item) : list (bool * bytes * bytes) :=
  match i with
  | ITb (Some t) => [(true, ts_schema t, ts_name t)]
  | IVw (Some v) => [(false, vw_schema v, vw_name v)]
  | _ => []
  end.
