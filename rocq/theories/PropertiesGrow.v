(** * Declaring more never loses anything: C89 *)
From Verif Require Import GoBase QuoteModel CacheModel UpsertModel DdlModel MigrateModel TokenModel LoadModel LoadFacts DbModel SpecDeclare SpecGrow LoadGrow.
From Verif Require Import SpecT SpecLoad LoadGood GrowExact.

(** LoadTable into a table that holds something already: every column, constraint,
    index and trigger stays, in its place and under its name; a column that neither
    the struct nor its DDL method mentions stays as it is, but for the marks of
    one-column keys; and every column of the struct is there. *)
Theorem loading_a_table_only_adds : forall (numeric : bytes -> bool) (d : dialect) (schema name : bytes) (fs : list struct_field) (ddl : list t_call) (t0 t : table),
  t_name t0 = name -> load_table numeric d schema name fs ddl t0 = LOk t ->
  table_grown fs ddl t0 t /\
  (t_ignore t = false -> forall n kind tag, In (SColumn n kind tag) fs -> In n (map l_name (objects (t_columns t)))).
Proof. intros numeric d schema name fs ddl t0 t N H. exact (load_table_kept numeric fs ddl d schema name t0 t H N). Qed.
Print Assumptions loading_a_table_only_adds.

(** WithTables, WithDDLViews, WithFunctions and WithExtensions on any metadata, be
    it read from a database: no schema, table, view or function goes away or moves;
    only the tables and views that the option declares again change, and a table
    changes as above. *)
Theorem options_only_add : forall (numeric : bytes -> bool) (b b' : dbm) (o : db_option),
  no_db o -> run_option numeric b o = LOk b' ->
  grown (schema_grown o) (objects (b_schemas b)) (objects (b_schemas b')).
Proof. intros numeric b b' o. apply run_option_grown. Qed.
Print Assumptions options_only_add.

(** Whatever options follow, and however often a table is declared: the metadata has
    every column declared for it, unless the table is to be ignored. *)
Theorem declared_columns_stay : forall (numeric : bytes -> bool) (dialect : bytes) (before after : list db_option) (l : list (option table_struct)) (b : dbm),
  Forall no_db after -> new_metadata numeric dialect (before ++ OTables l :: after) = LOk b ->
  forall t n kind tag, In (Some t) l -> In (SColumn n kind tag) (ts_fields t) ->
  has_column (objects (b_schemas b)) (ts_schema t) (ts_name t) n.
Proof.
  intros numeric dialect before after l b NA H t n kind tag I C. unfold new_metadata in H. revert H. generalize (mk_dbm dialect [] [] [] cached_new) as b0.
  induction before as [|o before IH]; intros b0 H; cbn [app lfold] in H; apply lbind_ok in H; destruct H as (b1 & E & H); [|exact (IH b1 H)].
  cbn [run_option] in E. apply lbind_ok in E. destruct E as (ss & E & K). injection K as <-.
  assert (T : has_column (objects (b_schemas (with_schemas ss b0))) (ts_schema t) (ts_name t) n) by (exact (tables_there numeric _ l l _ _ (incl_refl l) E t n kind tag I C)).
  revert T H. generalize (with_schemas ss b0) as b1. clear - NA. induction NA as [|o after No NA IH]; intros b1 T H; cbn [lfold] in H; [injection H as <-; exact T|].
  apply lbind_ok in H. destruct H as (b2 & E & H). apply (IH b2); [|exact H]. apply (has_column_grown o _ _ _ _ _ (run_option_grown numeric b1 o b2 No E) T).
Qed.
Print Assumptions declared_columns_stay.

(** Exactly which columns a second declaration adds: the struct's that the table does
    not have yet, in the order of the fields.  (The DDL method of the first does not
    take Ignore back, and no column that the second struct has is ignored.) *)
Theorem second_declaration_adds_the_missing_columns : forall (numeric : bytes -> bool) (d : dialect) (schema name : bytes)
    (fs1 fs2 : list struct_field) (ddl1 ddl2 : list t_call) (t1 t2 : table),
  load_table numeric d schema name fs1 ddl1 (empty_table schema name) = LOk t1 -> Forall keeps_ignored ddl1 ->
  let had := map l_name (objects (t_columns t1)) in let asked := flat_map field_columns fs2 in
  NoDup asked -> (forall l, In l (objects (t_columns t1)) -> In (l_name l) asked -> l_ignore l = false) ->
  load_table numeric d schema name fs2 ddl2 t1 = LOk t2 -> t_ignore t2 = false ->
  map l_name (objects (t_columns t2)) = had ++ filter (fun n => negb (existsb (beqb n) had)) asked.
Proof.
  intros numeric d schema name fs1 fs2 ddl1 ddl2 t1 t2 H1 K had asked ND A H2 Ig.
  refine (load_table_exact numeric d schema name fs2 ddl2 t1 t2 _ ND A H2 Ig).
  exact (load_table_sound_l numeric d schema name fs1 ddl1 (empty_table schema name) t1 (sound_new l_name l_ignore any) K H1).
Qed.
Print Assumptions second_declaration_adds_the_missing_columns.

(** *** Two structs of one table *)
Definition no_numbers (s : bytes) : bool := false.
Definition first_struct : table_struct :=
  mk_ts (B "app") (B "film") [SColumn (B "id") KNumber (B "primarykey"); SColumn (B "title") KString (B "notnull index")] [].
Definition second_struct : table_struct :=
  mk_ts (B "app") (B "film") [SColumn (B "year") KNumber (B "unique"); SColumn (B "id") KNumber (B "type=BIGINT")] [TColumn (B "title"); TColumnCall 0 (TCDefault (B "'x'"))].
Definition twice : list db_option := [OTables [Some first_struct]; OExtensions [B "hstore"]; OTables [Some second_struct]].
Definition columns_of (r : lexres dbm) : list (list (bytes * bytes * bytes * bool)) :=
  match r with
  | LOk b => flat_map (fun s => map (fun t => map (fun l => (l_name l, l_type l, l_default l, l_not_null l)) (objects (t_columns t))) (objects (ds_tables s))) (objects (b_schemas b))
  | _ => []
  end.
Example twice_declared :
  columns_of (new_metadata no_numbers (B "postgres") twice)
  = [[(B "id", B "BIGINT", [], false); (B "title", B "TEXT", B "'x'", true); (B "year", B "INT", [], false)]] /\
  Forall no_db [OExtensions [B "hstore"]; OTables [Some second_struct]].
Proof. split; [vm_compute; reflexivity|repeat constructor]. Qed.
(** What the second struct does to the table of the first. *)
Example second_grows :
  exists t0 t, load_table no_numbers DPostgres (B "app") (B "film") (ts_fields first_struct) [] (empty_table (B "app") (B "film")) = LOk t0 /\
    load_table no_numbers DPostgres (B "app") (B "film") (ts_fields second_struct) (ts_ddl second_struct) t0 = LOk t /\
    map l_name (objects (t_columns t0)) = [B "id"; B "title"] /\ map x_name (objects (t_indexes t)) = map x_name (objects (t_indexes t0)) /\
    length (objects (t_indexes t)) = 1 /\ map c_name (objects (t_constraints t)) = [B "film_id_pkey"; B "film_year_key"].
Proof. do 2 eexists. split; [vm_compute; reflexivity|]. split; [vm_compute; reflexivity|]. repeat split; vm_compute; reflexivity. Qed.
Definition first_table : table :=
  Eval vm_compute in match load_table no_numbers DPostgres (B "app") (B "film") (ts_fields first_struct) (ts_ddl first_struct) (empty_table (B "app") (B "film")) with
                     | LOk t => t | _ => empty_table [] [] end.
Example second_adds :
  Forall keeps_ignored (ts_ddl first_struct) /\ NoDup (flat_map field_columns (ts_fields second_struct)) /\
  load_table no_numbers DPostgres (B "app") (B "film") (ts_fields first_struct) (ts_ddl first_struct) (empty_table (B "app") (B "film")) = LOk first_table /\
  (forall l, In l (objects (t_columns first_table)) -> l_ignore l = false) /\
  match load_table no_numbers DPostgres (B "app") (B "film") (ts_fields second_struct) (ts_ddl second_struct) first_table with
  | LOk t2 => (t_ignore t2, map l_name (objects (t_columns t2)))
  | _ => (true, [])
  end = (false, [B "id"; B "title"; B "year"]).
Proof.
  split; [constructor|]. split; [|split; [vm_compute; reflexivity|split; [|vm_compute; reflexivity]]].
  - change (NoDup [B "year"; B "id"]). constructor; [intros [E|[]]; discriminate E|]. constructor; [intros []|constructor].
  - apply Forall_forall. unfold first_table. cbn [objects t_columns]. repeat (constructor; [reflexivity|]). constructor.
Qed.
(** Without that hypothesis: an ignored column is listed again. *)
Example ignored_is_added_again :
  let fs := [SColumn (B "id") KNumber []; SColumn (B "x") KNumber (B "ignore")] in
  match load_table no_numbers DPostgres [] (B "t") fs [] (empty_table [] (B "t")) with
  | LOk t1 => match load_table no_numbers DPostgres [] (B "t") fs [] t1 with
              | LOk t2 => map (fun l => (l_name l, l_ignore l)) (objects (t_columns t2))
              | _ => [] end
  | _ => [] end = [(B "id", false); (B "x", true); (B "x", true)].
Proof. vm_compute. reflexivity. Qed.
