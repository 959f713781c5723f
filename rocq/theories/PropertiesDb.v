(** * PropertiesDb: NewDatabaseMetadata (C56) *)
From Verif Require Import GoBase GoBaseFacts QuoteModel BuildModel CacheModel SpecCache UpsertModel TokenModel DdlModel MigrateModel SpecMigrate SpecExec MigrateRun MigrateCheck PropertiesMigrate
  LoadModel SpecLoad TriggerModel ViewModel DbModel SpecDb SpecDeclare DbPf DbRows DbRead DbCatalog DbLoad.

(** ** WithDB *)
(** What the database answers when every query succeeds. *)
Definition answers_with (current : bytes) (extensions : list bytes) (R : rows) (an : answers) : Prop :=
  an_alive an = true /\ an_version an = Some tt /\ an_database an = Some tt /\ an_current an = Some current /\
  an_extensions an = Some extensions /\ an_tables an = Some (r_tables R) /\ an_views an = Some (r_views R) /\
  an_columns an = Some (r_columns R) /\ an_constraints an = Some (r_constraints R) /\ an_indexes an = Some (r_indexes R) /\
  an_functions an = Some (r_functions R) /\ an_triggers an = Some (r_triggers R).
(** Functions and extensions are asked for in Postgres only. *)
Definition asked (d : dialect) (R : rows) : rows :=
  mk_rows (r_tables R) (r_views R) (r_columns R) (r_constraints R) (r_indexes R) (if is_postgres d then r_functions R else []) (r_triggers R).
Definition introspectable (d : dialect) : Prop := d = DSQLite \/ d = DPostgres \/ d = DMySQL.

Lemma with_db_result an b b' : with_db an b = LOk b' ->
  let d := dialect_of (b_dialect b) in
  introspectable d /\
  exists current extensions R, an_current an = Some current /\ (if is_postgres d then an_extensions an else Some (b_extensions b)) = Some extensions /\
    an_tables an = Some (r_tables R) /\ an_views an = Some (r_views R) /\
    an_columns an = Some (r_columns R) /\ an_constraints an = Some (r_constraints R) /\ an_indexes an = Some (r_indexes R) /\
    (if is_postgres d then an_functions an else Some []) = Some (r_functions R) /\ an_triggers an = Some (r_triggers R) /\
    an_alive an = true /\ an_version an = Some tt /\ an_database an = Some tt /\
    b' = mk_dbm (b_dialect b) current extensions (b_ext_cache b) (all_rows R (mk_cached [] (positions (b_schemas b)))).
Proof.
  intros H d. unfold with_db in H. fold d in H. cbv zeta in H. destruct (an_alive an); [|discriminate]. cbn [negb orb] in H.
  destruct (is_sqlite d || is_postgres d || is_mysql d) eqn:D; [|discriminate]. cbn [negb] in H. split; [unfold introspectable; destruct d; auto; discriminate|]. unfold answer in H.
  destruct (an_version an) as [[]|]; [|discriminate]. destruct (an_database an) as [[]|]; [|discriminate]. destruct (an_current an) as [cu|]; [|discriminate].
  destruct (if is_postgres d then an_extensions an else _) as [ex|]; [|discriminate]. destruct (an_tables an) as [ts|]; [|discriminate]. destruct (an_views an) as [vs|]; [|discriminate].
  destruct (an_columns an) as [ls|]; [|discriminate]. destruct (an_constraints an) as [ks|]; [|discriminate]. destruct (an_indexes an) as [xs|]; [|discriminate].
  destruct (if is_postgres d then an_functions an else _) as [fs|]; [|discriminate]. destruct (an_triggers an) as [gs|]; [|discriminate].
  injection H as <-. exists cu, ex, (mk_rows ts vs ls ks xs fs gs). repeat split.
Qed.
Lemma with_db_ok an b current extensions R : introspectable (dialect_of (b_dialect b)) -> answers_with current extensions R an ->
  with_db an b = LOk (mk_dbm (b_dialect b) current (if is_postgres (dialect_of (b_dialect b)) then extensions else b_extensions b) (b_ext_cache b)
    (all_rows (asked (dialect_of (b_dialect b)) R) (mk_cached [] (positions (b_schemas b))))).
Proof.
  intros D (A1 & A2 & A3 & A4 & A5 & A6 & A7 & A8 & A9 & A10 & A11 & A12). unfold with_db. set (d := dialect_of (b_dialect b)) in *.
  rewrite A1, A2, A3, A4, A5, A6, A7, A8, A9, A10, A11, A12. unfold answer. destruct D as [E|[E|E]]; rewrite E; reflexivity.
Qed.

(** It succeeds iff the dialect is one it knows and no query fails. *)
Theorem with_db_succeeds : forall an b, let d := dialect_of (b_dialect b) in
  (exists b', with_db an b = LOk b') <->
  introspectable d /\ an_alive an = true /\ an_version an <> None /\ an_database an <> None /\ an_current an <> None /\
  (d = DPostgres -> an_extensions an <> None) /\ an_tables an <> None /\ an_views an <> None /\ an_columns an <> None /\
  an_constraints an <> None /\ an_indexes an <> None /\ (d = DPostgres -> an_functions an <> None) /\ an_triggers an <> None.
Proof.
  intros an b d. split.
  - intros (b' & H). destruct (with_db_result an b b' H) as (I & cu & ex & R & Q1 & Q2 & Q3 & Q4 & Q5 & Q6 & Q7 & Q8 & Q9 & Q10 & Q11 & Q12 & _). fold d in I, Q2, Q8.
    rewrite Q1, Q3, Q4, Q5, Q6, Q7, Q9, Q10, Q11, Q12. repeat split; auto; try congruence; intros E; rewrite E in *; cbn in *; congruence.
  - intros (D & A1 & A2 & A3 & A4 & A5 & A6 & A7 & A8 & A9 & A10 & A11 & A12). unfold with_db. fold d. rewrite A1. unfold answer.
    destruct (an_version an); [|congruence]. destruct (an_database an); [|congruence]. destruct (an_current an); [|congruence]. destruct (an_tables an); [|congruence]. destruct (an_views an); [|congruence].
    destruct (an_columns an); [|congruence]. destruct (an_constraints an); [|congruence]. destruct (an_indexes an); [|congruence]. destruct (an_triggers an); [|congruence].
    destruct D as [E|[E|E]]; rewrite E in *; cbn [is_sqlite is_postgres is_mysql orb negb].
    + eauto.
    + destruct (an_extensions an); [|now destruct A5]. destruct (an_functions an); [|now destruct A11]. eauto.
    + eauto.
Qed.
Print Assumptions with_db_succeeds.

(** The metadata is the catalog the rows describe. *)
Theorem with_db_reads : forall current extensions R an b b',
  answers_with current extensions R an -> with_db an b = LOk b' ->
  let d := dialect_of (b_dialect b) in let db := plain_metadata b' in
  well_formed (asked d R) ->
  catalog_as_read (asked d R) (objects (d_schemas db)) /\
  d_dialect db = b_dialect b /\ d_current db = current /\ (d = DPostgres -> d_extensions db = extensions).
Proof.
  intros current extensions R an b b' A H d db W. assert (D : introspectable d) by (destruct (with_db_result an b b' H) as (D & _); exact D).
  rewrite (with_db_ok an b current extensions R D A) in H. injection H as <-. fold d. split; [apply (rows_read _ _ W)|]. repeat split. intros E. unfold db. cbn. fold d. rewrite E. reflexivity.
Qed.
Print Assumptions with_db_reads.

(** Everything that Migrate asks of a catalog holds of it, and it lists what
    the rows tell of. *)
Theorem with_db_catalog : forall current extensions R an b b',
  answers_with current extensions R an -> with_db an b = LOk b' ->
  let d := dialect_of (b_dialect b) in let db := plain_metadata b' in
  well_formed (asked d R) -> well_named d (asked d R) ->
  (forall i, lists db i <-> told (asked d R) i) /\ nothing_ignored db /\
  (current = [] \/ ~ told (asked d R) (ISchema []) -> catalog d (d_current db) db).
Proof.
  intros current extensions R an b b' A H d db W V. destruct (with_db_reads current extensions R an b b' A H W) as (C & _ & Cu & _).
  split; [intros i; now apply (read_lists d)|]. split; [now apply (read_not_ignored d (asked d R))|]. intros E.
  assert (D : introspectable d) by (destruct (with_db_result an b b' H) as (D & _); exact D).
  rewrite (with_db_ok an b current extensions R D A) in H. injection H as <-. unfold db, plain_metadata. cbn [b_dialect b_current b_extensions b_ext_cache b_schemas d_current]. apply good_read_catalog; [exact W|exact V|].
  destruct E as [E|E]; [now left|right]. cbn [told] in E. fold d. repeat split; apply Forall_forall; intros x X Y; apply E; [left|right; left|right; right]; eauto.
Qed.
Print Assumptions with_db_catalog.

(** Nothing of what the metadata held before is left in its schemas: any two
    metadata of one dialect become the same. *)
Theorem with_db_forgets : forall an b1 b2 b1' b2', b_dialect b1 = b_dialect b2 ->
  with_db an b1 = LOk b1' -> with_db an b2 = LOk b2' ->
  objects (b_schemas b1') = objects (b_schemas b2') /\ b_current b1' = b_current b2'.
Proof.
  intros an b1 b2 b1' b2' E H1 H2. destruct (with_db_result an b1 b1' H1) as (I & cu & ex & R & Q1 & Q2 & Q3 & Q4 & Q5 & Q6 & Q7 & Q8 & Q9 & _ & _ & _ & ->).
  destruct (with_db_result an b2 b2' H2) as (_ & cu' & ex' & R' & Q1' & Q2' & Q3' & Q4' & Q5' & Q6' & Q7' & Q8' & Q9' & _ & _ & _ & ->). rewrite E in *. cbn [b_schemas b_current].
  assert (EC : cu = cu') by congruence. assert (ER : R = R'). { destruct R, R'. cbn in *. congruence. } subst. split; [|reflexivity].
  destruct (all_rows_spec R' (positions (b_schemas b1))) as (_ & ->). destruct (all_rows_spec R' (positions (b_schemas b2))) as (_ & ->). reflexivity.
Qed.
Print Assumptions with_db_forgets.

(** *** Migrating a database that was read *)
(** From the state the rows tell of, executing the migration leads to the
    wanted catalog (C45 without conditions on the catalog of the database other
    than those on its rows). *)
Theorem read_and_migrate : forall current extensions R an dialect b m want mg,
  let d := dialect_of dialect in
  answers_with current extensions R an -> with_db an (mk_dbm dialect [] [] [] cached_new) = LOk b ->
  well_formed (asked d R) -> well_named d (asked d R) -> current = [] \/ ~ told (asked d R) (ISchema []) ->
  (d = DSQLite -> forall v, In v (r_views R) -> v_materialized v = false) ->
  catalog d current want -> extensions_apart want extensions -> plain_views want -> names_agree (plain_metadata b) want ->
  (forall sc, In sc (objects (d_schemas want)) -> NoDup (map f_name (filter (fun f => negb (f_ignore f)) (fobjects (s_functions sc))))) ->
  migrate m (plain_metadata b) want = Ok mg -> dialect_of (m_dialect mg) = d ->
  create_missing m = true -> drop_extraneous m = true ->
  forall es, arranged es (m_cmds mg) -> forall i, in_scope d i -> (forall s, i <> ISchema s) ->
  after d current es (told (asked d R)) i <-> lists want i.
Proof.
  intros current extensions R an dialect b m want mg d A H W V Cu Mv Cw Xw Pv Na Nf Mg Dm CM DE es Ar i Sc Ns.
  destruct (with_db_catalog current extensions R an _ b A H W V) as (L & NI & C). specialize (C Cu).
  destruct (with_db_reads current extensions R an _ b A H W) as (Ca & _ & Ec & Ee). cbn [b_dialect] in *. fold d in L, Ca, Ee.
  assert (D : introspectable d) by (destruct (with_db_result an _ b H) as (D & _); exact D).
  assert (Ex : d_ext_cache (plain_metadata b) = []). { rewrite (with_db_ok an (mk_dbm dialect [] [] [] cached_new) current extensions R D A) in H. injection H as <-. reflexivity. }
  assert (El : d <> DPostgres -> d_extensions (plain_metadata b) = []).
  { intros N. rewrite (with_db_ok an (mk_dbm dialect [] [] [] cached_new) current extensions R D A) in H. injection H as <-. cbn. fold d. destruct d; cbn; congruence. }
  assert (Cp : comparable (dialect_of (m_dialect mg)) (plain_metadata b) want).
  { rewrite Dm. split; [exact C|]. rewrite Ec. split; [exact Cw|]. split; [now left|]. split.
    { destruct Xw as [X|X]; [now left|]. right. intros e sc I. assert (Pd : d = DPostgres \/ d <> DPostgres) by (destruct d; auto; right; congruence).
      destruct Pd as [Pd|Pd]; [rewrite (Ee Pd) in I; now apply X|rewrite (El Pd) in I; destruct I]. }
    split; [exact NI|]. split; [exact Na|]. split; [exact Pv|]. split; [exact Nf|].
    intros Sq sc v Is Iv. destruct Ca as (_ & Ca). rewrite Forall_forall in Ca. destruct (Ca sc Is) as (_ & _ & F & _). destruct (forall2_in _ _ _ _ F Iv) as (r & Ir & T).
    destruct T as (_ & _ & -> & _). apply in_schema_key in Ir. apply (Mv Sq). apply Ir. }
  pose proof (migration_converges m (plain_metadata b) want mg Mg Cp CM DE es Ar i) as X. rewrite Dm, Ec in X. rewrite <- X by assumption.
  apply after_ext. intros j. now rewrite L.
Qed.
Print Assumptions read_and_migrate.
(** Migrating a database to itself: at most extensions are touched. *)
Theorem read_and_migrate_to_itself : forall current extensions R an dialect b m mg,
  let d := dialect_of dialect in
  answers_with current extensions R an -> with_db an (mk_dbm dialect [] [] [] cached_new) = LOk b ->
  well_formed (asked d R) -> well_named d (asked d R) -> current = [] \/ ~ told (asked d R) (ISchema []) ->
  migrate m (plain_metadata b) (plain_metadata b) = Ok mg ->
  forall c, In c (m_cmds mg) -> is_extension_command c.
Proof.
  intros current extensions R an dialect b m mg d A H W V Cu Mg.
  destruct (with_db_catalog current extensions R an _ b A H W V) as (_ & NI & C). specialize (C Cu).
  assert (D : introspectable d) by (destruct (with_db_result an _ b H) as (D & _); exact D).
  assert (Ex : d_ext_cache (plain_metadata b) = []). { rewrite (with_db_ok an (mk_dbm dialect [] [] [] cached_new) current extensions R D A) in H. injection H as <-. reflexivity. }
  assert (Dm : m_dialect mg = dialect).
  { destruct (with_db_reads current extensions R an _ b A H W) as (_ & Ed & _). cbn [b_dialect] in Ed. unfold migrate in Mg. rewrite Ed in Mg.
    destruct (is_empty dialect && is_empty dialect); [discriminate|]. destruct (_ && _ && _) in Mg; [discriminate|].
    destruct (if create_missing m || update_existing m then _ else _) in Mg; [|discriminate]. destruct (if drop_extraneous m then _ else _) in Mg; [|discriminate].
    injection Mg as <-. cbn [m_dialect]. now destruct (is_empty dialect). }
  rewrite <- Dm in *. apply (migrate_to_itself m (plain_metadata b) mg Mg C); [now left|auto].
Qed.
Print Assumptions read_and_migrate_to_itself.

(** ** WithTables, WithDDLViews, WithFunctions, WithExtensions *)
(** They succeed iff every struct and function declares something; then the
    metadata holds what they declare. *)
Theorem options_succeed : forall numeric dialect opts,
  Forall no_db opts -> NoDup (flat_map item_key (flat_map items_of opts)) ->
  (exists b, new_metadata numeric dialect opts = LOk b) <->
  (exists xs, Forall2 (declares numeric (dialect_of dialect)) (flat_map items_of opts) xs).
Proof.
  intros numeric dialect opts N D. unfold new_metadata. rewrite options_items by exact N. cbn [b_dialect b_current b_extensions b_ext_cache b_schemas].
  destruct (load_items numeric (dialect_of dialect) (flat_map items_of opts) [] cached_new) as (H1 & H2).
  - split; [apply tidy_empty|]. split; [reflexivity|intros s []].
  - exact D.
  - split.
    + intros (b & H). destruct (lfold _ _ _) as [ss| | |] eqn:E; try discriminate. now apply (H2 ss).
    + intros (xs & F). destruct (H1 xs F) as (ss & E & _). rewrite E. cbn [lbind]. eauto.
Qed.
Print Assumptions options_succeed.
Theorem options_read : forall numeric dialect opts b,
  Forall no_db opts -> NoDup (flat_map item_key (flat_map items_of opts)) ->
  new_metadata numeric dialect opts = LOk b ->
  let db := plain_metadata b in
  (exists xs, Forall2 (declares numeric (dialect_of dialect)) (flat_map items_of opts) xs /\ as_declared xs (objects (d_schemas db))) /\
  d_dialect db = dialect /\ d_current db = [] /\ d_extensions db = fold_left extensions_after opts [].
Proof.
  intros numeric dialect opts b N D H db. destruct (proj1 (options_succeed numeric dialect opts N D) (ex_intro _ b H)) as (xs & F).
  unfold new_metadata in H. rewrite options_items in H by exact N. cbn [b_dialect b_current b_extensions b_ext_cache b_schemas] in H.
  destruct (load_items numeric (dialect_of dialect) (flat_map items_of opts) [] cached_new) as (H1 & _).
  - split; [apply tidy_empty|]. split; [reflexivity|intros s []].
  - exact D.
  - destruct (H1 xs F) as (ss & E & (T & Nm & A)). rewrite E in H. cbn [lbind] in H. injection H as <-. split; [|repeat split]. exists xs. split; [exact F|]. cbn [app] in *.
    unfold db, plain_metadata, plain_cached. cbn [d_schemas objects b_schemas]. split; [rewrite map_map; exact Nm|].
    intros sc I. apply in_map_iff in I. destruct I as (s & <- & I). destruct (A s I) as (A1 & A2 & A3 & A4 & _). cbn [plain_schema s_ignore s_tables s_views s_functions s_name plain_cached objects]. auto.
Qed.
Print Assumptions options_read.
(** Several tables, views and functions of several schemas, interleaved. *)
Definition film_fields : list struct_field :=
  [SColumn (B "film_id") KNumber (B "primarykey"); SColumn (B "title") KString (B "notnull")].
Definition film (s n : bytes) : table_struct := mk_ts s n film_fields [].
Definition list_view (s n : bytes) : view_struct :=
  mk_vs s n [VFColumn (B "film_id"); VFColumn (B "title")]
    [VSetQuery (Some (Some (B "SELECT film_id, title FROM film"), Some [mk_fetch_field [] (B "film_id"); mk_fetch_field (B "title") []]))].
Definition a_function (s : bytes) : func := mk_func [] [] [] (B "CREATE FUNCTION " ++ s ++ B "f(a INT) RETURNS INT AS 'SELECT a'") false.
Definition ex_options : list db_option :=
  [OExtensions [B "uuid-ossp"]; OTables [Some (film [] (B "film")); Some (film (B "app") (B "film"))];
   OViews [Some (list_view (B "app") (B "film_list"))]; OFunctions [a_function []; a_function (B "x.")];
   OTables [Some (film [] (B "film_copy"))]; OExtensions [B "hstore"]].
Definition shape (db : metadata) : list (string * list string * list string * list string) :=
  map (fun s => (string_of_list_ascii (s_name s), map (fun t => string_of_list_ascii (t_name t)) (objects (s_tables s)),
                 map (fun v => string_of_list_ascii (v_name v)) (objects (s_views s)), map (fun f => string_of_list_ascii (f_name f)) (fobjects (s_functions s))))
    (objects (d_schemas db)).
Definition shape_of (r : lexres dbm) : option (list (string * list string * list string * list string)) :=
  match r with LOk b => Some (shape (plain_metadata b)) | _ => None end.
Definition no_numbers (s : bytes) : bool := false.
Example options_example :
  Forall no_db ex_options /\ NoDup (flat_map item_key (flat_map items_of ex_options)) /\
  shape_of (new_metadata no_numbers (B "postgres") ex_options)
  = Some [(""%string, ["film"; "film_copy"]%string, [], ["f"]%string); ("app"%string, ["film"]%string, ["film_list"]%string, []); ("x"%string, [], [], ["f"]%string)] /\
  fold_left extensions_after ex_options [] = [B "hstore"].
Proof.
  split; [repeat constructor|]. split; [|split; vm_compute; reflexivity]. vm_compute. repeat (constructor; [cbn [In]; intuition discriminate|]). constructor.
Qed.
(** A nil table, a table without a name or a malformed tag: an error. *)
Example options_example_errors :
  new_metadata no_numbers (B "postgres") [OTables [Some (film [] (B "film")); None]] = LErr /\
  new_metadata no_numbers (B "postgres") [OTables [Some (film [] [])]] = LErr /\
  new_metadata no_numbers (B "postgres") [OTables [Some (mk_ts [] (B "t") [SColumn (B "c") KNumber (B "nonsense")] [])]] = LErr.
Proof. repeat split; vm_compute; reflexivity. Qed.

(** *** A database *)
Definition bare_t (s n : bytes) : table := mk_table s n cached_new cached_new cached_new cached_new [] [] false.
Definition ex_rows : rows :=
  mk_rows [bare_t public (B "actor"); bare_t (B "app") (B "film"); bare_t public (B "film")]
    [mk_view public (B "film_list") true [] [] (B "SELECT 1") false]
    [ex_column public (B "actor") (B "id") (B "INT"); ex_column public (B "film") (B "id") (B "INT"); ex_column (B "app") (B "film") (B "id") (B "INT");
     ex_column public (B "actor") (B "name") (B "TEXT"); ex_column public (B "gone") (B "id") (B "INT")]
    [ex_constraint public (B "actor") (B "actor_pkey") PRIMARY_KEY [B "id"]; ex_constraint (B "app") (B "film") (B "film_key") UNIQUE [B "id"]]
    [ex_index public (B "film") (B "film_idx") [B "id"]; ex_index public (B "film_list") (B "list_idx") [B "id"]]
    [ex_func public (B "f"); ex_func (B "lib") (B "g"); ex_func public (B "f")]
    [ex_trigger public (B "actor") (B "actor_trg"); ex_trigger public (B "film_list") (B "list_trg")].
Definition ex_answers : answers :=
  mk_answers true (Some tt) (Some tt) (Some public) (Some [B "hstore@1.4"]) (Some (r_tables ex_rows)) (Some (r_views ex_rows)) (Some (r_columns ex_rows))
    (Some (r_constraints ex_rows)) (Some (r_indexes ex_rows)) (Some (r_functions ex_rows)) (Some (r_triggers ex_rows)).
Ltac nodup := vm_compute; repeat (constructor; [cbn [In]; intuition discriminate|]); constructor.
Example ex_rows_formed : answers_with public [B "hstore@1.4"] ex_rows ex_answers /\ well_formed (asked DPostgres ex_rows) /\ well_named DPostgres (asked DPostgres ex_rows) /\
  ~ told (asked DPostgres ex_rows) (ISchema []).
Proof.
  split; [repeat split|]. split; [|split].
  - split; [nodup|]. split; [repeat (constructor; [split; [discriminate|reflexivity]|]); constructor|]. split; [nodup|]. split; [repeat (constructor; [split; [discriminate|reflexivity]|]); constructor|].
    split; [nodup|]. repeat (constructor; [split; [discriminate|reflexivity]|]); constructor.
  - split; [intros _; split; [nodup|repeat (constructor; [discriminate|]); constructor]|]. split; [repeat (constructor; [reflexivity|]); constructor|]. split; [nodup|]. split; [repeat (constructor; [split; [discriminate|reflexivity]|]); constructor|].
    split; [nodup|]. split; [repeat (constructor; [split; [discriminate|reflexivity]|]); constructor|]. repeat (constructor; [split; [discriminate|reflexivity]|]); constructor.
  - intros [(r & I & E)|[(r & I & E)|(r & I & E)]]; cbn in I; repeat (destruct I as [<-|I]; [discriminate E|]); destruct I.
Qed.
Example with_db_example : shape_of (with_db ex_answers (mk_dbm (B "postgres") [] [] [] cached_new))
  = Some [("public"%string, ["actor"; "film"]%string, ["film_list"]%string, ["f"; "f"]%string); ("app"%string, ["film"]%string, [], []); ("lib"%string, [], [], ["g"]%string)].
Proof. vm_compute. reflexivity. Qed.
(** The same after tables were loaded: they are gone. *)
Example with_db_forgets_example :
  shape_of (new_metadata no_numbers (B "postgres") (ex_options ++ [ODb ex_answers])) = shape_of (new_metadata no_numbers (B "postgres") [ODb ex_answers]) /\
  shape_of (new_metadata no_numbers (B "sqlserver") [ODb ex_answers]) = None.
Proof. split; vm_compute; reflexivity. Qed.
Definition ex_read : dbm := match with_db ex_answers (mk_dbm (B "postgres") [] [] [] cached_new) with LOk b => b | _ => mk_dbm [] [] [] [] cached_new end.
(** The hypotheses of [read_and_migrate]. *)
Definition ex_wanted : metadata := ex_want (B "postgres").
Example read_and_migrate_example :
  with_db ex_answers (mk_dbm (B "postgres") [] [] [] cached_new) = LOk ex_read /\ catalog DPostgres public ex_wanted /\ extensions_apart ex_wanted [B "hstore@1.4"] /\ plain_views ex_wanted /\
  names_agree (plain_metadata ex_read) ex_wanted /\
  (forall sc, In sc (objects (d_schemas ex_wanted)) -> NoDup (map f_name (filter (fun f => negb (f_ignore f)) (fobjects (s_functions sc))))) /\
  exists mg, migrate all_modes (plain_metadata ex_read) ex_wanted = Ok mg /\ dialect_of (m_dialect mg) = DPostgres /\ length (m_cmds mg) = 19.
Proof.
  split; [vm_compute; reflexivity|]. split; [apply check_catalog_ok; vm_compute; reflexivity|]. split; [left; reflexivity|]. split; [apply check_plain_views_ok; vm_compute; reflexivity|].
  split; [apply check_names_agree_ok; vm_compute; reflexivity|]. split; [intros sc [<-|[<-|[]]]; apply nodupb_ok; vm_compute; reflexivity|].
  eexists. split; [vm_compute; reflexivity|]. split; vm_compute; reflexivity.
Qed.
(** SQLite tells no names of constraints: two constraints of one table. *)
Definition lite_rows : rows :=
  mk_rows [bare_t [] (B "film")] [mk_view [] (B "v") false [] [] (B "SELECT 1") false]
    [ex_column [] (B "film") (B "id") (B "INT"); ex_column [] (B "film") (B "title") (B "TEXT")]
    [ex_constraint [] (B "film") [] PRIMARY_KEY [B "id"]; ex_constraint [] (B "film") [] UNIQUE [B "title"]]
    [ex_index [] (B "film") (B "film_idx") [B "title"]] [] [ex_trigger [] (B "film") (B "film_trg")].
Definition lite_answers : answers :=
  mk_answers true (Some tt) (Some tt) (Some []) (Some []) (Some (r_tables lite_rows)) (Some (r_views lite_rows)) (Some (r_columns lite_rows))
    (Some (r_constraints lite_rows)) (Some (r_indexes lite_rows)) (Some []) (Some (r_triggers lite_rows)).
Definition lite_read : dbm := match with_db lite_answers (mk_dbm (B "sqlite") [] [] [] cached_new) with LOk b => b | _ => mk_dbm [] [] [] [] cached_new end.
Example lite_rows_formed : answers_with [] [] lite_rows lite_answers /\ well_formed (asked DSQLite lite_rows) /\ well_named DSQLite (asked DSQLite lite_rows) /\
  with_db lite_answers (mk_dbm (B "sqlite") [] [] [] cached_new) = LOk lite_read /\ texts DSQLite (migrate all_modes (plain_metadata lite_read) (plain_metadata lite_read)) = [].
Proof.
  split; [repeat split|]. split; [|split].
  - split; [nodup|]. split; [repeat (constructor; [split; [discriminate|reflexivity]|]); constructor|]. split; [nodup|]. split; [repeat (constructor; [split; [discriminate|reflexivity]|]); constructor|].
    split; [nodup|]. repeat (constructor; [split; [discriminate|reflexivity]|]); constructor.
  - split; [now intros []|]. split; [repeat (constructor; [reflexivity|]); constructor|]. split; [nodup|]. split; [repeat (constructor; [split; [discriminate|reflexivity]|]); constructor|].
    split; [nodup|]. split; [repeat (constructor; [split; [discriminate|reflexivity]|]); constructor|]. constructor.
  - split; vm_compute; reflexivity.
Qed.

(** ** Where the reading falls short *)
(** The extensions of a database that was read are not found: migrating it to
    itself creates, or drops, every extension. *)
Theorem extensions_not_found_refuted :
  texts DPostgres (migrate (mk_mode true false true false) (plain_metadata ex_read) (plain_metadata ex_read))
  = ["CREATE EXTENSION IF NOT EXISTS hstore WITH VERSION '1.4'"; "DROP EXTENSION IF EXISTS hstore"]%string.
Proof. vm_compute. reflexivity. Qed.
(** A function given by WithFunctions is not found either. *)
Theorem functions_not_found_refuted :
  match new_metadata no_numbers (B "postgres") [OFunctions [a_function []]] with
  | LOk b => texts DPostgres (migrate (mk_mode true false true false) (plain_metadata b) (plain_metadata b))
  | _ => []
  end = ["CREATE FUNCTION f(a INT) RETURNS INT AS 'SELECT a'"; "DROP FUNCTION IF EXISTS f(a INT) CASCADE"]%string.
Proof. vm_compute. reflexivity. Qed.
(** WithFunctions takes no function text outside Postgres. *)
Theorem functions_elsewhere_refuted : forall numeric dialect files fs, dialect_of dialect <> DPostgres ->
  files_to_functions (dialect_of dialect) files = LOk fs -> fs <> [] -> new_metadata numeric dialect [OFunctions fs] = LErr.
Proof.
  intros numeric dialect files fs N H E. assert (P : is_postgres (dialect_of dialect) = false) by (destruct (dialect_of dialect); auto; congruence).
  destruct files as [|[text|] files]; cbn [files_to_functions] in H; [congruence| |discriminate]. unfold function_info in H. rewrite P in H. cbn [negb] in H.
  destruct (files_to_functions _ files) as [l| | |]; try discriminate. injection H as <-.
  unfold new_metadata. cbn [lfold run_option b_dialect]. unfold load_function_option at 1, function_info. rewrite P. reflexivity.
Qed.
