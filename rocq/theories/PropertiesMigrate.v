(** * Statements: C30, C31, C32, C33, C45.  See SpecMigrate and SpecExec. *)
From Coq Require Import Lia.
From Verif Require Import GoBase GoBaseFacts QuoteModel EffectModel BuildModel CacheModel UpsertModel DdlModel MigrateModel
  SpecMigrate SpecExec MigrateFacts MigrateDb MigrateRun MigratePf MigrateExec MigrateCheck.

(** ** C31: nothing wanted is dropped *)
(** Whatever the catalogs: without DropExtraneous nothing is removed. *)
Theorem no_drops_without_drop_extraneous : forall m got want mg c i,
  migrate m got want = Ok mg -> drop_extraneous m = false -> In c (m_cmds mg) ->
  ~ removes (dialect_of (m_dialect mg)) (d_current got) c i.
Proof. intros m got want mg c i MG DE I R. destruct (removes_only_drops _ _ _ _ MG c i I R). congruence. Qed.
Print Assumptions no_drops_without_drop_extraneous.

Theorem drops_nothing_wanted : forall m got want mg,
  migrate m got want = Ok mg -> catalog (dialect_of (m_dialect mg)) (d_current got) got -> catalog (dialect_of (m_dialect mg)) (d_current got) want ->
  extensions_apart want (d_extensions got) -> nothing_ignored got -> names_agree got want ->
  forall c i, In c (m_cmds mg) -> removes (dialect_of (m_dialect mg)) (d_current got) c i -> ~ lists want i.
Proof. exact migration_drops_nothing_wanted. Qed.
Print Assumptions drops_nothing_wanted.
(** ... and with DropExtraneous everything else is (except schemas, which
    Migrate never drops, and what is out of scope for SQLite). *)
Theorem drops_everything_else : forall m got want mg,
  migrate m got want = Ok mg -> comparable (dialect_of (m_dialect mg)) got want -> drop_extraneous m = true ->
  forall i, in_scope (dialect_of (m_dialect mg)) i -> (forall s, i <> ISchema s) -> lists got i -> ~ lists want i ->
  exists c, In c (m_cmds mg) /\ removes (dialect_of (m_dialect mg)) (d_current got) c i.
Proof.
  intros m got want mg MG (CG & CW & XG & XW & NI & NA & PV & PF & SV) DE i SC NS G W.
  now apply (migration_drops_all_else m got want mg MG CG CW XW i SV).
Qed.
Print Assumptions drops_everything_else.

(** ** C32: everything missing is created exactly once *)
Theorem creates_what_is_missing : forall m got want mg,
  migrate m got want = Ok mg -> create_missing m = true ->
  catalog (dialect_of (m_dialect mg)) (d_current got) got -> catalog (dialect_of (m_dialect mg)) (d_current got) want ->
  extensions_apart got (d_extensions want) -> plain_views want ->
  forall i, in_scope (dialect_of (m_dialect mg)) i ->
  (exists c, In c (m_cmds mg) /\ adds (dialect_of (m_dialect mg)) (d_current got) c i) <-> lists want i /\ ~ lists got i.
Proof. exact migration_adds. Qed.
Print Assumptions creates_what_is_missing.
Theorem creates_once : forall m got want mg,
  migrate m got want = Ok mg -> create_missing m = true -> comparable (dialect_of (m_dialect mg)) got want ->
  forall i l1 c l2 c' l3, in_scope (dialect_of (m_dialect mg)) i -> m_cmds mg = l1 ++ c :: l2 ++ c' :: l3 ->
  adds (dialect_of (m_dialect mg)) (d_current got) c i -> ~ adds (dialect_of (m_dialect mg)) (d_current got) c' i.
Proof.
  intros m got want mg MG CM (CG & CW & XG & XW & NI & NA & PV & PF & SV) i l1 c l2 c' l3 SC E A A'.
  pose proof (migration_apart m got want mg MG CM CG CW PV PF) as F. rewrite E in F. clear E.
  induction l1 as [|x l1 IH].
  - cbn [app] in F. assert (H : Forall (apart (dialect_here mg) (d_current got) c) (l2 ++ c' :: l3)) by now inversion F.
    rewrite Forall_forall in H. apply (H c') with (i := i); auto. apply in_or_app. right. now left.
  - apply IH. now inversion F.
Qed.
Print Assumptions creates_once.

(** ** C30: migrating a catalog to itself *)
Theorem migrate_to_itself : forall m db mg,
  migrate m db db = Ok mg -> catalog (dialect_of (m_dialect mg)) (d_current db) db -> extensions_apart db (d_extensions db) ->
  (drop_extraneous m = true -> nothing_ignored db) ->
  forall c, In c (m_cmds mg) -> is_extension_command c.
Proof. exact migrate_self. Qed.
Print Assumptions migrate_to_itself.
(** No command at all if the extensions can be found. *)
Theorem migrate_to_itself_nothing : forall m db mg,
  migrate m db db = Ok mg -> catalog (dialect_of (m_dialect mg)) (d_current db) db ->
  (forall e, In e (d_extensions db) -> exists i, fst (ext_lookup e (ext_state_of db)) = Ok (Some i)) ->
  (drop_extraneous m = true -> nothing_ignored db) -> m_cmds mg = [].
Proof. exact migrate_self_empty. Qed.
Print Assumptions migrate_to_itself_nothing.

(** ** C45: after the migration the database is the wanted one *)
(** Executing all commands, in the order of ExecContext, on a database with
    exactly the objects of [got]. *)
Theorem migration_reaches : forall m got want mg,
  migrate m got want = Ok mg -> comparable (dialect_of (m_dialect mg)) got want ->
  create_missing m = true \/ update_existing m = false ->
  forall es, arranged es (m_cmds mg) ->
  forall i, in_scope (dialect_of (m_dialect mg)) i ->
  after (dialect_of (m_dialect mg)) (d_current got) es (lists got) i <->
  (lists got i \/ (create_missing m = true /\ lists want i)) /\
  (drop_extraneous m = false \/ lists want i \/ exists s, i = ISchema s).
Proof.
  intros m got want mg MG (CG & CW & XG & XW & NI & NA & PV & PF & SV) CU es AR i SC.
  rewrite (arranged_unique mg es AR).
  exact (migration_result m got want mg MG CG CW XG XW NI NA PV PF SV CU i SC).
Qed.
Print Assumptions migration_reaches.
(** In particular: with CreateMissing and DropExtraneous, the wanted catalog. *)
Theorem migration_converges : forall m got want mg,
  migrate m got want = Ok mg -> comparable (dialect_of (m_dialect mg)) got want ->
  create_missing m = true -> drop_extraneous m = true ->
  forall es, arranged es (m_cmds mg) ->
  forall i, in_scope (dialect_of (m_dialect mg)) i -> (forall s, i <> ISchema s) ->
  after (dialect_of (m_dialect mg)) (d_current got) es (lists got) i <-> lists want i.
Proof.
  intros m got want mg MG C CM DE es AR i SC NS.
  rewrite (migration_reaches m got want mg MG C (or_introl CM) es AR i SC).
  split; [|auto]. intros [_ [H|[H|[s H]]]]; [congruence|exact H|now apply NS in H].
Qed.
Print Assumptions migration_converges.
(** A second migration has nothing to do. *)
Theorem migrate_again_nothing : forall m got want mg,
  migrate m got want = Ok mg -> comparable (dialect_of (m_dialect mg)) got want -> update_existing m = false ->
  (forall i, in_scope (dialect_of (m_dialect mg)) i -> lists want i -> lists got i) ->
  (forall i, (forall s, i <> ISchema s) -> (dialect_of (m_dialect mg) = DSQLite -> forall s t k, i <> IConstraint s t k) ->
     lists got i -> lists want i) ->
  forall c, In c (m_cmds mg) -> is_extension_command c.
Proof.
  intros m got want mg MG (CG & CW & XG & XW & NI & NA & PV & PF & SV) UE LW LG.
  exact (migrate_same_lists m got want mg MG CG CW XG XW NI NA PV UE LW LG).
Qed.
Print Assumptions migrate_again_nothing.

(** ** C33: executing and writing *)
(** The commands that are not ignored are arranged by kind; the statements
    sent are those of a prefix of them.  The call returns without an error iff
    all were sent and accepted; otherwise it stopped at the first statement
    that was refused, or before the first command without SQL. *)
Theorem execution_order : forall (db : database) m sent st,
  exec_context db m = (sent, st) ->
  exists es k, arranged es (m_cmds m) /\ k <= length es /\
    let d := dialect_of (m_dialect m) in
    sent = map (text d) (firstn k es) /\
    (forall c, In c (firstn k es) -> writable d c) /\
    (forall j, S j < length sent -> accepted db sent j) /\
    match st with
    | SOk => k = length es /\ forall j, j < length sent -> accepted db sent j
    | _ => (st = SErr /\ 0 < k /\ ~ accepted db sent (length sent - 1)) \/
           ((forall j, j < length sent -> accepted db sent j) /\
            exists c, nth_error es k = Some c /\ snd (command_sql d c) = st)
    end.
Proof.
  intros db m sent st H. unfold exec_context in H. apply exec_loop_spec in H. destruct H as (k & H1 & H2 & H3 & H4 & H5).
  exists (exec_cmds m), k. split; [apply exec_arranged|]. split; [exact H1|]. cbv zeta.
  cbn [app length] in *. split; [exact H2|]. split; [exact H3|]. split; [intros j; apply H4; lia|].
  destruct st; (destruct H5 as [H5 H6]; split; [exact H5|intros j; apply H6; lia])
    || (destruct H5 as [H5|[H5 H6]]; [now left|right; split; [intros j; apply H5; lia|exact H6]]).
Qed.
Print Assumptions execution_order.
(** WriteSQL writes the same commands in the same order.  Condition: every
    command has a non-empty SQL text, and for MySQL functions (triggers) are
    not the first commands. *)
Theorem script_order : forall m es,
  arranged es (m_cmds m) ->
  let d := dialect_of (m_dialect m) in
  (forall c, In c es -> writable d c /\ trim_space (text d c) <> []) ->
  (d = DMySQL ->
     (with_rank (Nat.eqb 2) (m_cmds m) <> [] -> with_rank (fun k => Nat.ltb k 2) es <> []) /\
     (with_rank (Nat.eqb 7) (m_cmds m) <> [] -> with_rank (fun k => Nat.ltb k 7) es <> [])) ->
  write_sql m = (script (pieces d (m_cmds m) es), SOk).
Proof. intros m es AR. rewrite (arranged_unique m es AR). exact (write_sql_script m). Qed.
Print Assumptions script_order.

(** ** The hypotheses are met *)
(** Catalogs built by hand and then refreshed. *)
Definition slice_of_list {A} (nm : A -> bytes) (ig : A -> bool) (l : list A) : cached A := refresh nm ig (mk_cached l []).
Definition ex_column (s t n ty : bytes) : column :=
  mk_column s t n ty [] false true false false false [] false [] [] false.
Definition ex_constraint (s t n ty : bytes) (cols : list bytes) : constraint :=
  mk_constraint s t n ty cols [] [] (B "other") [B "id"] [] [] [] [] [] [] [] false false [] false.
Definition ex_index (s t n : bytes) (cols : list bytes) : index :=
  mk_index s t n [] false cols [] [] [] [] [] false.
Definition ex_trigger (s t n : bytes) : trigger := mk_trigger s t n (B "CREATE TRIGGER " ++ n) false.
Definition ex_table (s t : bytes) (ls : list (bytes * bytes)) (ks : list (bytes * bytes)) (xs gs : list bytes) : table :=
  mk_table s t (slice_of_list l_name l_ignore (map (fun l => ex_column s t (fst l) (snd l)) ls))
    (slice_of_list c_name c_ignore (map (fun k => ex_constraint s t (fst k) (snd k) [B "id"]) ks))
    (slice_of_list x_name x_ignore (map (fun x => ex_index s t x [B "id"]) xs))
    (slice_of_list g_name g_ignore (map (ex_trigger s t) gs)) [] [] false.
Definition ex_view (s v : bytes) (mat : bool) : view := mk_view s v mat [] [] (B "CREATE VIEW " ++ v) false.
Definition ex_func (s f : bytes) : func := mk_func s f [] (B "CREATE FUNCTION " ++ f) false.
Definition ex_schema (s : bytes) (ts : list table) (vs : list view) (fs : list func) : schema :=
  mk_schema s (slice_of_list t_name t_ignore ts) (slice_of_list v_name v_ignore vs)
    (frefresh f_name f_ignore (mk_fcached fs [])) false.
Definition ex_db (dialect current : bytes) (ss : list schema) : metadata :=
  mk_metadata dialect current [] [] (slice_of_list s_name s_ignore ss).
Definition public := B "public".
Definition ex_got (dialect : bytes) : metadata :=
  ex_db dialect public
    [ex_schema public
       [ex_table public (B "actor") [(B "id", B "INT"); (B "old", B "TEXT")] [(B "actor_pkey", B "PRIMARY KEY"); (B "actor_old", B "UNIQUE")]
          [B "actor_idx"; B "old_idx"] [B "actor_trg"; B "old_trg"];
        ex_table public (B "gone") [(B "id", B "INT")] [] [B "gone_idx"] []]
       [ex_view public (B "v") false; ex_view public (B "v_gone") false] [ex_func public (B "f"); ex_func public (B "f_gone")];
     ex_schema (B "old_schema") [] [] []].
Definition ex_want (dialect : bytes) : metadata :=
  ex_db dialect public
    [ex_schema public
       [ex_table public (B "actor") [(B "id", B "INT"); (B "new", B "TEXT")] [(B "actor_pkey", B "PRIMARY KEY"); (B "actor_fkey", B "FOREIGN KEY")]
          [B "actor_idx"; B "new_idx"] [B "actor_trg"; B "new_trg"];
        ex_table public (B "added") [(B "id", B "INT"); (B "x", B "INT")] [(B "added_pkey", B "PRIMARY KEY"); (B "added_fkey", B "FOREIGN KEY")]
          [B "added_idx"] [B "added_trg"]]
       [ex_view public (B "v") false; ex_view public (B "v_added") true] [ex_func public (B "f"); ex_func public (B "f_added")];
     ex_schema (B "app") [ex_table (B "app") (B "actor") [(B "id", B "INT")] [] [B "actor_idx"] []] [] []].
Definition all_modes : mode := mk_mode true true true true.
Lemma ex_comparable : forall dialect d, comparable d (ex_got dialect) (ex_want dialect).
Proof.
  intros dialect d.
  assert (X : forall n l, d_ext_cache (mk_metadata dialect n [] [] l) = []) by reflexivity.
  split; [apply check_catalog_ok; destruct d; vm_compute; reflexivity|]. split; [apply check_catalog_ok; destruct d; vm_compute; reflexivity|].
  split; [left; reflexivity|]. split; [left; reflexivity|].
  split; [apply check_nothing_ignored_ok; vm_compute; reflexivity|].
  split; [apply check_names_agree_ok; vm_compute; reflexivity|].
  split; [apply check_plain_views_ok; vm_compute; reflexivity|].
  split.
  - intros sc [<-|[<-|[]]]; apply nodupb_ok; vm_compute; reflexivity.
  - intros _ sc v [<-|[<-|[]]] I; vm_compute in I; repeat (destruct I as [<-|I]; [reflexivity|]); destruct I.
Qed.
Definition cmds_of (o : outcome migration) : list command := match o with Ok mg => m_cmds mg | _ => [] end.
Definition ex_migration (dialect : bytes) : migration :=
  match migrate all_modes (ex_got dialect) (ex_want dialect) with Ok mg => mg | _ => mk_migration [] [] [] end.
Example migrate_example : forall dialect, In dialect [B "postgres"; B "mysql"; B "sqlite"] ->
  migrate all_modes (ex_got dialect) (ex_want dialect) = Ok (ex_migration dialect) /\
  comparable (dialect_of dialect) (ex_got dialect) (ex_want dialect).
Proof.
  intros dialect I. split; [|apply ex_comparable]. destruct I as [<-|[<-|[<-|[]]]]; vm_compute; reflexivity.
Qed.
(** Commands of every kind but extensions come up. *)
Example migrate_example_kinds :
  map (fun d => map rank (cmds_of (migrate all_modes (ex_got d) (ex_want d)))) [B "postgres"; B "mysql"; B "sqlite"]
  = [[6; 7; 4; 8; 6; 7; 3; 8; 5; 2; 0; 6; 3; 12; 11; 14; 13; 9; 10];
     [7; 4; 8; 7; 3; 8; 5; 2; 0; 3; 11; 14; 13; 9; 10];
     [6; 7; 4; 6; 7; 3; 5; 0; 6; 3; 12; 11; 14; 9; 10; 13]].
Proof. vm_compute. reflexivity. Qed.
(** The state after the migration, computed for some objects. *)
Example migrate_example_lists :
  map (fun i => (listsb (ex_got []) i, listsb (ex_want []) i))
    [ITable public (B "actor"); ITable public (B "added"); ITable public (B "gone");
     IColumn public (B "actor") (B "new"); IColumn public (B "actor") (B "old"); ISchema (B "app"); ISchema (B "old_schema")]
  = [(true, true); (false, true); (true, false); (false, true); (true, false); (false, true); (true, false)].
Proof. vm_compute. reflexivity. Qed.
Example migrate_to_itself_example : forall m, cmds_of (migrate m (ex_got (B "postgres")) (ex_got (B "postgres"))) = [].
Proof. intros [[|] [|] [|] [|]]; vm_compute; reflexivity. Qed.
(** The order of execution, and a refused statement: the fourth. *)
Definition writableb (d : dialect) (c : command) : bool :=
  match snd (command_sql d c) with SOk => negb (is_empty (trim_space (text d c))) | _ => false end.
Lemma writableb_ok : forall d cs, forallb (writableb d) cs = true ->
  forall c, In c cs -> writable d c /\ trim_space (text d c) <> [].
Proof.
  intros d cs H c I. rewrite forallb_forall in H. specialize (H c I). unfold writableb, writable in *.
  destruct (snd (command_sql d c)); try discriminate. split; [reflexivity|]. intros E. rewrite E in H. discriminate.
Qed.
Example execution_example :
  let mg := ex_migration (B "postgres") in
  map rank (exec_cmds mg) = [0; 2; 3; 3; 4; 5; 6; 6; 6; 7; 7; 8; 8; 9; 10; 11; 12; 13; 14] /\
  length (fst (exec_context (fun sent q => negb (Nat.eqb (length sent) 3)) mg)) = 4 /\
  snd (exec_context (fun sent q => negb (Nat.eqb (length sent) 3)) mg) = SErr /\
  snd (exec_context (fun sent q => true) mg) = SOk /\
  (forall c, In c (exec_cmds mg) -> writable DPostgres c /\ trim_space (text DPostgres c) <> []).
Proof.
  cbv zeta. split; [vm_compute; reflexivity|]. split; [vm_compute; reflexivity|].
  split; [vm_compute; reflexivity|]. split; [vm_compute; reflexivity|].
  apply writableb_ok. vm_compute. reflexivity.
Qed.

(** ** Where the claims fail without their hypotheses *)
Definition drop_mode : mode := mk_mode true false true false.
Definition texts (d : dialect) (o : outcome migration) : list string :=
  map (fun c => string_of_list_ascii (text d c)) (cmds_of o).
Definition one_table (s : bytes) (t : table) : metadata := ex_db (B "postgres") public [ex_schema s [t] [] []].
Definition tab (s : bytes) : table := ex_table s (B "t") [(B "id", B "INT")] [] [] [].

(** A wanted schema without a name means the current one when things are
    created (migration.go:98-104) but not when they are dropped (325-334): the
    table both catalogs have is dropped. *)
Theorem unqualified_schema_refuted :
  texts DPostgres (migrate drop_mode (one_table public (tab public)) (one_table [] (tab [])))
  = ["DROP TABLE IF EXISTS public.t"%string].
Proof. vm_compute. reflexivity. Qed.
(** Objects whose cache was not filled (catalogs read from JSON, functions
    added by WithFunctions) are not found: wanted and present objects are
    dropped and created. *)
Theorem stale_cache_refuted :
  let db := mk_metadata (B "postgres") public [] []
              (mk_cached [ex_schema public [tab public] [] [ex_func public (B "f")]] []) in
  texts DPostgres (migrate (mk_mode false false true false) db db)
  = ["DROP FUNCTION IF EXISTS public.f() CASCADE"; "DROP TABLE IF EXISTS public.t"]%string.
Proof. vm_compute. reflexivity. Qed.
(** The same for extensions: WithExtensions does not fill the cache. *)
Theorem extension_refuted :
  let db := mk_metadata (B "postgres") public [B "citext"] [] (slice_of_list s_name s_ignore []) in
  texts DPostgres (migrate drop_mode db db)
  = ["CREATE EXTENSION IF NOT EXISTS citext"; "DROP EXTENSION IF EXISTS citext"]%string.
Proof. vm_compute. reflexivity. Qed.
(** An ignored column is dropped, even by migrating a catalog to itself. *)
Theorem ignored_column_refuted :
  let t := mk_table public (B "t")
             (slice_of_list l_name l_ignore
                [ex_column public (B "t") (B "id") (B "INT");
                 mk_column public (B "t") (B "keep") (B "INT") [] false true false false false [] false [] [] true])
             cached_new cached_new cached_new [] [] false in
  texts DPostgres (migrate drop_mode (one_table public t) (one_table public t))
  = ["ALTER TABLE public.t
    DROP COLUMN IF EXISTS keep CASCADE
"%string].
Proof. vm_compute. reflexivity. Qed.
(** An index that moves to another table is lost: CREATE INDEX IF NOT EXISTS
    finds the name taken, then the index is dropped. *)
Theorem moved_index_refuted :
  let a xs := ex_table public (B "a") [(B "id", B "INT")] [] xs [] in
  let b xs := ex_table public (B "b") [(B "id", B "INT")] [] xs [] in
  let db ts := ex_db (B "postgres") public [ex_schema public ts [] []] in
  let got := db [a [B "i"]; b []] in
  let want := db [a []; b [B "i"]] in
  lists want (IIndex public (B "b") (B "i")) /\
  exists mg, migrate drop_mode got want = Ok mg /\
    ~ after DPostgres public (exec_cmds mg) (lists got) (IIndex public (B "b") (B "i")).
Proof.
  cbv zeta. split; [apply listsb_ok; vm_compute; reflexivity|].
  eexists. split; [vm_compute; reflexivity|]. intros H. vm_compute exec_cmds in H.
  cbn [after fold_left] in H. unfold step at 1 in H. destruct H as [[_ H]|[_ H]].
  - apply H. cbn [removes]. eexists. reflexivity.
  - exact H.
Qed.
(** With UpdateExisting alone a missing table gets a CREATE TABLE without a
    name (migration.go:141, 224-226). *)
Theorem update_only_refuted :
  map (fun c => match c with KCreateTable c => [t_name (ct_table c)] | _ => [] end)
    (cmds_of (migrate (mk_mode false true false false) (ex_db (B "postgres") public []) (one_table public (tab public))))
  = [[[]]].
Proof. vm_compute. reflexivity. Qed.
(** The ALTER COLUMN of Postgres has no column name (migration.go:470-510 does
    not set it, 160-165 only for MySQL). *)
Definition typed_column (ty df : bytes) : column :=
  mk_column public (B "t") (B "id") ty [] false false false false false [] false [] df false.
Definition typed_table (ty df : bytes) : table :=
  mk_table public (B "t") (slice_of_list l_name l_ignore [typed_column ty df]) cached_new cached_new cached_new [] [] false.
Definition typed (d ty df : bytes) : metadata := ex_db d public [ex_schema public [typed_table ty df] [] []].
Theorem alter_column_name_refuted :
  texts DPostgres (migrate (mk_mode false true false false) (typed (B "postgres") (B "INT") []) (typed (B "postgres") (B "TEXT") []))
  = ["ALTER TABLE IF EXISTS public.t
    ALTER COLUMN """" SET DATA TYPE TEXT
"%string].
Proof. vm_compute. reflexivity. Qed.
(** A changed default is not noticed. *)
Theorem changed_default_refuted :
  texts DPostgres (migrate (mk_mode false true false false) (typed (B "postgres") (B "INT") (B "1")) (typed (B "postgres") (B "INT") (B "2")))
  = [].
Proof. vm_compute. reflexivity. Qed.
(** A MySQL script that starts with a function: its first line is part of the
    comment. *)
Definition function_first : migration :=
  mk_migration (B "mysql") [] [KCreateFunction (mk_create_function (ex_func [] (B "f")) false)].
Theorem mysql_script_refuted :
  string_of_list_ascii (fst (write_sql function_first)) = "

-- DELIMITER ;;CREATE FUNCTION f; -- ;;

-- DELIMITER ;"%string.
Proof. vm_compute. reflexivity. Qed.
(** WriteSQL panics on a command without text. *)
Theorem write_empty_refuted :
  snd (write_sql (mk_migration (B "postgres") [] [KCreateTrigger (mk_create_trigger (mk_trigger [] [] [] [] false) false)])) = SPanic.
Proof. vm_compute. reflexivity. Qed.
