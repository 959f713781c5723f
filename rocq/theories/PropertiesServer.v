(** * PropertiesServer: the SQL text of a migration, carried out by a database (C83, C84) *)
From Coq Require Import Lia.
From Verif Require Import GoBase GoBaseFacts QuoteModel EffectModel BuildModel SpecText SpecLex SpecIdent SpecSql.
From Verif Require Import CacheModel UpsertModel DdlModel MigrateModel SpecDdl SpecDrop SpecMigrate SpecColumn SpecExec SpecServer
  MigrateFacts MigrateCheck MigratePf MigrateExec ServerFacts ServerRun ServerCheck ServerWrite PropertiesMigrate.
From Verif Require Import SpecServer.

(** ** C83: the text of a migration brings the database to the wanted objects *)
(** The conditions: Migrate succeeded; the catalogs are comparable (C30); no
    existing object is to be altered; the names and fragments in them can be
    written; and the database has the objects of the present catalog. *)
Definition fit_for_migration (m : mode) (got want : metadata) (mg : migration) (db : contents) : Prop :=
  let d := dialect_of (m_dialect mg) in
  migrate m got want = Ok mg /\ update_existing m = false /\ In d [DSQLite; DPostgres; DMySQL] /\
  comparable d got want /\ wanted_ok d (d_current got) want /\ present_ok d got /\ shows_catalog d db got.
Lemma known : forall d, In d [DSQLite; DPostgres; DMySQL] -> d = DSQLite \/ d = DPostgres \/ d = DMySQL.
Proof. intros d [<-|[<-|[<-|[]]]]; auto. Qed.

(** The statements that ExecContext sent when it returned without an error,
    carried out on that database, all succeed; and then the database has
    - what it had, with the definitions it had, except, if DropExtraneous is set,
      for what is not wanted (schemas stay);
    - if CreateMissing is set, what was missing, with the definitions wanted. *)
Theorem migration_text_reaches : forall m got want mg db0 (accepts : database) sent,
  fit_for_migration m got want mg db0 -> exec_context accepts mg = (sent, SOk) ->
  let d := dialect_of (m_dialect mg) in
  exists db', served d (d_current got) sent db0 = Some db' /\
    forall i v, in_scope d i ->
      (In (i, v) db' <->
       (In (i, v) db0 /\ (drop_extraneous m = false \/ lists want i \/ exists s, i = ISchema s)) \/
       (create_missing m = true /\ ~ lists got i /\ wanted_definition d want i v)).
Proof.
  intros m got want mg db0 accepts sent (MG & UE & K & CMP & WO & PO & SH) EX d. apply known in K.
  unfold exec_context in EX. apply exec_loop_spec in EX. destruct EX as (k & _ & ES & W & _ & KL & _). cbn [app] in ES. subst k. rewrite firstn_all in ES, W.
  destruct (run_prefix m got want mg db0 MG UE CMP WO PO K SH (exec_cmds mg) []) as (db' & SV & IV).
  - now rewrite app_nil_r.
  - apply Forall_forall. exact W.
  - exists db'. rewrite ES. split; [exact SV|]. intros i v SC. now apply (run_result m got want mg db0 MG UE CMP WO PO K SH db' IV i v SC).
Qed.
Print Assumptions migration_text_reaches.

(** In particular, with CreateMissing and DropExtraneous the database has exactly
    the wanted objects (and the old schemas) afterwards. *)
Theorem migration_text_synchronises : forall m got want mg db0 (accepts : database) sent,
  fit_for_migration m got want mg db0 -> exec_context accepts mg = (sent, SOk) ->
  create_missing m = true -> drop_extraneous m = true ->
  let d := dialect_of (m_dialect mg) in
  exists db', served d (d_current got) sent db0 = Some db' /\
    forall i, in_scope d i ->
      (has db' i = true <-> lists want i \/ (lists got i /\ exists s, i = ISchema s)).
Proof.
  intros m got want mg db0 accepts sent F EX CM DE d. destruct (migration_text_reaches _ _ _ _ _ _ _ F EX) as (db' & SV & R). exists db'. split; [exact SV|].
  intros i SC. destruct F as (MG & UE & K & CMP & WO & PO & SH). apply known in K. split.
  - intros H. apply has_in in H. destruct H as (v & V). apply (R i v SC) in V. destruct V as [[V [X|[X|X]]]|(_ & _ & W)]; [congruence|now left| |].
    + right. split; [|exact X]. apply (SH i SC). apply has_in. eauto.
    + left. exact (wanted_listed got want mg CMP i v W).
  - intros H. apply has_in. destruct (lists_dec got i) as [G|G].
    + apply (SH i SC) in G. apply has_in in G. destruct G as (v & V). exists v. apply (R i v SC). left. split; [exact V|]. destruct H as [H|[_ H]]; auto.
    + destruct H as [H|[H _]]; [|contradiction].
      destruct (new_added m got want mg MG CMP i CM SC H G) as (c & Ic & A).
      destruct (form m got want mg MG UE CMP c Ic) as [[_ FO]|[_ FO]].
      * destruct (ServerOk.created_complete d got want (CW got want mg CMP) (CG got want mg CMP) WO PO K c i FO SC A) as (v & V).
        destruct (creates m got want mg db0 MG UE CMP WO PO K SH c i v Ic V) as (_ & _ & _ & W). exists v. apply (R i v SC). right. auto.
      * destruct (adds_only_creates m got want mg MG c i Ic A) as (_ & KK & _). exfalso. destruct FO; try discriminate KK; exact A.
Qed.
Print Assumptions migration_text_synchronises.

(** ** C84: no statement of a migration is refused *)
(** The database of SpecServer as the one ExecContext talks to: it accepts a
    statement iff it can carry it out after those sent before. *)
Definition server (d : dialect) (current : bytes) (db : contents) : database :=
  fun sent q => match served d current (sent ++ [q]) db with Some _ => true | None => false end.
(** ExecContext fails only if the library has no SQL for one of the commands. *)
Theorem migration_never_refused : forall m got want mg db0 sent st,
  fit_for_migration m got want mg db0 ->
  let d := dialect_of (m_dialect mg) in
  exec_context (server d (d_current got) db0) mg = (sent, st) ->
  served d (d_current got) sent db0 <> None /\
  (st = SOk \/ exists c, In c (m_cmds mg) /\ snd (command_sql d c) = st).
Proof.
  intros m got want mg db0 sent st (MG & UE & K & CMP & WO & PO & SH) d EX. apply known in K.
  unfold exec_context in EX. apply exec_loop_spec in EX. destruct EX as (k & KL & ES & W & _ & R). cbn [app] in ES.
  assert (P : forall j, j <= k -> served d (d_current got) (map (text d) (firstn j (exec_cmds mg))) db0 <> None).
  { intros j J. destruct (run_prefix m got want mg db0 MG UE CMP WO PO K SH (firstn j (exec_cmds mg)) (skipn j (exec_cmds mg))) as (db' & SV & _).
    - symmetry. apply firstn_skipn.
    - apply Forall_forall. intros c I. apply W. rewrite <- (firstn_skipn j (firstn k (exec_cmds mg))), firstn_firstn, Nat.min_l by exact J. apply in_or_app. now left.
    - fold d in SV. rewrite SV. discriminate. }
  split; [fold d in ES; rewrite ES; apply P; lia|].
  assert (LS : length sent = k) by (rewrite ES, map_length, firstn_length; lia).
  destruct st; [now left|right..].
  all: destruct R as [(E & KP & N)|(_ & c & NC & E)]; [|exists c; split; [apply (exec_in m got want mg MG); eapply nth_error_In; exact NC|exact E]].
  all: exfalso; apply N; rewrite LS; destruct k as [|k]; [lia|]; replace (S k - 1) with k by lia.
  all: destruct (nth_error (exec_cmds mg) k) as [c|] eqn:NC; [|apply nth_error_None in NC; lia].
  all: assert (FS : firstn (S k) (exec_cmds mg) = firstn k (exec_cmds mg) ++ [c]) by (clear - NC; revert NC; generalize (exec_cmds mg); induction k as [|k IH]; intros [|a l] NC; try discriminate NC; [cbn in NC |- *; congruence|cbn [nth_error] in NC; cbn [firstn app]; f_equal; now apply IH]).
  all: fold d in ES; rewrite FS, map_app in ES; cbn [map] in ES; exists (text d c).
  all: assert (LK : length (map (text d) (firstn k (exec_cmds mg))) = k) by (rewrite map_length, firstn_length; lia).
  all: split; [rewrite ES, nth_error_app2, LK, Nat.sub_diag by lia; reflexivity|].
  all: unfold server; rewrite ES; rewrite firstn_app, LK, Nat.sub_diag, firstn_O, app_nil_r.
  all: replace (firstn k (map (text d) (firstn k (exec_cmds mg)))) with (map (text d) (firstn k (exec_cmds mg))) by (symmetry; apply firstn_all2; lia).
  all: pose proof (P (S k) (le_n _)) as Q; rewrite FS, map_app in Q; cbn [map] in Q.
  all: destruct (served d (d_current got) (map (text d) (firstn k (exec_cmds mg)) ++ [text d c]) db0); [reflexivity|congruence].
Qed.
Print Assumptions migration_never_refused.
(** If moreover the dialect has everything that is wanted, the migration
    succeeds, and then the database is what C83 says. *)
Theorem migration_carried_out : forall m got want mg db0,
  fit_for_migration m got want mg db0 ->
  let d := dialect_of (m_dialect mg) in
  expressible d got want ->
  exists sent db', exec_context (server d (d_current got) db0) mg = (sent, SOk) /\
    served d (d_current got) sent db0 = Some db' /\
    forall i v, in_scope d i ->
      (In (i, v) db' <->
       (In (i, v) db0 /\ (drop_extraneous m = false \/ lists want i \/ exists s, i = ISchema s)) \/
       (create_missing m = true /\ ~ lists got i /\ wanted_definition d want i v)).
Proof.
  intros m got want mg db0 F d X. destruct (exec_context (server d (d_current got) db0) mg) as (sent, st) eqn:E. exists sent.
  destruct (migration_never_refused _ _ _ _ _ _ _ F E) as (_ & S1). pose proof F as (MG & UE & K & CMP & WO & _). apply known in K.
  assert (st = SOk) as ->.
  { destruct S1 as [S1|(c & Ic & <-)]; [exact S1|]. exact (all_written m got want mg MG UE CMP WO X K c Ic). }
  destruct (migration_text_reaches _ _ _ _ _ _ _ F E) as (db' & SV & R). exists db'. auto.
Qed.
Print Assumptions migration_carried_out.

(** ** The hypotheses are met *)
Definition sv_constraint (s t n ty : bytes) (cols : list bytes) (rs rt : bytes) : constraint :=
  mk_constraint s t n ty cols [] rs rt [B "id"] [] [] [] [] [] [] [] false false [] false.
Definition sv_trigger (s t n : bytes) : trigger :=
  mk_trigger s t n (B "CREATE TRIGGER " ++ n ++ B " AFTER INSERT ON " ++ s ++ B "." ++ t ++ B " FOR EACH ROW DELETE FROM log") false.
Definition sv_table (s t : bytes) (ls : list column) (ks : list constraint) (xs gs : list bytes) : table :=
  mk_table s t (slice_of_list l_name l_ignore ls) (slice_of_list c_name c_ignore ks)
    (slice_of_list x_name x_ignore (map (fun x => ex_index s t x [B "id"]) xs))
    (slice_of_list g_name g_ignore (map (sv_trigger s t) gs)) [] [] false.
Definition sv_view (s v : bytes) : view := mk_view s v false [] [] (B "SELECT id FROM actor") false.
Definition sv_func (s f : bytes) : func := mk_func s f [] (B "CREATE OR REPLACE FUNCTION " ++ f ++ B "() RETURNS INT RETURN 1") false.
Definition app := B "app".
Definition actor := B "actor".
Definition primary (dialect : bytes) (n : bytes) : bytes := if beqb dialect (B "mysql") then B "PRIMARY" else n.
Definition sv_got (dialect : bytes) : metadata :=
  ex_db dialect public
    [ex_schema public
       [sv_table public actor [ex_column public actor (B "id") (B "INT"); ex_column public actor (B "old") (B "TEXT")]
          [sv_constraint public actor (primary dialect (B "actor_pkey")) (B "PRIMARY KEY") [B "id"] [] []; sv_constraint public actor (B "actor_old") (B "UNIQUE") [B "old"] [] []]
          [B "old_idx"] [B "old_trg"];
        sv_table public (B "gone") [ex_column public (B "gone") (B "id") (B "INT")] [] [B "gone_idx"] []]
       [sv_view public (B "v_gone")] (if beqb dialect (B "sqlite") then [] else [sv_func public (B "f_gone")]);
     ex_schema (if beqb dialect (B "sqlite") then app else B "old_schema") [] [] []].
Definition sv_want (dialect : bytes) : metadata :=
  ex_db dialect public
    [ex_schema public
       [sv_table public actor
          [ex_column public actor (B "id") (B "INT");
           mk_column public actor (B "new col") (B "VARCHAR(20)") [] false true false false false [] false [] (B "'a,b'") false]
          [sv_constraint public actor (primary dialect (B "actor_pkey")) (B "PRIMARY KEY") [B "id"] [] [];
           sv_constraint public actor (B "actor_fkey") (B "FOREIGN KEY") [B "id"] app (B "added")]
          [B "new_idx"] [B "new_trg"]]
       [sv_view public (B "v_added")] [sv_func public (B "f_added")];
     ex_schema app
       [sv_table app (B "added") [ex_column app (B "added") (B "id") (B "INT")]
          [sv_constraint app (B "added") (primary dialect (B "added_pkey")) (B "PRIMARY KEY") [B "id"] [] [];
           sv_constraint app (B "added") (B "added_fkey") (B "FOREIGN KEY") [B "id"] public actor]
          [B "added_idx"] [B "added_trg"]] [] []].
(** SQLite has no functions and no CREATE SCHEMA.  The definitions present do not matter. *)
Definition sv_db (got : metadata) : contents := map (fun i => (i, FTable)) (items_of got).
Definition sv_mode : mode := mk_mode true false true true.
Definition sv_migration (dialect : bytes) : migration :=
  match migrate sv_mode (sv_got dialect) (sv_want dialect) with Ok mg => mg | _ => mk_migration [] [] [] end.
Lemma sv_comparable : forall dialect d, In dialect [B "postgres"; B "mysql"; B "sqlite"] -> comparable d (sv_got dialect) (sv_want dialect).
Proof.
  intros dialect d [<-|[<-|[<-|[]]]].
  all: split; [apply check_catalog_ok; destruct d; vm_compute; reflexivity|]; split; [apply check_catalog_ok; destruct d; vm_compute; reflexivity|].
  all: split; [left; reflexivity|]; split; [left; reflexivity|].
  all: split; [apply check_nothing_ignored_ok; vm_compute; reflexivity|].
  all: split; [apply check_names_agree_ok; vm_compute; reflexivity|].
  all: split; [apply check_plain_views_ok; vm_compute; reflexivity|].
  all: split; [intros sc [<-|[<-|[]]]; apply nodupb_ok; vm_compute; reflexivity|].
  all: intros _ sc v [<-|[<-|[]]] I; vm_compute in I; repeat (destruct I as [<-|I]; [reflexivity|]); destruct I.
Qed.
Example migration_text_example : forall dialect, In dialect [B "postgres"; B "mysql"; B "sqlite"] ->
  fit_for_migration sv_mode (sv_got dialect) (sv_want dialect) (sv_migration dialect) (sv_db (sv_got dialect)).
Proof.
  intros dialect I. assert (E : dialect_of (m_dialect (sv_migration dialect)) = dialect_of dialect) by (destruct I as [<-|[<-|[<-|[]]]]; vm_compute; reflexivity).
  unfold fit_for_migration. cbv zeta. rewrite E. clear E.
  split; [destruct I as [<-|[<-|[<-|[]]]]; vm_compute; reflexivity|]. split; [reflexivity|].
  split; [destruct I as [<-|[<-|[<-|[]]]]; vm_compute; tauto|]. split; [now apply sv_comparable|].
  split; [apply wanted_okb_ok; destruct I as [<-|[<-|[<-|[]]]]; vm_compute; reflexivity|].
  split; [apply present_okb_ok; destruct I as [<-|[<-|[<-|[]]]]; vm_compute; reflexivity|].
  apply database_of. unfold sv_db. rewrite map_map. apply map_id.
Qed.
(** The whole run, computed: the statements sent, the result, and the database afterwards. *)
Example migration_carried_out_example : forall dialect, In dialect [B "postgres"; B "mysql"; B "sqlite"] ->
  expressible (dialect_of dialect) (sv_got dialect) (sv_want dialect).
Proof. intros dialect I. apply expressibleb_ok. destruct I as [<-|[<-|[<-|[]]]]; vm_compute; reflexivity. Qed.
Definition kind_of (p : item * definition) : nat :=
  match fst p with ISchema _ => 0 | ITable _ _ => 1 | IColumn _ _ _ => 2 | IConstraint _ _ _ => 3 | IIndex _ _ _ => 4 | ITrigger _ _ _ => 5 | IView _ _ => 6 | IFunction _ _ => 7 end.
Example migration_text_run :
  map (fun dialect =>
    let mg := sv_migration dialect in let d := dialect_of dialect in let db := sv_db (sv_got dialect) in
    let (sent, st) := exec_context (server d public db) mg in
    (match st with SOk => true | _ => false end, length sent, map kind_of db, option_map (map kind_of) (served d public sent db)))
  [B "postgres"; B "mysql"; B "sqlite"]
  = [(true, 17, [0; 1; 2; 2; 3; 3; 4; 5; 1; 2; 4; 6; 7; 0], Some [0; 1; 2; 3; 0; 0; 7; 1; 2; 3; 2; 6; 4; 4; 5; 5; 3; 3]);
     (true, 14, [0; 1; 2; 2; 3; 3; 4; 5; 1; 2; 4; 6; 7; 0], Some [0; 1; 2; 3; 0; 0; 7; 1; 2; 3; 4; 2; 4; 6; 5; 5; 3; 3]);
     (true, 12, [0; 1; 2; 2; 3; 3; 4; 5; 1; 2; 4; 6; 0], Some [0; 1; 2; 3; 3; 0; 1; 2; 2; 6; 4; 4; 5; 5])].
Proof. vm_compute. reflexivity. Qed.
