(** * PropertiesAuto: AutoMigrate from the structs to the database (C61) *)
From Coq Require Import Lia Permutation.
From Verif Require Import GoBase GoBaseFacts QuoteModel BuildModel CacheModel EffectModel UpsertModel TokenModel DdlModel MigrateModel LoadModel ViewModel DbModel IntroModel AutoModel
  SpecMigrate SpecColumn SpecExec SpecDb SpecDeclare SpecIntro SpecAuto IntroPf MigrateRun MigrateExec MigrateCheck DbPf DbCatalog DbLoad AutoPf PropertiesMigrate PropertiesDb PropertiesIntro.

(** ** Nothing is sent before both sides are known *)
(** If a statement was sent, or the call succeeded, then the database was read
    completely and every struct declared something. *)
Theorem auto_after_reading : forall numeric dialect rd db m opts sent r,
  auto_migrate numeric dialect rd db m opts = (sent, r) -> sent <> [] \/ r = LOk tt ->
  let d := dialect_of dialect in
  introspectable d /\ rd_alive rd = true /\
  complete (rd_tables rd) /\ complete (rd_views rd) /\ complete (rd_columns rd) /\ complete (rd_constraints rd) /\ complete (rd_indexes rd) /\
  complete (rd_triggers rd) /\ (d = DPostgres -> complete (rd_functions rd)) /\
  (Forall no_db opts -> NoDup (flat_map item_key (flat_map items_of opts)) ->
   exists xs, Forall2 (declares numeric d) (flat_map items_of opts) xs).
Proof.
  intros numeric dialect rd db m opts sent r H E d. unfold auto_migrate, first_of in H.
  destruct (with_raw_db numeric rd _) as [b| | |] eqn:Rd; [|injection H as <- <-; destruct E; congruence|injection H as <- <-; destruct E; congruence|injection H as <- <-; destruct E; congruence].
  destruct (new_metadata numeric dialect opts) as [w| | |] eqn:Wn; [|injection H as <- <-; destruct E; congruence|injection H as <- <-; destruct E; congruence|injection H as <- <-; destruct E; congruence].
  destruct (nothing_missed numeric rd _ b Rd) as (A1 & A2 & A3 & A4 & A5 & A6 & A7 & A8 & A9 & _). cbn [b_dialect] in *.
  split; [exact A1|]. split; [exact A2|]. split; [exact A3|]. split; [exact A4|]. split; [exact A5|]. split; [exact A6|]. split; [exact A7|]. split; [exact A8|]. split; [exact A9|].
  intros N D. apply (proj1 (options_succeed numeric dialect opts N D)). eauto.
Qed.
Print Assumptions auto_after_reading.

(** ** What the database holds afterwards *)
Lemma missing_extensions_all es s : x_cache s = [] -> missing_extensions es s = Some (es, s).
Proof. intros C. induction es as [|e es IH]; [reflexivity|]. cbn [missing_extensions]. unfold ext_lookup. rewrite C. cbn [mget]. now rewrite IH. Qed.
Lemma migrate_ok m got want : d_ext_cache got = [] -> d_ext_cache want = [] -> d_dialect got = d_dialect want -> d_dialect got <> [] ->
  exists mg, migrate m got want = Ok mg /\ m_dialect mg = d_dialect got.
Proof.
  intros C1 C2 E N. unfold migrate. rewrite <- E. assert (Ne : is_empty (d_dialect got) = false) by (destruct (d_dialect got); [congruence|reflexivity]). rewrite Ne, beqb_refl. cbn [andb negb].
  rewrite (missing_extensions_all _ (ext_state_of want)) by exact C2. rewrite (missing_extensions_all _ (ext_state_of got)) by exact C1.
  destruct (create_missing m || update_existing m), (drop_extraneous m), (is_postgres (dialect_of (d_dialect got)) && create_missing m); eexists; (split; [reflexivity|reflexivity]).
Qed.
Lemma auto_compared : forall numeric dialect rd m opts current extensions R xs,
  let d := dialect_of dialect in let before := told (asked d R) in
  introspectable d -> reported numeric d current extensions R rd ->
  well_formed (asked d R) -> well_named d (asked d R) -> current = [] \/ ~ before (ISchema []) ->
  Forall only_structs opts -> NoDup (flat_map item_key (flat_map items_of opts)) ->
  Forall2 (declares numeric d) (flat_map items_of opts) xs -> Forall (migratable current) xs -> same_tables (asked d R) xs ->
  exists b want mg, (forall db, auto_migrate numeric dialect rd db m opts = let (sent, st) := exec_context db mg in (sent, ended st)) /\
    migrate m b want = Ok mg /\ m_dialect mg = dialect /\ d_current b = current /\
    (forall i, lists b i <-> before i) /\ (forall i, lists want i <-> wanted xs i) /\ comparable d b want /\
    catalog_as_read (asked d R) (objects (d_schemas b)) /\ d_extensions b = (if is_postgres d then extensions else []) /\
    (forall s tb, has_table want s tb <-> In (DTable tb) xs /\ t_ignore tb = false /\ t_schema tb = s) /\ (forall v, has_view want v <-> In (DView v) xs) /\
    (forall f, ~ has_function_def want f) /\ d_extensions want = fold_left extensions_after opts [].
Proof.
  intros numeric dialect rd m opts current extensions R xs d before D Rp W V Cu O K F M S.
  assert (Nd : Forall no_db opts) by (revert O; apply Forall_impl; intros o; destruct o; cbn; auto).
  destruct (database_read numeric rd (mk_dbm dialect [] [] [] cached_new) current extensions R D Rp) as (b & Hb & Db). cbv zeta in Db. cbn [b_dialect] in Db. fold d in Db.
  destruct Db as (Dd & Db). destruct (Db W) as (Cr & Ec & _ & Db'). destruct (Db' V) as (Lb & Ni & Cb). specialize (Cb Cu). clear Db Db'.
  assert (Xb : d_ext_cache (plain_metadata b) = [] /\ d_extensions (plain_metadata b) = if is_postgres d then extensions else []).
  { destruct (reported_answers numeric rd (mk_dbm dialect [] [] [] cached_new) current extensions R D Rp) as (an & E & A). cbn [b_dialect] in A. fold d in A. rewrite E in Hb.
    rewrite (with_db_ok an (mk_dbm dialect [] [] [] cached_new) current _ (asked d R) D A) in Hb. injection Hb as <-. split; [reflexivity|]. cbn [plain_metadata d_extensions b_extensions]. fold d. now destruct (is_postgres d). }
  destruct Xb as (Xb & Xe).
  destruct (load_items numeric d (flat_map items_of opts) [] cached_new) as (H1 & _); [split; [apply tidy_empty|]; split; [reflexivity|intros s []]|exact K|].
  destruct (H1 xs F) as (ss & Es & Ah). clear H1. cbn [app] in Ah.
  set (want := mk_dbm dialect [] (fold_left extensions_after opts []) [] ss).
  assert (Hw : new_metadata numeric dialect opts = LOk want).
  { unfold new_metadata. rewrite options_items by exact Nd. cbn [b_dialect b_current b_extensions b_ext_cache b_schemas]. fold d. rewrite Es. reflexivity. }
  assert (Kx : NoDup (flat_map key_of xs)).
  { replace (flat_map key_of xs) with (flat_map item_key (flat_map items_of opts)); [exact K|]. clear -F. induction F as [|i x l xs De F IH]; [reflexivity|]. cbn [flat_map]. now rewrite IH, (declares_key numeric d i x De). }
  pose proof (all_declares_ok numeric d opts xs O F) as Dok.
  pose proof (held_catalog d current dialect [] (fold_left extensions_after opts []) xs ss Ah Kx Dok M) as Cw. fold want in Cw.
  pose proof (held_plain current dialect [] (fold_left extensions_after opts []) xs ss Ah M) as Pw. fold want in Pw.
  pose proof (held_lists d dialect [] (fold_left extensions_after opts []) xs ss Ah Dok) as Lw. fold want in Lw.
  assert (Hne : dialect <> []) by (intros ->; destruct D as [D|[D|D]]; discriminate D).
  destruct (migrate_ok m (plain_metadata b) (plain_metadata want) Xb eq_refl) as (mg & Mg & Md); [exact Dd|rewrite Dd; exact Hne|]. rewrite Dd in Md. cbn [b_dialect] in Md.
  assert (Na : names_agree (plain_metadata b) (plain_metadata want)).
  { destruct S as (S1 & S2). split; [intros s t t' x|intros s t t' g]; rewrite !Lb, !Lw; [apply S1|apply S2]. }
  assert (Cp : comparable d (plain_metadata b) (plain_metadata want)).
  { unfold comparable. rewrite Ec. split; [exact Cb|]. split; [exact Cw|]. split; [now left|]. split; [now left|]. split; [exact Ni|]. split; [exact Na|]. split; [exact Pw|]. split.
    - intros sc I. unfold want, plain_metadata, plain_cached in I. cbn [d_schemas b_schemas objects] in I. apply in_map_iff in I. destruct I as (s & <- & I). cbn [plain_schema s_functions].
      destruct (held_functions d xs ss Ah Dok s I) as (-> & _). constructor.
    - intros Sq sc v Is Iv. destruct Cr as (_ & Ca). rewrite Forall_forall in Ca. destruct (Ca sc Is) as (_ & _ & Fv & _). destruct (forall2_in _ _ _ _ Fv Iv) as (r & Ir & T).
      destruct T as (_ & _ & -> & _). apply in_schema_key in Ir. destruct Ir as (_ & Ir). destruct Rp as (_ & _ & _ & _ & _ & _ & (rs & _ & Fr) & _). change (r_views (asked d R)) with (r_views R) in Ir. clear -Sq Ir Fr.
      induction Fr as [|v0 r0 vs rs X Fr IH]; [destruct Ir|]. destruct Ir as [->|Ir]; [|now apply IH]. rewrite Sq in X. destruct X as (_ & _ & _ & X & _). exact X. }
  exists (plain_metadata b), (plain_metadata want), mg. split; [intros db; unfold auto_migrate, first_of; rewrite Hb, Hw, Mg; reflexivity|].
  split; [exact Mg|]. split; [exact Md|]. split; [exact Ec|]. split; [exact Lb|]. split; [exact Lw|]. split; [exact Cp|]. split; [exact Cr|]. split; [exact Xe|].
  split; [intros s tb; apply (held_has_table numeric current dialect [] (fold_left extensions_after opts []) xs ss Ah)|].
  split; [intros v; apply (held_has_view numeric d current dialect [] (fold_left extensions_after opts []) xs ss Ah Dok)|].
  split; [intros f; apply (held_has_function d dialect [] (fold_left extensions_after opts []) xs ss Ah Dok)|reflexivity].
Qed.
(** The commands [es] are sent in order, up to the first that the database
    refuses; whatever happens, no object that was there and is wanted (or that
    was there, without DropExtraneous) is removed; once all were sent the
    database holds what is wanted, by the flags of the mode. *)
Theorem auto_migrated : forall numeric dialect rd m opts current extensions R xs,
  let d := dialect_of dialect in let before := told (asked d R) in
  introspectable d -> reported numeric d current extensions R rd ->
  well_formed (asked d R) -> well_named d (asked d R) -> current = [] \/ ~ before (ISchema []) ->
  Forall only_structs opts -> NoDup (flat_map item_key (flat_map items_of opts)) ->
  Forall2 (declares numeric d) (flat_map items_of opts) xs -> Forall (migratable current) xs -> same_tables (asked d R) xs ->
  exists es,
    (forall db, exists k r, let sent := map (text d) (firstn k es) in
       auto_migrate numeric dialect rd db m opts = (sent, r) /\ k <= length es /\
       (forall j, S j < k -> accepted db sent j) /\
       (r = LOk tt -> k = length es /\ forall j, j < k -> accepted db sent j) /\
       (r <> LOk tt -> (0 < k /\ ~ accepted db sent (k - 1)) \/ (exists c, nth_error es k = Some c /\ ~ writable d c))) /\
    (forall j i, before i -> drop_extraneous m = false \/ wanted xs i -> after d current (firstn j es) before i) /\
    (create_missing m = true \/ update_existing m = false -> forall i, in_scope d i ->
       (after d current es before i <->
        (before i \/ (create_missing m = true /\ wanted xs i)) /\
        (drop_extraneous m = false \/ wanted xs i \/ exists s, i = ISchema s))).
Proof.
  intros numeric dialect rd m opts current extensions R xs d before D Rp W V Cu O K F M S.
  destruct (auto_compared numeric dialect rd m opts current extensions R xs D Rp W V Cu O K F M S) as (b & want & mg & Au & Mg & Md & Ec & Lb & Lw & Cp & _). fold d in Lb, Cp. fold before in Lb.
  assert (Ar : arranged (exec_cmds mg) (m_cmds mg)) by apply exec_arranged. exists (exec_cmds mg). split; [|split].
  - intros db. specialize (Au db). destruct (exec_context db mg) as (sent, st) eqn:Ex. destruct (execution_order db mg sent st Ex) as (es & k & Ar' & Lk & Ord). cbv zeta in Ord. rewrite Md in Ord. fold d in Ord.
    rewrite (arranged_unique mg es Ar') in *. destruct Ord as (Se & Wr & Ac & St). exists k, (ended st). cbv zeta. split; [|split; [exact Lk|]].
    { rewrite Au, Se. reflexivity. }
    rewrite Se in *. assert (Ln : length (map (text d) (firstn k (exec_cmds mg))) = k) by (rewrite map_length, firstn_length; lia). rewrite Ln in *.
    split; [exact Ac|]. split.
    + intros E. destruct st; try discriminate E. exact St.
    + intros E. destruct st as [| |]; [now destruct E| |].
      * destruct St as [(_ & St)|(_ & c & Hc & Sc)]; [now left|right]. exists c. split; [exact Hc|]. unfold writable. rewrite Sc. discriminate.
      * destruct St as [(E' & _)|(_ & c & Hc & Sc)]; [discriminate E'|right]. exists c. split; [exact Hc|]. unfold writable. rewrite Sc. discriminate.
  - intros j i Hi Wi.
    assert (Nr : forall c, In c (exec_cmds mg) -> ~ removes d current c i).
    { intros c Ic R0. assert (I : In c (m_cmds mg)). { apply (Permutation_in _ (exec_perm mg)) in Ic. apply filter_In in Ic. apply Ic. }
      rewrite <- Ec in R0. destruct Wi as [Wi|Wi].
      - pose proof (no_drops_without_drop_extraneous m _ _ mg c i Mg Wi I) as X. rewrite Md in X. now apply X.
      - destruct Cp as (C1 & C2 & C3 & C4 & C5 & C6 & _). pose proof (drops_nothing_wanted m _ _ mg Mg) as X. rewrite Md in X. fold d in X. apply (X C1 C2 C4 C5 C6 c i I R0). now apply Lw. }
    assert (Nr' : forall c, In c (firstn j (exec_cmds mg)) -> ~ removes d current c i) by (intros c Ic; apply Nr; rewrite <- (firstn_skipn j (exec_cmds mg)); apply in_or_app; now left).
    clear -Hi Nr'. unfold after. generalize dependent (firstn j (exec_cmds mg)). intros l. revert Hi. generalize before. induction l as [|c l IH]; intros B0 Hi Nr; cbn [fold_left]; [exact Hi|].
    apply IH; [|intros c' Ic; apply Nr; now right]. left. split; [exact Hi|]. apply Nr. now left.
  - intros Mo i Sc. pose proof (migration_reaches m b want mg Mg) as X. rewrite Md in X. fold d in X. specialize (X Cp Mo (exec_cmds mg) Ar i Sc). rewrite Ec in X. rewrite Lb, Lw in X.
    fold before in X. rewrite <- X. clear -Lb. unfold before. apply after_ext. intros j. symmetry. apply Lb.
Qed.
Print Assumptions auto_migrated.
(** Run again, on a database that now holds what is wanted, it sends nothing but
    what concerns extensions. *)
Theorem auto_again : forall numeric dialect rd db m opts current extensions R xs sent r,
  let d := dialect_of dialect in let before := told (asked d R) in
  introspectable d -> reported numeric d current extensions R rd ->
  well_formed (asked d R) -> well_named d (asked d R) -> current = [] \/ ~ before (ISchema []) ->
  Forall only_structs opts -> NoDup (flat_map item_key (flat_map items_of opts)) ->
  Forall2 (declares numeric d) (flat_map items_of opts) xs -> Forall (migratable current) xs -> same_tables (asked d R) xs ->
  update_existing m = false -> (forall i, in_scope d i -> wanted xs i -> before i) ->
  (forall i, (forall s, i <> ISchema s) -> (d = DSQLite -> forall s t k, i <> IConstraint s t k) -> before i -> wanted xs i) ->
  auto_migrate numeric dialect rd db m opts = (sent, r) ->
  forall q, In q sent -> exists c, is_extension_command c /\ q = text d c.
Proof.
  intros numeric dialect rd db m opts current extensions R xs sent r d before D Rp W V Cu O K F M S Up Sub Sup H q Iq.
  destruct (auto_compared numeric dialect rd m opts current extensions R xs D Rp W V Cu O K F M S) as (b & want & mg & Au & Mg & Md & Ec & Lb & Lw & Cp & _). specialize (Au db). fold d in Lb, Cp. fold before in Lb.
  rewrite Au in H. destruct (exec_context db mg) as (sent', st) eqn:Ex. injection H as -> _.
  destruct (execution_order db mg sent st Ex) as (es & k & Ar & Lk & Ord). cbv zeta in Ord. rewrite Md in Ord. fold d in Ord. destruct Ord as (-> & _).
  apply in_map_iff in Iq. destruct Iq as (c & <- & Ic). exists c. split; [|reflexivity].
  assert (I : In c (m_cmds mg)). { assert (J : In c es) by (rewrite <- (firstn_skipn k es); apply in_or_app; now left). rewrite (arranged_unique mg es Ar) in J. apply (Permutation_in _ (exec_perm mg)) in J. apply filter_In in J. apply J. }
  pose proof (migrate_again_nothing m b want mg Mg) as X. rewrite Md in X. fold d in X. apply (X Cp Up); [| |exact I].
  - intros i Sc. rewrite Lw, Lb. now apply Sub.
  - intros i N1 N2. rewrite Lw, Lb. now apply Sup.
Qed.
Print Assumptions auto_again.

(** ** Examples *)
(** Two structs, one with an index and a trigger, and a view, on a Postgres
    database with other objects (PropertiesIntro.pg_raw). *)
Definition film_struct : table_struct :=
  mk_ts (B "public") (B "film") [SColumn (B "film_id") KNumber (B "primarykey"); SColumn (B "title") KString (B "notnull index")]
    [TTrigger (Some (B "CREATE TRIGGER film_trg AFTER INSERT ON public.film EXECUTE FUNCTION f()"))].
Definition actor_struct : table_struct := mk_ts (B "app") (B "actor") [SColumn (B "name") KString (B "unique")] [].
Definition old_struct : table_struct := mk_ts (B "app") (B "old") [SColumn (B "name") KString []] [TIgnore].
Definition auto_options : list db_option :=
  [OTables [Some film_struct; Some actor_struct; Some old_struct]; OViews [Some (list_view (B "public") (B "film_list"))]].
Definition get {A} (def : A) (r : lexres A) : A := match r with LOk a => a | _ => def end.
Definition loaded (d : QuoteModel.dialect) (t : table_struct) : table :=
  get (empty_table [] []) (load_table no_numbers d (ts_schema t) (ts_name t) (ts_fields t) (ts_ddl t) (empty_table (ts_schema t) (ts_name t))).
Definition loaded_view (d : QuoteModel.dialect) (v : view_struct) : view :=
  get (mk_view [] [] false [] [] [] false) (load_view d (vw_schema v) (vw_name v) (vw_fields v) (vw_ddl v)).
Definition auto_declared : list declared :=
  [DTable (loaded DPostgres film_struct); DTable (loaded DPostgres actor_struct); DTable (loaded DPostgres old_struct);
   DView (loaded_view DPostgres (list_view (B "public") (B "film_list")))].
Lemma declares_loaded d t : (exists t', load_table no_numbers d (ts_schema t) (ts_name t) (ts_fields t) (ts_ddl t) (empty_table (ts_schema t) (ts_name t)) = LOk t') ->
  declares no_numbers d (ITb (Some t)) (DTable (loaded d t)).
Proof. intros (t' & E). constructor. unfold loaded. rewrite E. reflexivity. Qed.
Lemma declares_loaded_view d v : (exists v', load_view d (vw_schema v) (vw_name v) (vw_fields v) (vw_ddl v) = LOk v') -> declares no_numbers d (IVw (Some v)) (DView (loaded_view d v)).
Proof. intros (t' & E). constructor. unfold loaded_view. rewrite E. reflexivity. Qed.
Lemma in_declared u a b c v : In (DTable u) [DTable a; DTable b; DTable c; DView v] -> u = a \/ u = b \/ u = c.
Proof. cbn [In]. intros [E|[E|[E|[E|[]]]]]; try discriminate E; injection E as <-; auto. Qed.
Example auto_migrated_example :
  Forall only_structs auto_options /\ NoDup (flat_map item_key (flat_map items_of auto_options)) /\
  Forall2 (declares no_numbers DPostgres) (flat_map items_of auto_options) auto_declared /\ Forall (migratable (B "public")) auto_declared /\
  same_tables (asked DPostgres pg_rows) auto_declared.
Proof.
  split; [repeat constructor|]. split; [nodup|]. split; [|split].
  - repeat apply Forall2_cons; [apply declares_loaded|apply declares_loaded|apply declares_loaded|apply declares_loaded_view|constructor]; (eexists; vm_compute; reflexivity).
  - repeat apply Forall_cons; [| | | |constructor]; (split; [left; vm_compute; discriminate|]); vm_compute; [|intros g []|intros g []|auto]. intros g [<-|[]]. reflexivity.
  - assert (Ti : forall s t x, told (asked DPostgres pg_rows) (IIndex s t x) -> t = B "film").
    { intros s t x (_ & r & I & _ & <- & _). destruct I as [<-|[]]. reflexivity. }
    assert (Tg : forall s t x, told (asked DPostgres pg_rows) (ITrigger s t x) -> t = B "film").
    { intros s t x (_ & r & I & _ & <- & _). destruct I as [<-|[]]. reflexivity. }
    assert (Wi : forall s t x, wanted auto_declared (IIndex s t x) -> t = B "film").
    { intros s t x (u & I & Ig & _ & -> & y & Iy & _). apply in_declared in I. destruct I as [->|[->| ->]]; [vm_compute; reflexivity|vm_compute in Iy; destruct Iy|vm_compute in Ig; discriminate Ig]. }
    assert (Wg : forall s t x, wanted auto_declared (ITrigger s t x) -> t = B "film").
    { intros s t x (u & I & Ig & _ & -> & y & Iy & _). apply in_declared in I. destruct I as [->|[->| ->]]; [vm_compute; reflexivity|vm_compute in Iy; destruct Iy|vm_compute in Ig; discriminate Ig]. }
    split; intros s t t' x [A|A] [C|C].
    + now rewrite (Ti _ _ _ A), (Ti _ _ _ C).
    + now rewrite (Ti _ _ _ A), (Wi _ _ _ C).
    + now rewrite (Wi _ _ _ A), (Ti _ _ _ C).
    + now rewrite (Wi _ _ _ A), (Wi _ _ _ C).
    + now rewrite (Tg _ _ _ A), (Tg _ _ _ C).
    + now rewrite (Tg _ _ _ A), (Wg _ _ _ C).
    + now rewrite (Wg _ _ _ A), (Tg _ _ _ C).
    + now rewrite (Wg _ _ _ A), (Wg _ _ _ C).
Qed.
Definition strings (p : list bytes * lexres unit) : list string * lexres unit := (map string_of_list_ascii (fst p), snd p).
Example auto_sends_example :
  strings (auto_migrate no_numbers (B "postgres") pg_raw (fun _ _ => true) drop_mode [OTables [Some actor_struct]])
  = (["CREATE SCHEMA IF NOT EXISTS app"; "CREATE TABLE IF NOT EXISTS app.actor (
    name TEXT

    ,CONSTRAINT actor_name_key UNIQUE (name)
)"; "DROP MATERIALIZED VIEW IF EXISTS public.film_list"; "DROP TABLE IF EXISTS public.film"; "DROP FUNCTION IF EXISTS lib.f(a integer) CASCADE"; "DROP EXTENSION IF EXISTS hstore"]%string, LOk tt) /\
  snd (strings (auto_migrate no_numbers (B "postgres") pg_raw (fun l _ => Nat.ltb (length l) 2) drop_mode [OTables [Some actor_struct]])) = LErr /\
  length (fst (auto_migrate no_numbers (B "postgres") pg_raw (fun l _ => Nat.ltb (length l) 2) drop_mode [OTables [Some actor_struct]])) = 3.
Proof. repeat split; vm_compute; reflexivity. Qed.
(** The hypotheses of [auto_again]: a SQLite database that holds just the table
    of the struct; SQLite tells no name of its constraint. *)
Definition lite_struct : table_struct := mk_ts [] (B "film") [SColumn (B "film_id") KNumber (B "primarykey")] [].
Definition again_rows : rows :=
  mk_rows [empty_table [] (B "film")] [] [mk_column [] (B "film") (B "film_id") (B "INTEGER") [] false false false false false [] false [] [] false]
    [mk_constraint [] (B "film") [] PRIMARY_KEY [B "film_id"] [[]] [] [] [] [] [] [] [] [] [] [] false false [] false] [] [] [].
Definition again_raw : raw_db :=
  mk_raw true (Result [Some (B "3.36.0")] true) (Result [Some (B "main")] true) (Result [] true) (Result [] true) (Result [Some (mk_tr [] (B "film") [])] true) (Result [] true)
    (Result [Some (mk_lr [] (B "film") (B "film_id") (B "INTEGER") [] false false false [] false [] [])] true)
    (Result [Some (mk_cr [] (B "film") [] PRIMARY_KEY (B "film_id") [] [] [] [] [] [] [] [] [] [] [] false false)] true) (Result [] true) (Result [] true) (Result [] true).
Example auto_again_example :
  let d := DSQLite in let before := told (asked d again_rows) in let xs := [DTable (loaded d lite_struct)] in
  reported no_numbers d [] [] again_rows again_raw /\ well_formed (asked d again_rows) /\ well_named d (asked d again_rows) /\
  Forall2 (declares no_numbers d) (flat_map items_of [OTables [Some lite_struct]]) xs /\ Forall (migratable []) xs /\ same_tables (asked d again_rows) xs /\
  (forall i, in_scope d i -> wanted xs i -> before i) /\
  (forall i, (forall s, i <> ISchema s) -> (d = DSQLite -> forall s t k, i <> IConstraint s t k) -> before i -> wanted xs i) /\
  auto_migrate no_numbers (B "sqlite") again_raw (fun _ _ => true) drop_mode [OTables [Some lite_struct]] = ([], LOk tt).
Proof.
  intros d before xs.
  assert (In1 : forall u, In (DTable u) xs -> u = loaded d lite_struct) by (intros u [E|[]]; injection E as <-; reflexivity).
  split; [|split; [|split; [|split; [|split; [|split; [|split; [|split]]]]]]].
  - split; [reflexivity|]. split. { exists (B "3.36.0"), [3; 36; 0]. split; [now exists []|]. split; [discriminate|]. split; [repeat constructor; unfold max_int64; lia|]. left. reflexivity. }
    split; [exists (B "main"); now exists []|]. split; [reflexivity|]. split; [discriminate|]. split; [eexists [_]; repeat constructor|]. split; [exists []; repeat constructor|].
    split. { eexists [_]. split; [reflexivity|]. constructor; [|constructor]. repeat (split; [reflexivity|]). split; [|left; auto]. right. split; [reflexivity|]. intros t E. apply (f_equal (@length _)) in E. rewrite app_length in E. cbn in E. lia. }
    split. { eexists [_]. split; [reflexivity|]. constructor; [|constructor]. repeat (split; [reflexivity|]). split; [constructor|]. repeat (split; [reflexivity|]). split; [|repeat split].
             repeat constructor; cbn; intuition discriminate. }
    split; [exists []; repeat constructor|]. split; [discriminate|exists []; repeat constructor].
  - split; [nodup|]. split; [repeat (constructor; [split; [discriminate|reflexivity]|]); constructor|]. split; [nodup|]. split; [constructor|]. split; [nodup|]. repeat (constructor; [split; [discriminate|reflexivity]|]); constructor.
  - split; [now intros []|]. split; [repeat (constructor; [reflexivity|]); constructor|]. split; [nodup|]. split; [constructor|]. split; [nodup|]. split; constructor.
  - repeat apply Forall2_cons; [apply declares_loaded|constructor]. eexists. vm_compute. reflexivity.
  - constructor; [|constructor]. split; [now right|]. vm_compute. intros g [].
  - assert (N1 : forall s t x, ~ told (asked d again_rows) (IIndex s t x)) by (intros s t x (_ & r & [] & _)).
    assert (N2 : forall s t x, ~ told (asked d again_rows) (ITrigger s t x)) by (intros s t x (_ & r & [] & _)).
    assert (N3 : forall s t x, ~ wanted xs (IIndex s t x)). { intros s t x (u & I & _ & _ & _ & y & Iy & _). apply In1 in I. subst u. vm_compute in Iy. destruct Iy. }
    assert (N4 : forall s t x, ~ wanted xs (ITrigger s t x)). { intros s t x (u & I & _ & _ & _ & y & Iy & _). apply In1 in I. subst u. vm_compute in Iy. destruct Iy. }
    split; intros s t t' x [A|A]; [now apply N1 in A|now apply N3 in A|now apply N2 in A|now apply N4 in A].
  - intros i Sc Wi.
    assert (Tb : told (asked d again_rows) (ITable [] (B "film"))) by (eexists; split; [now left|split; reflexivity]).
    destruct i; cbn [wanted table_has in_scope] in Wi, Sc.
    + destruct Wi as (x & [<-|[]] & <-). vm_compute in Sc. now destruct Sc.
    + destruct Wi as (u & I & _ & -> & ->). apply In1 in I. subst u. exact Tb.
    + destruct Wi as (u & I & _ & -> & -> & y & Iy & _ & <-). apply In1 in I. subst u. vm_compute in Iy. destruct Iy as [<-|[]]. split; [exact Tb|]. eexists. split; [now left|]. repeat split.
    + now destruct Sc.
    + destruct Wi as (u & I & _ & _ & _ & y & Iy & _). apply In1 in I. subst u. vm_compute in Iy. destruct Iy.
    + destruct Wi as (u & I & _ & _ & _ & y & Iy & _). apply In1 in I. subst u. vm_compute in Iy. destruct Iy.
    + destruct Wi as (v' & [E|[]] & _). discriminate E.
    + now destruct Sc.
  - intros i Ns Nc Bi.
    assert (Tw : In (DTable (loaded d lite_struct)) xs) by now left.
    assert (E : t_schema (loaded d lite_struct) = [] /\ t_name (loaded d lite_struct) = B "film" /\ t_ignore (loaded d lite_struct) = false) by (repeat split; vm_compute; reflexivity). destruct E as (E1 & E2 & E3).
    destruct i; cbn [wanted].
    + now destruct (Ns s).
    + destruct Bi as (r & [<-|[]] & <- & <-). exists (loaded d lite_struct). split; [exact Tw|]. split; [exact E3|]. cbn [table_has]. rewrite E1, E2. split; reflexivity.
    + destruct Bi as (_ & r & [<-|[]] & <- & <- & <-). exists (loaded d lite_struct). split; [exact Tw|]. split; [exact E3|]. cbn [table_has]. rewrite E1, E2. split; [reflexivity|]. split; [reflexivity|].
      eexists. split; [vm_compute; left; reflexivity|]. split; reflexivity.
    + now destruct (Nc eq_refl s t k).
    + destruct Bi as (_ & r & [] & _).
    + destruct Bi as (_ & r & [] & _).
    + destruct Bi as (r & [] & _).
    + destruct Bi as (r & [] & _).
  - vm_compute. reflexivity.
Qed.

(** ** Where AutoMigrate falls short *)
(** Structs that do not name their schema: the table that both the database and
    the structs have is dropped (Postgres, MySQL; DropExtraneous). *)
Theorem auto_unqualified_refuted :
  fst (strings (auto_migrate no_numbers (B "postgres") pg_raw (fun _ _ => true) (mk_mode true false true false)
     [OTables [Some (mk_ts [] (B "film") [SColumn (B "title") KString (B "notnull")] [])]; OViews [Some (list_view [] (B "film_list"))]; OExtensions [B "hstore"]]))
  = ["CREATE EXTENSION IF NOT EXISTS hstore"; "DROP MATERIALIZED VIEW IF EXISTS public.film_list"; "DROP TABLE IF EXISTS public.film";
     "DROP FUNCTION IF EXISTS lib.f(a integer) CASCADE"; "DROP EXTENSION IF EXISTS hstore"]%string.
Proof. vm_compute. reflexivity. Qed.
Print Assumptions auto_unqualified_refuted.
(** A table that is there and whose struct says Ignore is dropped. *)
Theorem auto_ignored_refuted :
  fst (strings (auto_migrate no_numbers (B "sqlite") again_raw (fun _ _ => true) drop_mode [OTables [Some (mk_ts [] (B "film") [] [TIgnore])]])) = ["DROP TABLE IF EXISTS film"%string].
Proof. vm_compute. reflexivity. Qed.
Print Assumptions auto_ignored_refuted.
