(** * ServerStep: what the text of one command does to the database of SpecServer *)
From Coq Require Import Lia.
From Verif Require Import GoBase GoBaseFacts QuoteModel EffectModel SpecText SpecLex SpecIdent SpecSql.
From Verif Require Import CacheModel UpsertModel DdlModel MigrateModel SpecDdl SpecDrop SpecMigrate SpecColumn SpecExec SpecServer
  MigrateFacts ServerFacts ServerText DdlToks DdlRead DdlConstraint DdlIndex DdlTable DdlAlter DdlSupported DdlDrop PropertiesDdl.

Section Step.
  Variable d : dialect.
  Variable current : bytes.
  Local Notation res := (resolve current).

  (** ** What a command creates *)
  Definition column_pair (s t : bytes) (l : column) : item * definition := (IColumn s t (l_name l), FColumn (said_column d l [] None)).
  Definition constraint_pair (s t : bytes) (k : constraint) : item * definition :=
    (IConstraint s t (c_name k), FConstraint (said_def d k) (said_deferrable k) false false).
  Definition index_pair (s t : bytes) (x : create_index) : item * definition :=
    (IIndex s t (x_name (ci_index x)), index_definition (said_index d x)).
  Definition not_sqlite_list {A} (l : list A) : list A := match d with DSQLite => [] | _ => l end.
  Definition table_items (c : create_table) : list (item * definition) :=
    let s := res (t_schema (ct_table c)) in let n := t_name (ct_table c) in
    map (column_pair s n) (table_columns c) ++ map (constraint_pair s n) (not_sqlite_list (table_constraints d c)) ++
    map (index_pair s n) (alive ci_ignore (ct_indexes c)).
  Definition alter_items (a : alter_table) : list (item * definition) :=
    let s := res (a_schema a) in let n := a_table a in
    map (fun x => column_pair s n (al_column x)) (a_add_columns a) ++
    map (fun x => constraint_pair s n (at_constraint x)) (not_sqlite_list (a_add_constraints a)) ++
    map (index_pair s n) (a_create_indexes a).
  Definition created (c : command) : list (item * definition) :=
    match c with
    | KCreateSchema c => [(ISchema (cs_name c), FSchema)]
    | KCreateTable c => (ITable (res (t_schema (ct_table c))) (t_name (ct_table c)), FTable) :: table_items c
    | KAlterTable a | KAddForeignKey a | KAlterTableDrop a => alter_items a
    | KCreateView c => let w := cv_view c in [(IView (res (v_schema w)) (v_name w), FView (v_materialized w) (frag d (v_sql w)))]
    | KCreateIndex c => [index_pair (res (x_schema (ci_index c))) (x_table (ci_index c)) c]
    | KCreateTrigger c => let g := cg_trigger c in [(ITrigger (res (g_schema g)) (g_table g) (g_name g), FTrigger (frag d (g_sql g)))]
    | KCreateFunction c => let f := cf_function c in [(IFunction (res (f_schema f)) (f_name f), FFunction (frag d (f_sql f)))]
    | _ => []
    end.

  (** ** The commands that can be read *)
  Record only_adds (a : alter_table) : Prop := {
    oa_alter : a_alter_columns a = []; oa_alter_k : a_alter_constraints a = [];
    oa_drop : a_drop_columns a = []; oa_drop_k : a_drop_constraints a = []; oa_drop_x : a_drop_indexes a = [];
    oa_columns : forall c, In c (a_add_columns a) -> al_checks c = [] /\ al_ref_table c = [];
    oa_constraints : forall c, In c (a_add_constraints a) -> at_index c = [] /\ at_not_valid c = false;
    oa_named : d <> DSQLite -> forall c, In c (a_add_constraints a) -> named_constraint d (at_constraint c) }.
  Record only_drops (a : alter_table) : Prop := {
    od_add : a_add_columns a = []; od_add_k : a_add_constraints a = []; od_add_x : a_create_indexes a = [];
    od_alter : a_alter_columns a = []; od_alter_k : a_alter_constraints a = [];
    od_sqlite : d = DSQLite -> a_drop_constraints a = [];
    od_nodup : NoDup (map dl_name (a_drop_columns a)) /\ NoDup (map dk_name (a_drop_constraints a)) /\ NoDup (map dx_name (a_drop_indexes a)) }.
  Definition command_ok (c : command) : Prop :=
    match c with
    | KCreateSchema c => plain_word d (cs_name c)
    | KCreateExtension c => d = DPostgres /\ exists n v, extension_parts (ce_extension c) n v /\ good_name DPostgres n /\ ~ has_inner_pair "'" v
    | KCreateFunction c => function_readable d current (cf_function c)
    | KCreateTable c => t_virtual (ct_table c) = [] /\ create_table_ok d c /\
        (d <> DSQLite -> forall k, In k (table_constraints d c) -> named_constraint d k)
    | KAlterTable a | KAddForeignKey a => alter_table_ok d a /\ only_adds a
    | KAlterTableDrop a => alter_table_ok d a /\ only_drops a
    | KCreateView c => create_view_ok d c
    | KCreateIndex c => d <> DMySQL /\ index_ok d (ci_index c)
    | KCreateTrigger c => trigger_readable d current (cg_trigger c)
    | KDropView c => dv_if_exists c = true /\ names_ok d (dv_names c)
    | KDropTable c => dt_if_exists c = true /\ names_ok d (dt_names c)
    | KDropTrigger c => dg_if_exists c = true /\ drop_trigger_ok d c
    | KDropIndex c => d <> DMySQL /\ dx_if_exists c = true /\ drop_index_ok d c
    | KDropFunction c => df_if_exists c = true /\ drop_function_ok d c
    | KDropExtension c => d = DPostgres /\ exists ns, ns <> [] /\
        Forall2 (fun e n => exists v, extension_parts e n v) (de_extensions c) ns /\ Forall (good_name DPostgres) ns
    end.
  (** ** The state it can be carried out in *)
  Definition schema_there (db : contents) (s : bytes) : Prop := res s = current \/ has db (ISchema (res s)) = true.
  Definition places (c : command) (db : contents) : Prop :=
    match c with
    | KCreateTable c => schema_there db (t_schema (ct_table c)) /\
        let s := res (t_schema (ct_table c)) in let t := t_name (ct_table c) in
        (d <> DSQLite -> forall k, In k (table_constraints d c) ->
           refers_to_something current s t (said_def d k) (db ++ map (column_pair s t) (table_columns c)) = true)
    | KCreateView c => schema_there db (v_schema (cv_view c))
    | KCreateFunction c => schema_there db (f_schema (cf_function c))
    | KCreateIndex c => has db (ITable (res (x_schema (ci_index c))) (x_table (ci_index c))) = true /\
        forall t, has db (IIndex (res (x_schema (ci_index c))) t (x_name (ci_index c))) = false
    | KCreateTrigger c => has db (ITable (res (g_schema (cg_trigger c))) (g_table (cg_trigger c))) = true
    | KAlterTable a | KAddForeignKey a =>
        let s := res (a_schema a) in let t := a_table a in
        has db (ITable s t) = true /\
        (d <> DSQLite -> forall k, In k (a_add_constraints a) ->
           refers_to_something current s t (said_def d (at_constraint k)) (db ++ map (fun x => column_pair s t (al_column x)) (a_add_columns a)) = true)
    | KAlterTableDrop a => has db (ITable (res (a_schema a)) (a_table a)) = true /\
        forall i, removes d current c i -> has db i = true
    | _ => True
    end.
  Definition ready (c : command) (db : contents) : Prop :=
    places c db /\ NoDup (map fst (created c)) /\ forall p, In p (created c) -> has db (fst p) = false.
  Definition carried_out (c : command) (db : contents) : Prop :=
    forall q, text_of (command_sql d c) = Some q -> exists db', serve d current q db = Some db' /\
      forall i v, In (i, v) db' <-> (In (i, v) db /\ ~ removes d current c i) \/ In (i, v) (created c).

  Lemma schema_there_ok : forall db s, schema_there db s -> has_schema current db s = true.
  Proof. intros db s [H|H]; unfold has_schema; apply orb_true_iff; [left; now apply beqb_eq|now right]. Qed.
  Lemma app_in : forall (db l : contents) i v (P : Prop), ~ P -> In (i, v) (db ++ l) <-> (In (i, v) db /\ ~ P) \/ In (i, v) l.
  Proof. intros db l i v P N. rewrite in_app_iff. tauto. Qed.
  Lemma serve_read : forall q ts x db, tokens d q = Some ts -> read_statement ts = Some x -> serve d current q db = does d current x db.
  Proof. intros q ts x db T R. unfold serve. now rewrite T, R. Qed.
  (** Constraints are called by their names. *)
  Lemma said_def_primary : forall k, d = DMySQL -> c_type k <> PRIMARY_KEY -> match said_def d k with KKey true _ => False | _ => True end.
  Proof.
    intros k _ N. unfold said_def. destruct (beqb (c_type k) CHECK); [exact I|]. destruct (beqb (c_type k) UNIQUE); [exact I|].
    destruct (beqb (c_type k) PRIMARY_KEY) eqn:E; [apply beqb_eq in E; contradiction|]. destruct (beqb (c_type k) FOREIGN_KEY); exact I.
  Qed.
  Lemma called : forall k o, d <> DSQLite -> named_constraint d k ->
    o = (if is_empty (c_name k) || (is_mysql d && beqb (c_type k) PRIMARY_KEY) then None else Some (c_name k)) ->
    constraint_called d (mk_table_con o (said_def d k) (said_deferrable k)) = Some (c_name k).
  Proof.
    intros k o S [N M] ->. rewrite (is_empty_false _ N). cbn [orb]. unfold constraint_called. cbn [tc_def tc_name].
    assert (P : is_mysql d = true -> d = DMySQL) by apply is_mysql_eq.
    destruct (beqb (c_type k) PRIMARY_KEY) eqn:E.
    - apply beqb_eq in E. destruct (is_mysql d) eqn:Q.
      + rewrite (P eq_refl) in *. unfold said_def. rewrite E. change (beqb PRIMARY_KEY CHECK) with false. change (beqb PRIMARY_KEY UNIQUE) with false.
        change (beqb PRIMARY_KEY PRIMARY_KEY) with true. cbn [andb]. f_equal. symmetry. now apply M.
      + cbn [andb]. destruct d; try congruence; try discriminate Q; reflexivity.
    - rewrite andb_false_r. destruct d eqn:D; try congruence; try reflexivity. pose proof (said_def_primary k) as G. rewrite D in G.
      assert (c_type k <> PRIMARY_KEY) by (intros X; apply beqb_eq in X; congruence). specialize (G eq_refl H).
      destruct (said_def DMySQL k); try reflexivity. destruct primary; [contradiction|reflexivity].
  Qed.

  Lemma remove_all_none : forall i db, has db i = false -> remove_all (same_item i) db = db.
  Proof.
    intros i db H. unfold remove_all. induction db as [|p db IH]; [reflexivity|]. cbn [has existsb] in H. apply orb_false_iff in H. destruct H as [A X].
    cbn [filter]. replace (same_item i (fst p)) with false; [|destruct (same_item i (fst p)) eqn:E; [apply same_item_eq in E; subst|reflexivity]].
    - cbn [negb]. f_equal. now apply IH.
    - assert (Y : same_item (fst p) (fst p) = true) by now apply same_item_eq. congruence.
  Qed.
  Lemma one_added : forall c db i0 v0 (P : Prop), created c = [(i0, v0)] -> (forall i, ~ removes d current c i) ->
    forall i v, In (i, v) (db ++ [(i0, v0)]) <-> (In (i, v) db /\ ~ removes d current c i) \/ In (i, v) (created c).
  Proof. intros c db i0 v0 _ E N i v. rewrite E. now apply app_in. Qed.

  Lemma step_create_schema : forall c db, cs_ignore c = false -> command_ok (KCreateSchema c) -> ready (KCreateSchema c) db -> carried_out (KCreateSchema c) db.
  Proof.
    intros c db IG OK (_ & _ & F) q T. destruct (create_schema_reads_back d c q IG OK T) as (ts & TS & R).
    rewrite (serve_read q ts _ db TS (statement_schema ts _ R)). cbn [fst snd does].
    assert (H : has db (ISchema (cs_name c)) = false) by (apply (F (ISchema (cs_name c), FSchema)); now left).
    rewrite H. cbn [andb]. rewrite add_new by exact H. eexists. split; [reflexivity|]. intros i v. apply app_in. cbn [removes]. tauto.
  Qed.
  Lemma nothing_happens : forall c db, created c = [] -> (forall i, ~ removes d current c i) ->
    forall i v, In (i, v) db <-> (In (i, v) db /\ ~ removes d current c i) \/ In (i, v) (created c).
  Proof. intros c db E N i v. rewrite E. specialize (N i). cbn [In]. tauto. Qed.
  Lemma step_create_extension : forall c db, ce_ignore c = false -> command_ok (KCreateExtension c) -> carried_out (KCreateExtension c) db.
  Proof.
    intros c db IG (D & n & v & X & G & P) q T. rewrite D in T. destruct (create_extension_reads_back c n v q IG X G P T) as (ts & TS & R). rewrite <- D in TS.
    rewrite (serve_read q ts _ db TS (statement_extension ts _ R)). cbn [does]. eexists. split; [reflexivity|]. apply nothing_happens; [reflexivity|]. intros i []. 
  Qed.
  Lemma step_drop_extension : forall c db, de_ignore c = false -> command_ok (KDropExtension c) -> carried_out (KDropExtension c) db.
  Proof.
    intros c db IG (D & ns & N & X & G) q T. rewrite D in T. destruct (drop_extension_reads_back c ns q IG N X G T) as (ts & TS & R). rewrite <- D in TS.
    rewrite (serve_read q ts _ db TS (statement_drop_extension ts _ R)). cbn [does]. eexists. split; [reflexivity|]. apply nothing_happens; [reflexivity|]. intros i []. 
  Qed.
  Lemma step_create_view : forall c db, cv_ignore c = false -> command_ok (KCreateView c) -> ready (KCreateView c) db -> carried_out (KCreateView c) db.
  Proof.
    intros c db IG OK (PL & _ & F) q T. destruct (create_view_reads_back d c q IG OK T) as (ts & TS & R).
    rewrite (serve_read q ts _ db TS (statement_view ts _ R)). cbn [does said_create_view vw_schema vw_name vw_if_not_exists vw_or_replace vw_materialized vw_query].
    cbn [created places] in F, PL. specialize (F _ (or_introl eq_refl)). cbn [fst] in F. rewrite F. cbn [andb].
    rewrite (schema_there_ok _ _ PL). cbn [demand].
    replace (if cv_or_replace c then remove_all (same_item (IView (resolve current (v_schema (cv_view c))) (v_name (cv_view c)))) db else db) with db
      by (destruct (cv_or_replace c); [now rewrite remove_all_none|reflexivity]).
    rewrite add_new by exact F. eexists. split; [reflexivity|]. intros i v. apply app_in. cbn [removes]. tauto.
  Qed.
  Lemma step_create_function : forall c db, cf_ignore c = false -> command_ok (KCreateFunction c) -> ready (KCreateFunction c) db -> carried_out (KCreateFunction c) db.
  Proof.
    intros c db IG (ts & rp & s & TS & R & E) (PL & _ & F) q T. cbn [command_sql] in T. unfold create_function_sql in T. rewrite IG in T.
    destruct (is_sqlite d); [discriminate|]. assert (q = f_sql (cf_function c)) by (cbn in T; rewrite app_nil_r in T; congruence). subst q.
    rewrite (serve_read _ ts _ db TS (statement_function ts _ _ _ R)). cbn [does].
    cbn [created places] in F, PL. specialize (F _ (or_introl eq_refl)). cbn [fst] in F. rewrite E.
    assert (SC : has_schema current db s = true). { unfold has_schema. rewrite E. apply schema_there_ok in PL. exact PL. }
    rewrite SC. cbn [demand].
    replace (if rp then remove_all (same_item (IFunction (resolve current (f_schema (cf_function c))) (f_name (cf_function c)))) db else db) with db
      by (destruct rp; [now rewrite remove_all_none|reflexivity]).
    rewrite add_new by exact F. eexists. split; [reflexivity|]. intros i v. cbn [created]. unfold frag. rewrite TS. apply app_in. cbn [removes]. tauto.
  Qed.
  Lemma step_create_trigger : forall c db, cg_ignore c = false -> command_ok (KCreateTrigger c) -> ready (KCreateTrigger c) db -> carried_out (KCreateTrigger c) db.
  Proof.
    intros c db IG (ts & s & s' & TS & R & E) (PL & _ & F) q T. cbn [command_sql] in T. unfold create_trigger_sql in T. rewrite IG in T.
    assert (q = g_sql (cg_trigger c)) by (cbn in T; rewrite app_nil_r in T; congruence). subst q.
    rewrite (serve_read _ ts _ db TS (statement_trigger ts _ R)). cbn [does tg_name tg_table fst snd].
    cbn [created places] in F, PL. specialize (F _ (or_introl eq_refl)). cbn [fst] in F. rewrite E, PL. cbn [demand]. rewrite add_new by exact F.
    eexists. split; [reflexivity|]. intros i v. cbn [created]. unfold frag. rewrite TS. apply app_in. cbn [removes]. tauto.
  Qed.
  Lemma step_create_index : forall c db, ci_ignore c = false -> command_ok (KCreateIndex c) -> ready (KCreateIndex c) db -> carried_out (KCreateIndex c) db.
  Proof.
    intros c db IG (NM & OK) ((PT & PX) & _ & F) q T. destruct (create_index_reads_back d c q NM IG OK T) as (ts & TS & R).
    rewrite (serve_read q ts _ db TS (statement_index ts _ R)).
    assert (M : is_mysql d = false) by (destruct (is_mysql d) eqn:M; [now apply is_mysql_eq in M|reflexivity]).
    assert (TB : id_table (said_index d c) = Some (x_schema (ci_index c), x_table (ci_index c))) by (unfold said_index; cbn [id_table]; now rewrite M).
    unfold does. rewrite TB. cbv zeta. change (id_name (said_index d c)) with (x_name (ci_index c)).
    cbn [created] in F. specialize (F _ (or_introl eq_refl)). cbn [fst index_pair] in F.
    match goal with |- context [existsb ?f db] => assert (X : existsb f db = false) end.
    { destruct (existsb _ db) eqn:X; [|reflexivity]. apply existsb_exists in X. destruct X as ([i v] & I & X). cbn [fst] in X.
      destruct i; try discriminate. cbn [index_called] in X. apply andb_true_iff in X. destruct X as [X1 X2]. apply beqb_eq in X1, X2. subst s x.
      specialize (PX t). apply (proj1 (has_not _ _)) with (v := v) in PX. contradiction. }
    rewrite X. cbn [places] in PT. rewrite PT. cbn [demand]. rewrite add_new by exact F. eexists. split; [reflexivity|].
    intros i v. cbn [created]. unfold index_pair. apply app_in. cbn [removes]. tauto.
  Qed.

  (** ** CREATE TABLE *)
  Definition element_pair (s t : bytes) (e : element) : option (item * definition) :=
    match e with
    | EColumn c => Some (IColumn s t (cd_name c), FColumn c)
    | EConstraint k => option_map (fun n => (IConstraint s t n, FConstraint (tc_def k) (tc_deferrable k) false false)) (constraint_called d k)
    | EIndex x => Some (IIndex s t (id_name x), index_definition x)
    end.
  Definition may_refer (s t : bytes) (k : table_con) (db : contents) : Prop := d <> DSQLite -> refers_to_something current s t (tc_def k) db = true.
  Lemma refers_more : forall s t k (db db' : contents), (forall i, has db i = true -> has db' i = true) ->
    refers_to_something current s t k db = true -> refers_to_something current s t k db' = true.
  Proof.
    intros s t k db db' H. assert (C : forall s t cols, columns_there s t cols db = true -> columns_there s t cols db' = true).
    { intros s0 t0 cols. unfold columns_there. rewrite !forallb_forall. auto. }
    destruct k; cbn [refers_to_something]; auto. rewrite !andb_true_iff. intros [[A B] E]. auto.
  Qed.
  Lemma has_more : forall (db l l' : contents) i, (forall p, In p l -> In p l') -> has (db ++ l) i = true -> has (db ++ l') i = true.
  Proof.
    intros db l l' i H. rewrite !has_app, !orb_true_iff. intros [A|A]; [now left|right]. apply has_in in A. destruct A as (v & A).
    apply has_in. exists v. auto.
  Qed.
  Lemma add_element_pair : forall s t e db, (forall k, e = EConstraint k -> may_refer s t k db) ->
    match element_pair s t e with Some p => has db (fst p) = false -> add_element d current s t e db = Some (db ++ [p]) | None => add_element d current s t e db = Some db end.
  Proof.
    intros s t [c|k|x] db R; cbn [element_pair add_element].
    - intros H. now rewrite add_new.
    - unfold add_table_constraint. destruct (constraint_called d k) eqn:E; cbn [option_map]; [intros H|reflexivity].
      rewrite (R k eq_refl); [cbn [demand]; now rewrite add_new|]. intros X. unfold constraint_called in E. rewrite X in E. discriminate.
    - intros H. now rewrite add_new.
  Qed.
  Lemma flat_map_map : forall A B C (f : B -> list C) (g : A -> B) l, flat_map f (map g l) = flat_map (fun a => f (g a)) l.
  Proof. intros A B C f g l. induction l as [|a l IH]; [reflexivity|]. cbn. now rewrite IH. Qed.
  Lemma flat_map_single : forall A B (f : A -> list B) (g : A -> B) l, (forall a, In a l -> f a = [g a]) -> flat_map f l = map g l.
  Proof. intros A B f g l. induction l as [|a l IH]; intros H; [reflexivity|]. cbn. rewrite H by now left. cbn. rewrite IH; [reflexivity|]. intros b I. apply H. now right. Qed.
  Lemma flat_map_none : forall A B (f : A -> list B) l, (forall a, In a l -> f a = []) -> flat_map f l = [].
  Proof. intros A B f l. induction l as [|a l IH]; intros H; [reflexivity|]. cbn. rewrite H by now left. cbn. apply IH. intros b I. apply H. now right. Qed.
  Lemma sqlite_dec : d = DSQLite \/ d <> DSQLite.
  Proof. destruct d; [now left|right; discriminate..]. Qed.
  Lemma not_sqlite_id : forall A (l : list A), d <> DSQLite -> not_sqlite_list l = l.
  Proof. intros A l N. unfold not_sqlite_list. destruct d; congruence. Qed.
  Lemma said_elements : forall c s t, (d <> DSQLite -> forall k, In k (table_constraints d c) -> named_constraint d k) ->
    flat_map (fun e => as_list (element_pair s t e)) (td_elements (said_table d c)) =
    map (column_pair s t) (table_columns c) ++ map (constraint_pair s t) (not_sqlite_list (table_constraints d c)) ++ map (index_pair s t) (alive ci_ignore (ct_indexes c)).
  Proof.
    intros c s t N. cbn [said_table td_elements]. rewrite !flat_map_app, !flat_map_map. apply f_equal2; [|apply f_equal2].
    - now apply flat_map_single.
    - destruct sqlite_dec as [E|E].
      + unfold not_sqlite_list. rewrite E. rewrite flat_map_none; [reflexivity|]. intros k _. cbn [element_pair constraint_called]. now rewrite E.
      + rewrite not_sqlite_id by exact E. apply flat_map_single. intros k I. cbn [element_pair]. unfold said_constraint.
        rewrite (called k _ E (N E k I) eq_refl). reflexivity.
    - now apply flat_map_single.
  Qed.
  Lemma step_create_table : forall c db, ct_ignore c = false -> command_ok (KCreateTable c) -> ready (KCreateTable c) db -> carried_out (KCreateTable c) db.
  Proof.
    intros c db IG (VI & OK & NC) (PL & ND & F) q T. destruct (create_table_reads_back d c q IG VI OK T) as (ts & TS & R).
    rewrite (serve_read q ts _ db TS (statement_table ts _ R)). unfold does. cbv zeta.
    change (td_schema (said_table d c)) with (t_schema (ct_table c)). change (td_name (said_table d c)) with (t_name (ct_table c)).
    cbn [places created] in PL, ND, F. destruct PL as [PL REF]. cbv zeta in REF. pose proof (F _ (or_introl eq_refl)) as F0. cbn [fst] in F0. rewrite F0. cbn [andb].
    rewrite (schema_there_ok _ _ PL). cbn [demand]. rewrite add_new by exact F0.
    cbn [map fst] in ND. inversion ND as [|x y NI ND']; subst.
    rewrite (each_add _ _ (element_pair (res (t_schema (ct_table c))) (t_name (ct_table c)))).
    - rewrite said_elements by exact NC. fold (table_items c). eexists. split; [reflexivity|]. intros i v. cbn [created]. rewrite <- app_assoc. apply app_in. cbn [removes]. tauto.
    - intros l1 e l2 E. apply add_element_pair. intros k -> NS. cbn [said_table td_elements] in E.
      assert (K : exists k', In k' (table_constraints d c) /\ k = said_constraint d k').
      { assert (I : In (EConstraint k) (l1 ++ EConstraint k :: l2)) by (apply in_or_app; right; now left). rewrite <- E, !in_app_iff, !in_map_iff in I.
        destruct I as [(y & Y & _)|[(y & Y & I)|(y & Y & _)]]; try discriminate. exists y. split; [exact I|congruence]. }
      destruct K as (k' & I & ->). cbn [said_constraint tc_def].
      destruct (second_part _ _ _ _ _ _ E) as (l3 & ->); [rewrite in_map_iff; intros (y & Y & _); discriminate|].
      apply (refers_more _ _ _ _ _) with (2 := REF NS k' I). intros i. rewrite <- app_assoc. apply has_more. intros p P. right. cbn [app].
      rewrite flat_map_app, in_app_iff. left. rewrite flat_map_map. rewrite flat_map_single with (g := column_pair (res (t_schema (ct_table c))) (t_name (ct_table c))); [exact P|reflexivity].
    - rewrite said_elements by exact NC. exact ND'.
    - rewrite said_elements by exact NC. fold (table_items c). intros p I. rewrite has_app. rewrite (F p (or_intror I)). cbn [has existsb fst orb]. rewrite orb_false_r.
      match goal with |- ?x = false => destruct x eqn:E end; [|reflexivity]. apply same_item_eq in E. destruct NI. rewrite E. now apply in_map.
  Qed.

  (** ** ALTER TABLE *)
  Definition action_pair (s t : bytes) (a : action) : option (item * definition) :=
    match a with
    | AAddColumn _ c => Some (IColumn s t (cd_name c), FColumn c)
    | AAddConstraint k nv ne => option_map (fun n => (IConstraint s t n, FConstraint (tc_def k) (tc_deferrable k) nv ne)) (constraint_called d k)
    | AAddIndex x => Some (IIndex s t (id_name x), index_definition x)
    | _ => None
    end.
  Definition is_add (a : action) : Prop := match a with AAddColumn _ _ | AAddConstraint _ _ _ | AAddIndex _ => True | _ => False end.
  Lemma do_action_pair : forall s t a db, is_add a -> (forall k nv ne, a = AAddConstraint k nv ne -> may_refer s t k db) ->
    match action_pair s t a with Some p => has db (fst p) = false -> do_action d current s t a db = Some (db ++ [p]) | None => do_action d current s t a db = Some db end.
  Proof.
    intros s t a db A R. destruct a; try contradiction; cbn [action_pair do_action].
    - intros H. cbn [fst] in H. rewrite H. cbn [andb]. now rewrite add_new.
    - unfold add_table_constraint. destruct (constraint_called d c) eqn:E; cbn [option_map]; [intros H|reflexivity].
      rewrite (R _ _ _ eq_refl); [cbn [demand]; now rewrite add_new|]. intros X. unfold constraint_called in E. rewrite X in E. discriminate.
    - intros H. now rewrite add_new.
  Qed.
  Lemma alter_adds_said : forall a, only_adds a ->
    ad_actions (said_alter d a) = map (said_add_column d) (a_add_columns a) ++ map (said_add_constraint d) (a_add_constraints a) ++
      map (fun c => AAddIndex (said_index d c)) (a_create_indexes a).
  Proof.
    intros a []. cbn [said_alter ad_actions]. rewrite oa_alter0, oa_alter_k0, oa_drop0, oa_drop_k0, oa_drop_x0. cbn [flat_map map app]. now rewrite app_nil_r.
  Qed.
  Lemma said_actions : forall a (s t : bytes), only_adds a ->
    (forall x : action, In x (ad_actions (said_alter d a)) -> is_add x) /\
    flat_map (fun x => as_list (action_pair s t x)) (ad_actions (said_alter d a)) =
    map (fun x => column_pair s t (al_column x)) (a_add_columns a) ++
    map (fun x => constraint_pair s t (at_constraint x)) (not_sqlite_list (a_add_constraints a)) ++ map (index_pair s t) (a_create_indexes a).
  Proof.
    intros a s t OA. rewrite alter_adds_said by exact OA. destruct OA as [? ? ? ? ? COLS CONS NAMED].
    assert (C1 : forall x, In x (a_add_constraints a) -> exists o, said_add_constraint d x = AAddConstraint (mk_table_con o (said_def d (at_constraint x)) (said_deferrable (at_constraint x))) false false /\
       (c_name (at_constraint x) <> [] -> o = (if is_empty (c_name (at_constraint x)) || (is_mysql d && beqb (c_type (at_constraint x)) PRIMARY_KEY) then None else Some (c_name (at_constraint x))))).
    { intros x I. destruct (CONS x I) as [E V]. unfold said_add_constraint. rewrite E, V.
      exists (match d with DMySQL => if beqb (c_type (at_constraint x)) PRIMARY_KEY then None else Some (c_name (at_constraint x)) | _ => Some (c_name (at_constraint x)) end).
      split; [destruct d; reflexivity|]. intros N. rewrite (is_empty_false _ N). cbn [orb].
      destruct d; cbn [is_mysql andb]; try reflexivity. }
    split.
    - intros x I. rewrite !in_app_iff, !in_map_iff in I. destruct I as [(y & <- & _)|[(y & <- & Y)|(y & <- & _)]]; try exact I.
      destruct (C1 y Y) as (o & -> & _). exact I.
    - rewrite !flat_map_app, !flat_map_map. apply f_equal2; [|apply f_equal2].
      + apply flat_map_single. intros x I. destruct (COLS x I) as [E1 E2]. unfold said_add_column, column_pair. rewrite E1, E2. cbn [map action_pair as_list].
        destruct d; reflexivity.
      + destruct sqlite_dec as [E|E].
        * unfold not_sqlite_list. rewrite E. rewrite flat_map_none; [reflexivity|]. intros x I. rewrite <- E. destruct (C1 x I) as (o & -> & _). cbn [action_pair]. unfold constraint_called. now rewrite E.
        * rewrite not_sqlite_id by exact E. apply flat_map_single. intros x I. destruct (C1 x I) as (o & -> & N). cbn [action_pair].
          pose proof (NAMED E x I) as NC. rewrite (called _ o E NC (N (proj1 NC))). reflexivity.
      + now apply flat_map_single.
  Qed.
  Lemma step_alter_adds : forall a c db, (c = KAlterTable a \/ c = KAddForeignKey a) -> a_ignore a = false -> command_ok c -> ready c db -> carried_out c db.
  Proof.
    intros a c db C IG OK0 RD q T.
    assert (OK : alter_table_ok d a /\ only_adds a) by (destruct C; subst c; exact OK0). clear OK0.
    assert (T' : text_of (alter_table_sql d a) = Some q) by (destruct C; subst c; exact T). clear T.
    assert (PL : has db (ITable (res (a_schema a)) (a_table a)) = true) by (destruct C; subst c; exact (proj1 (proj1 RD))).
    assert (REF : d <> DSQLite -> forall k, In k (a_add_constraints a) ->
      refers_to_something current (res (a_schema a)) (a_table a) (said_def d (at_constraint k)) (db ++ map (fun x => column_pair (res (a_schema a)) (a_table a) (al_column x)) (a_add_columns a)) = true)
      by (destruct C; subst c; exact (proj2 (proj1 RD))).
    assert (CR : created c = alter_items a) by (destruct C; subst c; reflexivity).
    assert (RM : forall i, ~ removes d current c i).
    { destruct OK as [_ OA]. destruct OA as [OA1 OA2 OA3 OA4 OA5 OA6 OA7 OA8]. intros i H. assert (H' : alter_table_removes current a i) by (destruct C; subst c; exact H).
      unfold alter_table_removes in H'. rewrite OA3, OA4, OA5 in H'. destruct H' as [_ H']. destruct i; try contradiction; destruct H' as (? & [] & _). }
    destruct RD as (_ & ND & F). rewrite CR in ND, F. destruct OK as [OK OA].
    destruct (alter_table_reads_back d a q IG OK T') as (ts & TS & R).
    rewrite (serve_read q ts _ db TS (statement_alter ts _ R)). unfold does. cbv zeta.
    change (ad_schema (said_alter d a)) with (a_schema a). change (ad_table (said_alter d a)) with (a_table a). rewrite PL.
    destruct (said_actions a (res (a_schema a)) (a_table a) OA) as [AD SA].
    rewrite (each_add _ _ (action_pair (res (a_schema a)) (a_table a))).
    - rewrite SA. fold (alter_items a). eexists. split; [reflexivity|]. intros i v. rewrite CR. apply app_in. apply RM.
    - intros l1 x l2 E. apply do_action_pair; [apply AD; rewrite E; apply in_or_app; right; now left|]. intros k nv ne -> NS.
      rewrite (alter_adds_said a OA) in E.
      assert (K : exists k', In k' (a_add_constraints a) /\ tc_def k = said_def d (at_constraint k')).
      { assert (I : In (AAddConstraint k nv ne) (l1 ++ AAddConstraint k nv ne :: l2)) by (apply in_or_app; right; now left). rewrite <- E, !in_app_iff, !in_map_iff in I.
        destruct I as [(y & Y & _)|[(y & Y & I)|(y & Y & _)]]; try discriminate. exists y. split; [exact I|].
        unfold said_add_constraint in Y. destruct (at_index y); [|discriminate]. cbv zeta in Y. injection Y as <- _ _. reflexivity. }
      destruct K as (k' & I & ->).
      destruct (second_part _ _ _ _ _ _ E) as (l3 & ->); [rewrite in_map_iff; intros (y & Y & _); discriminate|].
      apply (refers_more _ _ _ _ _) with (2 := REF NS k' I). intros i. apply has_more. intros p P.
      rewrite flat_map_app, in_app_iff. left. rewrite flat_map_map. rewrite flat_map_single with (g := fun x => column_pair (res (a_schema a)) (a_table a) (al_column x)); [exact P|].
      intros y Y. destruct (oa_columns a OA y Y) as [E1 E2]. unfold said_add_column, column_pair. rewrite E1, E2. cbn [map action_pair as_list]. destruct d; reflexivity.
    - rewrite SA. exact ND.
    - rewrite SA. exact F.
  Qed.
  Definition action_item (s t : bytes) (a : action) : item :=
    match a with
    | ADropColumn _ n _ => IColumn s t n | ADropConstraint _ n _ => IConstraint s t n | ADropIndex n => IIndex s t n
    | _ => ITable s t
    end.
  Lemma NoDup_map_inj : forall A B C (f : A -> B) (g : B -> C) l, (forall x y, g x = g y -> x = y) -> NoDup (map f l) -> NoDup (map (fun a => g (f a)) l).
  Proof.
    intros A B C f g l H N. induction l as [|a l IH]; [constructor|]. cbn [map] in *. inversion N as [|x y NI N']; subst. constructor; [|now apply IH].
    rewrite in_map_iff. intros (b & E & I). apply H in E. destruct NI. rewrite <- E. now apply in_map.
  Qed.
  Lemma NoDup_three : forall A (a b c : list A), NoDup a -> NoDup b -> NoDup c -> (forall x, In x a -> ~ In x b /\ ~ In x c) -> (forall x, In x b -> ~ In x c) -> NoDup (a ++ b ++ c).
  Proof.
    intros A a b c NA NB NC H1 H2. induction NA as [|x a NI NA IH]; cbn [app].
    - induction NB as [|y b NI NB IH]; cbn [app]; [exact NC|]. constructor; [|apply IH; [intros x []|intros x I; apply H2; now right]].
      rewrite in_app_iff. intros [I|I]; [contradiction|]. now apply (H2 y (or_introl eq_refl)).
    - constructor; [|apply IH; intros y I; apply H1; now right]. rewrite !in_app_iff. destruct (H1 x (or_introl eq_refl)). tauto.
  Qed.
  Lemma step_alter_drops : forall a db, a_ignore a = false -> command_ok (KAlterTableDrop a) -> ready (KAlterTableDrop a) db -> carried_out (KAlterTableDrop a) db.
  Proof.
    intros a db IG (OK & OD) ((PL & TH) & _ & _) q T. cbn [command_sql] in T.
    destruct (alter_table_reads_back d a q IG OK T) as (ts & TS & R). rewrite (serve_read q ts _ db TS (statement_alter ts _ R)). unfold does. cbv zeta.
    change (ad_schema (said_alter d a)) with (a_schema a). change (ad_table (said_alter d a)) with (a_table a). rewrite PL.
    set (s := res (a_schema a)) in *. set (t := a_table a) in *.
    assert (ACT : ad_actions (said_alter d a) = map (fun c => ADropColumn (dl_if_exists c) (dl_name c) (dl_cascade c)) (a_drop_columns a) ++
      map (fun c => ADropConstraint (dk_if_exists c) (dk_name c) (dk_cascade c)) (a_drop_constraints a) ++ map (fun c => ADropIndex (dx_name c)) (a_drop_indexes a)).
    { destruct OD as [O1 O2 O3 O4 O5 O6 O7]. cbn [said_alter ad_actions]. rewrite O1, O2, O3, O4, O5. reflexivity. }
    rewrite ACT.
    set (acts := map (fun c => ADropColumn (dl_if_exists c) (dl_name c) (dl_cascade c)) (a_drop_columns a) ++ _) in *.
    assert (IT : map (action_item s t) acts = map (fun c => IColumn s t (dl_name c)) (a_drop_columns a) ++ map (fun c => IConstraint s t (dk_name c)) (a_drop_constraints a) ++ map (fun c => IIndex s t (dx_name c)) (a_drop_indexes a)).
    { unfold acts. rewrite !map_app, !map_map. reflexivity. }
    assert (RM : forall i, removes d current (KAlterTableDrop a) i <-> In i (map (action_item s t) acts)).
    { intros i. rewrite IT, !in_app_iff, !in_map_iff. cbn [removes]. unfold alter_table_removes. fold s t. split.
      - intros [P X]. destruct i; try contradiction; cbn [part_of] in P; destruct P as [-> ->]; destruct X as (y & I & <-); eauto 6.
      - intros [(x & <- & I)|[(x & <- & I)|(x & <- & I)]]; (split; [cbn [part_of]; auto|eauto]). }
    destruct (each_remove action (do_action d current s t) (action_item s t) acts db) as (db' & E & C).
    - intros x db1 I H. unfold acts in I. rewrite !in_app_iff, !in_map_iff in I. destruct I as [(y & <- & _)|[(y & <- & _)|(y & <- & _)]]; cbn [do_action action_item] in *; now apply remove_there.
    - rewrite IT. destruct OD as [_ _ _ _ _ _ (N1 & N2 & N3)]. apply NoDup_three.
      + apply (NoDup_map_inj _ _ _ dl_name (IColumn s t)); [congruence|exact N1].
      + apply (NoDup_map_inj _ _ _ dk_name (IConstraint s t)); [congruence|exact N2].
      + apply (NoDup_map_inj _ _ _ dx_name (IIndex s t)); [congruence|exact N3].
      + intros x. rewrite !in_map_iff. intros (y & <- & _). split; intros (z & X & _); discriminate.
      + intros x. rewrite !in_map_iff. intros (y & <- & _) (z & X & _). discriminate.
    - intros x I. apply TH. apply RM. now apply in_map.
    - exists db'. split; [exact E|]. intros i v. rewrite C. rewrite RM. cbn [created].
      assert (CR : alter_items a = []).
      { destruct OD as [O1 O2 O3 O4 O5 O6 O7]. unfold alter_items. rewrite O1, O2, O3. unfold not_sqlite_list. now destruct d. }
      rewrite CR. cbn [In]. split.
      + intros [I X]. left. split; [exact I|]. rewrite in_map_iff. intros (y & Y & Z). now apply (X y Z).
      + intros [[I X]|[]]. split; [exact I|]. intros y Y Z. apply X. rewrite <- Z. now apply in_map.
  Qed.

  (** ** DROP *)
  Lemma part_ofb_ok : forall s t i, part_ofb s t i = true <-> part_of s t i.
  Proof. intros s t i. destruct i; cbn [part_ofb part_of]; rewrite ?andb_true_iff, ?beqb_eq; split; try tauto; try discriminate; intuition congruence. Qed.
  Lemma false_iff : forall b (P : Prop), (b = true <-> P) -> (b = false <-> ~ P).
  Proof. intros [] P H; split; try congruence; intros N; [destruct N; now apply H|]. intros X. apply H in X. discriminate. Qed.
  Lemma drop_result : forall c db db' (P : item -> Prop), created c = [] -> (forall i, removes d current c i <-> P i) ->
    (forall i v, In (i, v) db' <-> In (i, v) db /\ ~ P i) ->
    forall i v, In (i, v) db' <-> (In (i, v) db /\ ~ removes d current c i) \/ In (i, v) (created c).
  Proof. intros c db db' P E R H i v. rewrite E, H. specialize (R i). cbn [In]. tauto. Qed.
  Lemma step_drop_table : forall c db, dt_ignore c = false -> command_ok (KDropTable c) -> carried_out (KDropTable c) db.
  Proof.
    intros c db IG (IE & OK) q T. destruct (drop_table_reads_back d c q IG OK T) as (ts & TS & R).
    rewrite (serve_read q ts _ db TS (statement_drop_table ts _ R)). cbn [does pd_if_exists pd_names]. rewrite IE.
    destruct (each_remove_if _ (fun '(s, t) => remove_some true (part_ofb (res s) t)) (fun p => part_ofb (res (fst p)) (snd p)) (dt_names c) db) as (db' & E & C).
    { intros [s t] db1. apply remove_some_if. }
    exists db'. split; [exact E|]. apply (drop_result _ db db' (fun i => exists s t, In (s, t) (dt_names c) /\ part_of (res s) t i)); [reflexivity|reflexivity|].
    intros i v. rewrite C. split; intros [I X]; (split; [exact I|]).
    - intros (s & t & A & P). specialize (X _ A). cbn [fst snd] in X. apply part_ofb_ok in P. congruence.
    - intros [s t] A. cbn [fst snd]. apply (false_iff _ _ (part_ofb_ok _ _ _)). intros P. apply X. eauto.
  Qed.
  Lemma step_drop_view : forall c db, dv_ignore c = false -> command_ok (KDropView c) -> carried_out (KDropView c) db.
  Proof.
    intros c db IG (IE & OK) q T. destruct (drop_view_reads_back d c q IG OK T) as (ts & TS & R).
    rewrite (serve_read q ts _ db TS (statement_drop_view ts _ R)). cbn [does fst snd pd_if_exists pd_names]. rewrite IE.
    destruct (each_remove_if _ (fun '(s, t) => remove true (IView (res s) t)) (fun p => same_item (IView (res (fst p)) (snd p))) (dv_names c) db) as (db' & E & C).
    { intros [s t] db1. destruct (remove_if (IView (res s) t) db1) as (db2 & E2 & C2). exists db2. split; [exact E2|]. intros i v. rewrite C2. cbn [fst snd].
      rewrite (false_iff _ _ (same_item_eq (IView (res s) t) i)). intuition congruence. }
    exists db'. split; [exact E|]. apply (drop_result _ db db' (fun i => exists s t, In (s, t) (dv_names c) /\ i = IView (res s) t)); [reflexivity|reflexivity|].
    intros i v. rewrite C. split; intros [I X]; (split; [exact I|]).
    - intros (s & t & A & ->). specialize (X _ A). cbn [fst snd] in X. assert (Y : same_item (IView (res s) t) (IView (res s) t) = true) by now apply same_item_eq. congruence.
    - intros [s t] A. cbn [fst snd]. apply (false_iff _ _ (same_item_eq _ _)). intros P. apply X. eauto.
  Qed.
  Lemma step_drop_index : forall c db, dx_ignore c = false -> command_ok (KDropIndex c) -> carried_out (KDropIndex c) db.
  Proof.
    intros c db IG (NM & IE & OK) q T. destruct (drop_index_reads_back d c q IG OK T) as (ts & TS & R).
    rewrite (serve_read q ts _ db TS (statement_drop_index ts _ R)). cbn [does fst snd said_drop_index pd_if_exists pd_names each]. rewrite IE.
    replace (match d with DMySQL => [] | _ => dx_schema c end) with (dx_schema c) by (destruct d; congruence).
    destruct (remove_some_if (index_called (res (dx_schema c)) (dx_name c)) db) as (db' & -> & C). exists db'. split; [reflexivity|].
    apply (drop_result _ db db' (fun i => exists t, i = IIndex (res (dx_schema c)) t (dx_name c))); [reflexivity|reflexivity|].
    intros i v. rewrite C. apply and_iff_compat_l, false_iff. destruct i; cbn [index_called]; try (split; [discriminate|intros (t0 & X); discriminate]).
    rewrite andb_true_iff, !beqb_eq. split; [intros [-> ->]; eauto|intros (t0 & X)]. split; congruence.
  Qed.
  Lemma step_drop_trigger : forall c db, dg_ignore c = false -> command_ok (KDropTrigger c) -> carried_out (KDropTrigger c) db.
  Proof.
    intros c db IG (IE & OK) q T. destruct (drop_trigger_reads_back d c q IG OK T) as (ts & TS & R).
    rewrite (serve_read q ts _ db TS (statement_drop_trigger ts _ R)). cbn [does].
    assert (Q : exists o, (o = None /\ d <> DPostgres \/ o = Some (dg_table c) /\ d = DPostgres) /\
       forall db', remove_some true (trigger_called (res (dg_schema c)) o (dg_name c)) db = Some db' ->
       match gd_table (said_drop_trigger d c) with
       | Some (s, t) => remove_some (gd_if_exists (said_drop_trigger d c)) (trigger_called (res s) (Some t) (snd (gd_name (said_drop_trigger d c)))) db
       | None => remove_some (gd_if_exists (said_drop_trigger d c)) (trigger_called (res (fst (gd_name (said_drop_trigger d c)))) None (snd (gd_name (said_drop_trigger d c)))) db
       end = Some db').
    { assert (DP : d = DPostgres \/ d <> DPostgres) by (destruct d; [right; discriminate|now left|right; discriminate..]). destruct DP as [E|E].
      - exists (Some (dg_table c)). split; [now right|]. intros db' H. unfold said_drop_trigger. rewrite E. cbn [gd_table gd_if_exists gd_name snd]. now rewrite IE.
      - exists None. split; [now left|]. intros db' H. unfold said_drop_trigger.
        destruct d; try congruence; cbn [gd_table gd_if_exists gd_name fst snd]; now rewrite IE. }
    destruct Q as (o & O & Q). destruct (remove_some_if (trigger_called (res (dg_schema c)) o (dg_name c)) db) as (db' & E & C). rewrite (Q _ E). exists db'. split; [reflexivity|].
    apply (drop_result _ db db' (fun i => exists t, i = ITrigger (res (dg_schema c)) t (dg_name c) /\ (d = DPostgres -> t = dg_table c))); [reflexivity|reflexivity|].
    intros i v. rewrite C. apply and_iff_compat_l, false_iff. destruct i; cbn [trigger_called]; try (split; [discriminate|intros (t0 & X & _); discriminate]).
    rewrite !andb_true_iff, !beqb_eq. split.
    - intros [[-> ->] X]. exists t. split; [reflexivity|]. intros P. destruct O as [[-> N]|[-> _]]; [contradiction|]. now apply beqb_eq in X.
    - intros (t0 & X & P). injection X as -> -> ->. split; [auto|]. destruct O as [[-> N]|[-> D]]; [reflexivity|]. apply beqb_eq. auto.
  Qed.
  Lemma step_drop_function : forall c db, df_ignore c = false -> command_ok (KDropFunction c) -> carried_out (KDropFunction c) db.
  Proof.
    intros c db IG (IE & OK) q T. destruct (drop_function_reads_back d c q IG OK T) as (ts & TS & R).
    rewrite (serve_read q ts _ db TS (statement_drop_function ts _ R)). cbn [does said_drop_function fd_if_exists fd_name fst snd]. rewrite IE.
    destruct (remove_if (IFunction (res (f_schema (df_function c))) (f_name (df_function c))) db) as (db' & -> & C). exists db'. split; [reflexivity|].
    apply (drop_result _ db db' (fun i => i = IFunction (res (f_schema (df_function c))) (f_name (df_function c)))); [reflexivity|reflexivity|exact C].
  Qed.
  Lemma step_command : forall c db, cmd_ignore c = false -> command_ok c -> ready c db -> carried_out c db.
  Proof.
    intros c db IG OK RD. destruct c; cbn [cmd_ignore] in IG.
    all: first
      [ now apply step_create_schema | now apply step_create_extension | now apply step_create_function | now apply step_create_table
      | now apply step_create_view | now apply step_create_index | now apply step_create_trigger | now apply step_drop_view | now apply step_drop_table
      | now apply step_drop_trigger | now apply step_drop_index | now apply step_alter_drops | now apply step_drop_function | now apply step_drop_extension
      | eapply step_alter_adds; [left; reflexivity|assumption..] | eapply step_alter_adds; [right; reflexivity|assumption..] ].
  Qed.
End Step.
