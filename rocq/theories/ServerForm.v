(** * ServerForm: the commands a migration is made of *)
From Coq Require Import Lia.
From Verif Require Import GoBase GoBaseFacts QuoteModel EffectModel BuildModel CacheModel UpsertModel DdlModel MigrateModel
  SpecMigrate SpecColumn SpecDrop MigrateFacts MigrateDb MigrateRun MigratePf ColumnPf.

(** ** Creating *)
Definition new_index (d : dialect) (x : index) : create_index := mk_create_index false (negb (is_mysql d)) x false.
Definition new_column (d : dialect) (e : bool) (l : column) : add_column := mk_add_column e l [] [] [] false.
Inductive create_form (d : dialect) (got want : metadata) : command -> Prop :=
| CF_schema n : n <> [] -> lists want (ISchema n) -> create_form d got want (KCreateSchema (mk_create_schema true n false))
| CF_extension e : In e (d_extensions want) -> d = DPostgres -> create_form d got want (KCreateExtension (mk_create_extension true e false false))
| CF_index s tb x : has_table want s tb -> table_index tb x -> d <> DMySQL -> create_form d got want (KCreateIndex (new_index d x))
| CF_trigger s tb g : has_table want s tb -> table_trigger tb g -> create_form d got want (KCreateTrigger (mk_create_trigger g false))
| CF_table s tb p : has_table want s tb -> (forall x, p x = true -> x_ignore x = false) -> (forall x, p x = true -> d = DMySQL) ->
    create_form d got want (KCreateTable (mk_create_table true true tb (map (new_index d) (filter p (objects (t_indexes tb)))) false))
| CF_alter s tb ie e pl pk px c : has_table want s tb ->
    (forall l, pl l = true -> l_ignore l = false) -> (forall k, pk k = true -> c_ignore k = false /\ d <> DSQLite) ->
    (forall x, px x = true -> x_ignore x = false /\ d = DMySQL) ->
    (c = KAlterTable /\ (forall k, pk k = true -> c_type k <> FOREIGN_KEY) /\
       (d <> DSQLite -> forall l, table_column tb l -> pl l = true \/ lists got (IColumn s (t_name tb) (l_name l))) \/
     c = KAddForeignKey /\ forall l, pl l = false) -> (ie = true \/ e = true -> d = DPostgres) -> d <> DSQLite ->
    create_form d got want (c (mk_alter_table ie (t_schema tb) (t_name tb) (map (new_column d e) (filter pl (objects (t_columns tb)))) [] []
      (map added_constraint (filter pk (objects (t_constraints tb)))) [] []
      (map (new_index d) (filter px (objects (t_indexes tb)))) [] false))
| CF_alter_column s tb ie e l : has_table want s tb -> table_column tb l -> d = DSQLite -> (ie = true \/ e = true -> d = DPostgres) -> lists got (ITable s (t_name tb)) ->
    create_form d got want (KAlterTable (mk_alter_table ie (t_schema tb) (t_name tb) [new_column d e l] [] [] [] [] [] [] [] false))
| CF_view v r ine : has_view want v -> create_view_supported d (mk_create_view r ine v false) -> create_form d got want (KCreateView (mk_create_view r ine v false))
| CF_function f : has_function_def want f -> d <> DSQLite -> create_form d got want (KCreateFunction (mk_create_function f false)).

Lemma sqlite_not : forall d, is_sqlite d = false -> d <> DSQLite.
Proof. intros [] H; try discriminate H; discriminate. Qed.
Lemma mysql_not : forall d, is_mysql d = false -> d <> DMySQL.
Proof. intros [] H; try discriminate H; discriminate. Qed.
Lemma sqlite_is : forall d, is_sqlite d = true -> d = DSQLite.
Proof. intros [] H; try discriminate H; reflexivity. Qed.
Lemma filter_false : forall A (l : list A), filter (fun _ => false) l = [].
Proof. induction l; [reflexivity|exact IHl]. Qed.
Lemma added_filter : forall d m got want, create_missing m = true ->
  added_columns d m got want = map (new_column d (is_postgres d)) (filter (fun l => negb (l_ignore l) && missing (find_column (l_name l) (t_columns got))) (objects (t_columns want))).
Proof.
  intros d m got want CM. unfold added_columns. induction (objects (t_columns want)) as [|l ls IH]; [reflexivity|]. cbn [flat_map filter].
  rewrite IH, CM. destruct (l_ignore l); [reflexivity|]. destruct (find_column _ _); reflexivity.
Qed.
Lemma altered_none : forall d m got want, update_existing m = false -> altered_columns d m got want = [].
Proof.
  intros d m got want UE. unfold altered_columns. induction (objects (t_columns want)) as [|l ls IH]; [reflexivity|]. cbn [flat_map].
  rewrite IH, UE. destruct (l_ignore l); [reflexivity|]. destruct (find_column _ _); reflexivity.
Qed.
Lemma missing_constraints_filter : forall d got want, missing_constraints d got want =
  filter (fun c => negb (is_sqlite d) && (negb (c_ignore c) && missing (find_constraint (c_name c) (t_constraints got)))) (objects (t_constraints want)).
Proof. intros d got want. unfold missing_constraints. destruct (is_sqlite d); cbn [negb andb]; [now rewrite filter_false|reflexivity]. Qed.
Lemma filter_filter' : forall A (p q : A -> bool) l, filter p (filter q l) = filter (fun a => q a && p a) l.
Proof. intros A p q l. induction l as [|a l IH]; [reflexivity|]. cbn [filter]. destruct (q a) eqn:Q; cbn [filter andb]; rewrite IH; reflexivity. Qed.
Lemma not_ignored : forall a b, negb a && b = true -> a = false.
Proof. intros [] b H; [discriminate|reflexivity]. Qed.
Lemma plain_view_cmds : forall d gs v c, v_indexes v = [] -> v_triggers v = [] -> In c (create_view_cmds d gs v) ->
  v_ignore v = false /\ exists r ine, c = KCreateView (mk_create_view r ine v false) /\ create_view_supported d (mk_create_view r ine v false).
Proof.
  intros d gs v c X G I. unfold create_view_cmds in I. destruct (v_ignore v); [destruct I|]. destruct (find_view _ _); [destruct I|].
  rewrite X, G in I. cbn [filter map app] in I. destruct I as [<-|I]; [|in_if I; destruct I]. split; [reflexivity|]. eexists _, _. split; [reflexivity|].
  unfold create_view_supported. cbn [cv_or_replace cv_if_not_exists cv_view]. destruct d, (v_materialized v); cbn; intuition congruence.
Qed.

Lemma creates_form : forall d m got want s w c, create_missing m = true -> update_existing m = false ->
  catalog d (d_current got) want -> plain_views want ->
  In w (objects (d_schemas want)) -> In c (create_schema_cmds d m (d_current got) (schemas_after s got) w) -> create_form d got want c.
Proof.
  intros d m got want s w c CM UE CW PV Iw I. unfold create_schema_cmds in I. destruct (s_ignore w) eqn:IG; [destruct I|].
  cbv zeta in I. set (name := if is_empty (s_name w) then d_current got else s_name w) in *.
  destruct (proj2 CW w Iw) as (NM & _).
  assert (NE : name = s_name w).
  { unfold name. destruct (is_empty (s_name w)) eqn:E; [|reflexivity]. destruct (s_name w) eqn:E2; [|discriminate E]. destruct NM as [NM|NM]; [congruence|exact NM]. }
  rewrite !in_app_iff, !in_flat_map in I. destruct I as [I|[(t & It & I)|[(v & Iv & I)|(f & If & I)]]].
  - destruct (missing (find_schema name (schemas_after s got)) && create_missing m && negb (is_empty name)) eqn:E; [|destruct I]. destruct I as [<-|[]].
    apply andb_true_iff in E. destruct E as [_ E]. constructor.
    + intros X. rewrite X in E. discriminate.
    + exists w. split; [exact Iw|]. split; [exact IG|]. exact NE.
  - unfold create_table_cmds in I. destruct (t_ignore t) eqn:TI; [destruct I|]. cbv zeta in I. rewrite CM in I.
    assert (HT : has_table want (s_name w) t) by (exists w; auto).
    rewrite altered_none, added_filter, !missing_constraints_filter, !filter_filter' in I by assumption. unfold missing_indexes in I.
    set (gs := match find_schema name (schemas_after s got) with Some s => s | None => empty_schema name end) in *.
    set (fg := find_table (t_name t) (s_tables gs)) in *.
    set (gt := match fg with Some t => t | None => empty_table (t_schema t) (t_name t) end) in *.
    change (map (fun x => mk_create_index false (negb (is_mysql d)) x false)) with (map (new_index d)) in I.
    rewrite !in_app_iff in I. destruct I as [I|[I|[I|[I|I]]]].
    + destruct (is_mysql d) eqn:M; [destruct I|]. apply in_map_iff in I. destruct I as (x & <- & I). apply in_map_iff in I. destruct I as (y & <- & I).
      apply filter_In in I. destruct I as [I J]. apply (CF_index _ _ _ (s_name w) t y HT); [|now apply mysql_not]. split; [exact I|now apply not_ignored in J].
    + unfold missing_triggers in I. apply in_map_iff in I. destruct I as (x & <- & I). apply filter_In in I. destruct I as [I J].
      apply (CF_trigger _ _ _ (s_name w) t x HT). split; [exact I|now apply not_ignored in J].
    + in_if I; [destruct I|]. destruct I as [<-|[]]. destruct (is_mysql d) eqn:MY.
      * apply (CF_table _ _ _ (s_name w) t _ HT); [intros x J; now apply not_ignored in J|intros x _; now apply is_mysql_eq].
      * pose proof (CF_table d got want (s_name w) t (fun _ => false) HT) as X. rewrite filter_false in X. apply X; discriminate.
    + assert (PGe : is_postgres d = true -> d = DPostgres) by (destruct d; cbn; congruence).
      assert (GL : negb (missing fg) = true -> forall l, table_column t l -> negb (l_ignore l) && missing (find_column (l_name l) (t_columns gt)) = true \/ lists got (IColumn (s_name w) (t_name t) (l_name l))).
      { intros EX l [L1 L2]. rewrite L2. cbn [negb andb]. destruct (find_column (l_name l) (t_columns gt)) as [k|] eqn:FC; [right|now left].
        destruct fg as [g|] eqn:FG; [|discriminate EX]. unfold gt in FC. apply found_some in FC. destruct FC as (K1 & K2 & K3).
        unfold fg in FG. apply found_some in FG. destruct FG as (G1 & G2 & G3). unfold gs in G1.
        destruct (find_schema name (schemas_after s got)) as [sc|] eqn:FS; [|destruct G1]. apply found_some in FS. destruct FS as (S1 & S2 & S3).
        exists sc. split; [exact S1|]. split; [exact S2|]. cbn [schema_has]. exists g. split; [exact G1|]. split; [exact G2|]. cbn [table_has].
        split; [congruence|]. split; [congruence|]. exists k. auto. }
      destruct (is_sqlite d) eqn:SQ.
      * apply in_map_iff in I. destruct I as (a & <- & I). unfold decompose_alter in I.
        cbn [a_add_columns a_drop_columns a_schema a_table map] in I. rewrite app_nil_r in I. apply in_map_iff in I. destruct I as (y & <- & J).
        destruct fg as [g|] eqn:FG; [|cbn in J; rewrite ?andb_false_r in J; destruct J]. in_if J; [|destruct J]. apply in_map_iff in J. destruct J as (l & <- & J). apply filter_In in J. destruct J as [J K].
        apply (CF_alter_column _ _ _ (s_name w) t false (is_postgres d) l HT); [|now apply sqlite_is|intros [X|X]; [discriminate X|now apply PGe]|]; [split; [exact J|now apply not_ignored in K]|].
        unfold fg in FG. apply found_some in FG. destruct FG as (G1 & G2 & G3). unfold gs in G1.
        destruct (find_schema name (schemas_after s got)) as [sc|] eqn:FS; [|destruct G1]. apply found_some in FS. destruct FS as (S1 & S2 & S3).
        exists sc. split; [exact S1|]. split; [exact S2|]. cbn [schema_has]. exists g. split; [exact G1|]. split; [exact G2|]. cbn [table_has]. split; congruence.
      * destruct (negb (missing fg)) eqn:EX; [|cbn [a_add_columns a_alter_columns a_add_constraints a_create_indexes] in I; rewrite andb_false_r in I; destruct I].
        in_if I; [destruct I|]. destruct I as [<-|[]].
        -- destruct (is_mysql d) eqn:MY; cbn [andb].
           ++ apply (CF_alter _ _ _ (s_name w) t (is_postgres d) (is_postgres d) _ _ _ KAlterTable HT).
              ** intros l J. now apply not_ignored in J.
              ** intros k J. cbn [negb andb] in J. apply andb_true_iff in J. destruct J as [J _]. split; [now apply not_ignored in J|now apply sqlite_not].
              ** intros x J. split; [now apply not_ignored in J|now apply is_mysql_eq].
              ** left. split; [reflexivity|]. split; [|intros _; now apply GL]. intros k J E. apply andb_true_iff in J. destruct J as [_ J]. unfold is_foreign_key in J. rewrite E in J. discriminate J.
              ** tauto.
              ** now apply sqlite_not.
           ++ pose proof (CF_alter d got want (s_name w) t (is_postgres d) (is_postgres d)
                (fun l => negb (l_ignore l) && missing (find_column (l_name l) (t_columns gt)))
                (fun k => negb false && (negb (c_ignore k) && missing (find_constraint (c_name k) (t_constraints gt))) && negb (is_foreign_key k)) (fun _ => false) KAlterTable HT) as X.
              rewrite filter_false in X. apply X.
              ** intros l J. now apply not_ignored in J.
              ** intros k J. cbn [negb andb] in J. apply andb_true_iff in J. destruct J as [J _]. split; [now apply not_ignored in J|now apply sqlite_not].
              ** discriminate.
              ** left. split; [reflexivity|]. split; [|intros _; now apply GL]. intros k J E. apply andb_true_iff in J. destruct J as [_ J]. unfold is_foreign_key in J. rewrite E in J. discriminate J.
              ** tauto.
              ** now apply sqlite_not.
    + match type of I with In _ (if ?b then _ else _) => destruct b eqn:FN end; [destruct I|]. destruct I as [<-|[]].
      pose proof (CF_alter d got want (s_name w) t (is_postgres d) (is_postgres d) (fun _ => false)
        (fun k => negb (is_sqlite d) && (negb (c_ignore k) && missing (find_constraint (c_name k) (t_constraints gt))) && is_foreign_key k) (fun _ => false) KAddForeignKey HT) as X.
      rewrite !filter_false in X. apply X; try discriminate.
      * intros k J. apply andb_true_iff in J. destruct J as [J _]. apply andb_true_iff in J. destruct J as [J1 J2]. split; [now apply not_ignored in J2|].
        apply sqlite_not. now apply negb_true_iff.
      * now right; split.
      * destruct d; cbn; intuition congruence.
      * intros SQ. rewrite SQ in FN. cbn [is_sqlite negb andb] in FN. rewrite filter_false in FN. discriminate FN.
  - destruct (PV w v Iw Iv) as [X G]. destruct (plain_view_cmds _ _ _ _ X G I) as (VI & r & ine & -> & VS). constructor; [exists w; auto|exact VS].
  - unfold create_function_cmds in I. destruct (is_sqlite d || f_ignore f || _) eqn:E; [destruct I|]. destruct I as [<-|[]].
    apply orb_false_iff in E. destruct E as [E _]. apply orb_false_iff in E. constructor; [exists w; tauto|]. apply sqlite_not. tauto.
Qed.

(** ** Dropping *)
Definition old_column (d : dialect) (l : column) : drop_column := mk_drop_column (is_postgres d) (l_name l) (is_postgres d) false.
Definition old_constraint (d : dialect) (k : constraint) : drop_constraint := mk_drop_constraint (is_postgres d) (c_name k) (is_postgres d) false.
Definition old_index (d : dialect) (x : index) : drop_index :=
  mk_drop_index false (is_postgres d || is_sqlite d) (x_schema x) (x_table x) (x_name x) (is_postgres d) false.
Inductive drop_form (d : dialect) (got want : metadata) : command -> Prop :=
| DF_index s tb x : has_table got s tb -> table_index tb x -> d <> DMySQL -> drop_form d got want (KDropIndex (old_index d x))
| DF_trigger s tb g : has_table got s tb -> table_trigger tb g ->
    drop_form d got want (KDropTrigger (mk_drop_trigger true (g_schema g) (g_table g) (g_name g) (is_postgres d) false))
| DF_function f : has_function_def got f -> drop_form d got want (KDropFunction (mk_drop_function true f true false))
| DF_view b ns e : ns <> [] -> (forall n, In n ns -> exists v, has_view got v /\ n = (v_schema v, v_name v)) ->
    (b = true -> exists v, has_view got v /\ v_materialized v = true) -> (d = DSQLite -> length ns <= 1 /\ e = false) ->
    drop_form d got want (KDropView (mk_drop_view true b ns e false))
| DF_table ns e : ns <> [] -> (forall n, In n ns -> exists s tb, has_table got s tb /\ n = (t_schema tb, t_name tb)) -> (e = true -> d <> DSQLite) ->
    drop_form d got want (KDropTable (mk_drop_table true ns e false))
| DF_alter s tb pl pk px : has_table got s tb -> lists want (ITable s (t_name tb)) ->
    (forall k, pk k = true -> d <> DSQLite) -> (forall x, px x = true -> d = DMySQL) -> d <> DSQLite ->
    drop_form d got want (KAlterTableDrop (mk_alter_table false (t_schema tb) (t_name tb) [] [] (map (old_column d) (filter pl (objects (t_columns tb))))
      [] [] (map (old_constraint d) (filter pk (objects (t_constraints tb)))) [] (map (old_index d) (filter px (objects (t_indexes tb)))) false))
| DF_alter_column s tb l : has_table got s tb -> table_column tb l -> lists want (ITable s (t_name tb)) -> d = DSQLite ->
    drop_form d got want (KAlterTableDrop (mk_alter_table false (t_schema tb) (t_name tb) [] [] [old_column d l] [] [] [] [] [] false))
| DF_extension es e : es <> [] -> incl es (d_extensions got) -> drop_form d got want (KDropExtension (mk_drop_extension true es e false)).

Lemma is_nil_false' : forall A (l : list A), is_nil l = false -> l <> [].
Proof. intros A [|a l] H; [discriminate|discriminate]. Qed.
Section DropForm.
  Variables (d : dialect) (m : mode) (got want : metadata) (s' : ext_state).
  Hypothesis CG : catalog d (d_current got) got.
  Hypothesis NI : nothing_ignored got.
  Local Notation wc := (schemas_after s' want).

  Lemma kept_wanted : forall g w t t', In (g, w) (paired wc (d_schemas got)) -> kept_table w t = Some t' ->
    t_ignore t = false /\ lists want (ITable (s_name g) (t_name t)).
  Proof.
    intros g w t t' P K. apply in_paired in P. destruct P as (_ & _ & ->). unfold kept_table in K. destruct (t_ignore t); [discriminate|]. split; [reflexivity|].
    apply found_some in K. destruct K as (K1 & K2 & K3). destruct (find_schema (s_name g) wc) as [sc|] eqn:F; [|destruct K1].
    apply found_some in F. destruct F as (F1 & F2 & F3). exists sc. split; [exact F1|]. split; [exact F2|]. exists t'. cbn [table_has]. auto.
  Qed.
  Lemma alters_form : forall g w t a, In (g, w) (paired wc (d_schemas got)) -> In t (objects (s_tables g)) -> In a (drop_alters d w t) ->
    has_table got (s_name g) t /\ lists want (ITable (s_name g) (t_name t)) /\
    exists pl pk px, (forall k, pk k = true -> d <> DSQLite) /\ (forall x, px x = true -> d = DMySQL) /\
      a = mk_alter_table false (t_schema t) (t_name t) [] [] (map (old_column d) (filter pl (objects (t_columns t))))
      [] [] (map (old_constraint d) (filter pk (objects (t_constraints t)))) [] (map (old_index d) (filter px (objects (t_indexes t)))) false.
  Proof.
    intros g w t a P It I. unfold drop_alters in I. destruct (kept_table w t) as [t'|] eqn:K; [|destruct I]. destruct (kept_wanted _ _ _ _ P K) as [TI LW].
    apply in_paired in P. destruct P as (Ig & IGg & _). in_if I; [destruct I|]. destruct I as [<-|[]].
    split; [exists g; auto|]. split; [exact LW|].
    exists (fun l => missing (find_column (l_name l) (t_columns t'))), (fun k => negb (is_sqlite d) && missing (find_constraint (c_name k) (t_constraints t'))),
      (fun x => is_mysql d && missing (find_index (x_name x) (t_indexes t'))).
    split; [intros k J; apply andb_true_iff in J; destruct J as [J _]; apply sqlite_not; now apply negb_true_iff|].
    split; [intros x J; apply andb_true_iff in J; destruct J as [J _]; now apply is_mysql_eq|].
    assert (E1 : dropped_constraints d t t' = map (old_constraint d) (filter (fun k => negb (is_sqlite d) && missing (find_constraint (c_name k) (t_constraints t'))) (objects (t_constraints t)))).
    { unfold dropped_constraints. destruct (is_sqlite d); cbn [negb andb]; rewrite ?filter_false; reflexivity. }
    assert (E2 : (if is_mysql d then dropped_indexes d t t' else []) = map (old_index d) (filter (fun x => is_mysql d && missing (find_index (x_name x) (t_indexes t'))) (objects (t_indexes t)))).
    { destruct (is_mysql d); cbn [andb]; rewrite ?filter_false; reflexivity. }
    rewrite E1, E2. reflexivity.
  Qed.
  Lemma drops_form : forall c, In c (drop_cmds d m wc (d_schemas got)) -> drop_form d got want c.
  Proof.
    intros c I. unfold drop_cmds in I. cbv zeta in I. apply in_app_or in I. destruct I as [I|I].
    - apply in_flat_map in I. destruct I as ((g, w) & P & I). cbn [fst snd] in I. apply in_app_or in I. destruct I as [I|I]; apply in_flat_map in I; destruct I as (t & It & I).
      + unfold drop_parts_cmds in I. destruct (kept_table w t) as [t'|] eqn:K; [|destruct I]. destruct (kept_wanted _ _ _ _ P K) as [TI LW].
        apply in_paired in P. destruct P as (Ig & IGg & _). assert (HT : has_table got (s_name g) t) by (exists g; auto).
        destruct (NI g Ig) as (_ & NT & _). destruct (NT t It) as (_ & _ & _ & NX & NG).
        apply in_app_or in I. destruct I as [I|I].
        * destruct (is_mysql d) eqn:M; [destruct I|]. apply in_map_iff in I. destruct I as (x & <- & I). unfold dropped_indexes in I. apply in_map_iff in I.
          destruct I as (y & <- & I). apply filter_In in I. destruct I as [I _]. apply (DF_index _ _ _ (s_name g) t y HT); [split; auto|now apply mysql_not].
        * unfold dropped_triggers in I. apply in_map_iff in I. destruct I as (x & <- & I). apply filter_In in I. destruct I as [I _].
          apply (DF_trigger _ _ _ (s_name g) t x HT). split; auto.
      + apply in_paired in P. destruct P as (Ig & IGg & _). destruct (NI g Ig) as (_ & _ & _ & NF).
        unfold drop_function_cmds in I. in_if I; [destruct I|]. destruct I as [<-|[]]. constructor. exists g. auto.
    - assert (TN : forall n, In n (flat_map (fun p : schema * schema => flat_map (drop_table_names (snd p)) (objects (s_tables (fst p)))) (paired wc (d_schemas got))) ->
        exists s tb, has_table got s tb /\ n = (t_schema tb, t_name tb)).
      { intros n J. apply in_flat_map in J. destruct J as ((g, w) & P & J). cbn [fst snd] in J. apply in_flat_map in J. destruct J as (t & It & J).
        apply in_paired in P. destruct P as (Ig & IGg & _). unfold drop_table_names in J. destruct (t_ignore t) eqn:TI; [destruct J|].
        destruct (find_table _ _); [destruct J|]. destruct J as [<-|[]]. exists (s_name g), t. split; [exists g; auto|reflexivity]. }
      assert (VN : forall b n, In n (flat_map (fun p : schema * schema => flat_map (drop_view_names b (snd p)) (objects (s_views (fst p)))) (paired wc (d_schemas got))) ->
        exists v, has_view got v /\ n = (v_schema v, v_name v) /\ v_materialized v = b).
      { intros b n J. apply in_flat_map in J. destruct J as ((g, w) & P & J). cbn [fst snd] in J. apply in_flat_map in J. destruct J as (v & Iv & J).
        apply in_paired in P. destruct P as (Ig & IGg & _). destruct (NI g Ig) as (_ & _ & NV & _). unfold drop_view_names in J.
        destruct (find_view _ _); [destruct J|]. destruct (Bool.eqb (v_materialized v) b) eqn:E; [|destruct J]. apply Bool.eqb_prop in E. destruct J as [<-|[]]. exists v. split; [exists g; auto|auto]. }
      destruct (is_sqlite d) eqn:SQ; rewrite !in_app_iff in I.
      + destruct I as [I|[I|I]]; apply in_map_iff in I; destruct I as (x & <- & I).
        * unfold decompose_drop_view in I. apply in_map_iff in I. destruct I as (y & <- & J). cbn [dv_names dv_if_exists] in *. constructor; [discriminate| |discriminate|intros _; split; [apply le_n|reflexivity]].
          intros n [<-|[]]. apply VN in J. destruct J as (v & J1 & J2 & _). eauto.
        * unfold decompose_drop_table in I. apply in_map_iff in I. destruct I as (y & <- & J). cbn [dt_names dt_if_exists] in *. constructor; [discriminate| |discriminate].
          intros n [<-|[]]. now apply TN in J.
        * apply in_flat_map in I. destruct I as (a & Ia & I). apply in_flat_map in Ia. destruct Ia as ((g, w) & P & Ia). cbn [fst snd] in Ia. apply in_flat_map in Ia. destruct Ia as (t & It & Ia).
          destruct (alters_form _ _ _ _ P It Ia) as (HT & LW & pl & pk & px & _ & _ & ->). unfold decompose_alter in I.
          cbn [a_add_columns a_drop_columns a_schema a_table map app] in I. apply in_map_iff in I. destruct I as (y & <- & J). apply in_map_iff in J. destruct J as (l & <- & J).
          apply filter_In in J. destruct J as [J _]. apply in_paired in P. destruct P as (Ig & IGg & _). destruct (NI g Ig) as (_ & NT & _). destruct (NT t It) as (_ & NL & _).
          apply (DF_alter_column _ _ _ (s_name g) t l HT); [split; auto|exact LW|now apply sqlite_is].
      + destruct I as [I|[I|[I|I]]].
        * apply in_map_iff in I. destruct I as (a & <- & Ia). apply in_flat_map in Ia. destruct Ia as ((g, w) & P & Ia). cbn [fst snd] in Ia. apply in_flat_map in Ia. destruct Ia as (t & It & Ia).
          destruct (alters_form _ _ _ _ P It Ia) as (HT & LW & pl & pk & px & X1 & X2 & ->). apply (DF_alter _ _ _ (s_name g) t pl pk px HT); auto. now apply sqlite_not.
        * match type of I with In _ (if ?b then _ else _) => destruct b eqn:E end; [destruct I|]. destruct I as [<-|[]]. apply is_nil_false' in E. cbn [dv_names] in E. constructor; [exact E|intros n J; apply VN in J; destruct J as (v & J1 & J2 & _); eauto| |intros ->; discriminate SQ].
          discriminate.
        * match type of I with In _ (if ?b then _ else _) => destruct b eqn:E end; [destruct I|]. destruct I as [<-|[]]. apply is_nil_false' in E. cbn [dv_names] in E. constructor; [exact E|intros n J; apply VN in J; destruct J as (v & J1 & J2 & _); eauto| |intros ->; discriminate SQ].
          intros _. match type of E with ?l <> [] => destruct l as [|n l'] eqn:EN end; [congruence|]. destruct (VN true n) as (v & V1 & _ & V2); [rewrite EN; now left|eauto].
        * match type of I with In _ (if ?b then _ else _) => destruct b eqn:E end; [destruct I|]. destruct I as [<-|[]]. constructor; [now apply is_nil_false' in E| |intros _ ->; discriminate SQ]. cbn [dt_names]. apply TN.
  Qed.
End DropForm.
Lemma no_extension : forall d m cur gs w x, ~ In (KCreateExtension x) (create_schema_cmds d m cur gs w).
Proof.
  intros d m cur gs w x I. unfold create_schema_cmds in I. destruct (s_ignore w); [destruct I|]. cbv zeta in I.
  rewrite !in_app_iff, !in_flat_map in I. destruct I as [I|[(t & _ & I)|[(v & _ & I)|(f & _ & I)]]].
  - in_if I; [|destruct I]. destruct I as [I|[]]. discriminate I.
  - unfold create_table_cmds in I. destruct (t_ignore t); [destruct I|]. cbv zeta in I. rewrite !in_app_iff in I.
    repeat match type of I with _ \/ _ => destruct I as [I|I] end; repeat (in_if I);
    solve [ destruct I | destruct I as [I|[]]; discriminate I | apply in_map_iff in I; destruct I as (y & I & _); discriminate I ].
  - unfold create_view_cmds in I. destruct (v_ignore v); [destruct I|]. destruct (find_view _ _); [destruct I|]. rewrite !in_app_iff in I.
    destruct I as [[I|[]]|I]; [discriminate I|]. in_if I; [|destruct I]. apply in_app_or in I. destruct I as [I|I]; apply in_map_iff in I; destruct I as (y & I & _); discriminate I.
  - unfold create_function_cmds in I. in_if I; [destruct I|]. destruct I as [I|[]]. discriminate I.
Qed.
Lemma extension_postgres : forall m got want mg x, migrate m got want = Ok mg -> In (KCreateExtension x) (m_cmds mg) -> dialect_of (m_dialect mg) = DPostgres.
Proof.
  intros m got want mg x E I. unfold migrate in E.
  destruct (is_empty (d_dialect got) && is_empty (d_dialect want)); [discriminate|].
  destruct (negb (is_empty (d_dialect got)) && negb (is_empty (d_dialect want)) && negb (beqb (d_dialect got) (d_dialect want))); [discriminate|].
  cbv zeta in E. set (name := if is_empty (d_dialect got) then d_dialect want else d_dialect got) in *.
  destruct (is_postgres (dialect_of name)) eqn:PG.
  - assert (D : m_dialect mg = name) by (repeat match type of E with context [match ?b with _ => _ end] => destruct b end; congruence || (injection E as <-; reflexivity)).
    rewrite D. destruct (dialect_of name); try discriminate PG. reflexivity.
  - exfalso. cbn [andb] in E.
    assert (C : In (KCreateExtension x) (flat_map (create_schema_cmds (dialect_of name) m (d_current got) (schemas_after (ext_state_of got) got)) (objects (d_schemas want))) \/
                exists s, In (KCreateExtension x) (drop_cmds (dialect_of name) m (schemas_after s want) (d_schemas got))).
    { destruct (create_missing m || update_existing m); destruct (drop_extraneous m);
        [destruct (missing_extensions _ _) as [[es s]|]; [|discriminate E]| |destruct (missing_extensions _ _) as [[es s]|]; [|discriminate E]|];
        injection E as <-; cbn [m_cmds map app] in I; rewrite ?app_nil_r in I; auto.
      - apply in_app_or in I. destruct I as [I|I]; [now left|right]. exists s. apply in_app_or in I. destruct I as [I|I]; [|exact I]. in_if I; [destruct I|]. destruct I as [I|[]]. discriminate I.
      - right. exists s. apply in_app_or in I. destruct I as [I|I]; [|exact I]. in_if I; [destruct I|]. destruct I as [I|[]]. discriminate I.
      - destruct I. }
    destruct C as [C|(s & C)].
    + apply in_flat_map in C. destruct C as (w & _ & C). now apply no_extension in C.
    + apply drops_kind in C. destruct C as [C _]. discriminate C.
Qed.
Lemma migration_form : forall m got want mg c, migrate m got want = Ok mg -> update_existing m = false ->
  comparable (dialect_of (m_dialect mg)) got want -> In c (m_cmds mg) ->
  (create_missing m = true /\ create_form (dialect_of (m_dialect mg)) got want c) \/
  (drop_extraneous m = true /\ drop_form (dialect_of (m_dialect mg)) got want c).
Proof.
  intros m got want mg c MG UE (CG & CW & XG & XW & NI & NA & PV & PF & SV) I.
  pose proof (fun x => extension_postgres _ _ _ _ x MG) as EP.
  destruct (migrate_shape _ _ _ _ MG) as (_ & es & s & es' & s' & E & X1 & X2). pose proof I as I0. rewrite E in I. apply in_app_or in I. destruct I as [I|I].
  - left. rewrite UE, orb_false_r in I. destruct (create_missing m) eqn:CM; [|destruct I]. split; [reflexivity|]. apply in_app_or in I. destruct I as [I|I].
    + apply in_map_iff in I. destruct I as (e & <- & I). constructor; [|now apply (EP _ I0)]. destruct X1 as [[-> _]|X1]; [destruct I|]. now apply (missing_extensions_incl _ _ _ _ X1).
    + apply in_flat_map in I. destruct I as (w & Iw & I). eapply creates_form; eauto.
  - right. destruct (drop_extraneous m); [|destruct I]. split; [reflexivity|]. apply in_app_or in I. destruct I as [I|I].
    + destruct (is_nil es') eqn:N; [destruct I|]. destruct I as [<-|[]]. constructor; [now apply is_nil_false'|].
      destruct X2 as [[-> _]|X2]; [discriminate|]. intros e J. apply (missing_extensions_incl _ _ _ _ X2) in J. apply filter_In in J. tauto.
    + eapply drops_form; eauto.
Qed.

(** ** Nothing is dropped twice by ALTER TABLE *)
Section Twice.
  Variables (d : dialect) (m : mode) (got want : metadata) (mg : migration).
  Local Notation cur := (d_current got).
  Definition alters_apart (a a' : alter_table) : Prop := forall i, alter_table_removes cur a i -> alter_table_removes cur a' i -> False.
  Definition drops_apart (c c' : command) : Prop := forall a a', c = KAlterTableDrop a -> c' = KAlterTableDrop a' -> alters_apart a a'.
  Definition no_alter_drop (l : list command) : Prop := forall c a, In c l -> c <> KAlterTableDrop a.
  Lemma drops_apart_sym : forall c c', drops_apart c c' -> drops_apart c' c.
  Proof. intros c c' H a a' E E' i A A'. exact (H a' a E' E i A' A). Qed.
  Lemma fop_none : forall l, no_alter_drop l -> ForallOrdPairs drops_apart l.
  Proof.
    intros l. induction l as [|c l IH]; intros H; constructor.
    - apply Forall_forall. intros c' _ a a' E. exfalso. apply (H c a (or_introl eq_refl) E).
    - apply IH. intros c' a I. apply H. now right.
  Qed.
  Lemma fop_mix : forall l l', no_alter_drop l -> ForallOrdPairs drops_apart l' -> ForallOrdPairs drops_apart (l ++ l').
  Proof. intros l l' H F. apply fop_app; [now apply fop_none|exact F|]. intros c c' I _ a a' E. exfalso. now apply (H c a I). Qed.
  Lemma fop_mix' : forall l l', no_alter_drop l' -> ForallOrdPairs drops_apart l -> ForallOrdPairs drops_apart (l ++ l').
  Proof. intros l l' H F. apply fop_app; [exact F|now apply fop_none|]. intros c c' _ I a a' _ E. exfalso. now apply (H c' a' I). Qed.
  Lemma fop_alters : forall l, ForallOrdPairs alters_apart l -> ForallOrdPairs drops_apart (map KAlterTableDrop l).
  Proof. intros l F. apply (fop_map KAlterTableDrop drops_apart alters_apart); [|exact F]. intros a b _ _ H x y E E'. injection E as <-. injection E' as <-. exact H. Qed.
  Lemma fop_flat : forall A B (f : A -> list B) (R : A -> A -> Prop) (Q : B -> B -> Prop) l, ForallOrdPairs R l -> (forall a, In a l -> ForallOrdPairs Q (f a)) ->
    (forall a b x y, R a b -> In a l -> In b l -> In x (f a) -> In y (f b) -> Q x y) -> ForallOrdPairs Q (flat_map f l).
  Proof.
    intros A B f R Q l F. induction F as [|a l N F IH]; intros O C; cbn [flat_map]; [constructor|]. apply fop_app.
    - apply O. now left.
    - apply IH; [intros b I; apply O; now right|]. intros b b' x y H Ib Ib'. apply C; auto; now right.
    - intros x y Ix Iy. apply in_flat_map in Iy. destruct Iy as (b & Ib & Iy). rewrite Forall_forall in N. apply (C a b); auto; [now left|now right].
  Qed.
  Hypothesis CG : catalog d cur got.
  Hypothesis NI : nothing_ignored got.
  Lemma paired_names : forall wc, map (fun p : schema * schema => s_name (fst p)) (filter (fun _ => negb false) (paired wc (d_schemas got))) =
    map s_name (filter (fun g => negb (s_ignore g)) (objects (d_schemas got))).
  Proof.
    intros wc. unfold paired. induction (objects (d_schemas got)) as [|g l IH]; [reflexivity|]. cbn [flat_map filter].
    destruct (s_ignore g); cbn [negb app]; [exact IH|]. cbn [filter negb map fst]. f_equal. exact IH.
  Qed.
  Lemma all_alters_apart : forall s', ForallOrdPairs alters_apart
    (flat_map (fun p : schema * schema => flat_map (drop_alters d (snd p)) (objects (s_tables (fst p)))) (paired (schemas_after s' want) (d_schemas got))).
  Proof.
    intros s'. apply (fop_flat_map _ _ _ _ _ (fun p : schema * schema => s_name (fst p)) (fun _ => false)).
    - rewrite paired_names. apply CG.
    - discriminate.
    - intros [g w] P _. cbn [fst snd]. apply (fop_flat_map _ _ _ _ _ t_name t_ignore).
      + apply in_paired in P. destruct P as (Ig & _). destruct (proj2 CG g Ig) as (_ & T & _). apply T.
      + intros t _ TI. unfold drop_alters, kept_table. now rewrite TI.
      + intros t _ _. unfold drop_alters. destruct (kept_table w t); [|constructor]. cbv zeta. match goal with |- ForallOrdPairs _ (if ?b then _ else _) => destruct b end; repeat constructor.
      + intros t t' a a' It It' _ _ N Ia Ia' i A A'. destruct (alters_form d got want s' g w t a P It Ia) as (_ & _ & pl & pk & px & _ & _ & ->).
        destruct (alters_form d got want s' g w t' a' P It' Ia') as (_ & _ & pl' & pk' & px' & _ & _ & ->).
        destruct A as [A _], A' as [A' _]. cbn [a_table a_schema] in A, A'. destruct i; cbn [part_of] in A, A'; try contradiction; apply N; destruct A, A'; congruence.
    - intros [g w] [g' w'] a a' P P' _ _ N Ia Ia' i A A'. cbn [fst snd] in *. apply in_flat_map in Ia, Ia'. destruct Ia as (t & It & Ia), Ia' as (t' & It' & Ia').
      destruct (alters_form d got want s' g w t a P It Ia) as (_ & _ & pl & pk & px & _ & _ & ->).
      destruct (alters_form d got want s' g' w' t' a' P' It' Ia') as (_ & _ & pl' & pk' & px' & _ & _ & ->).
      apply in_paired in P, P'. destruct P as (Ig & _), P' as (Ig' & _).
      destruct (proj2 CG g Ig) as (NM & _ & T & _), (proj2 CG g' Ig') as (NM' & _ & T' & _).
      destruct A as [A _], A' as [A' _]. cbn [a_table a_schema] in A, A'. rewrite (proj1 (T t It)), (resolve_id _ _ NM) in A. rewrite (proj1 (T' t' It')), (resolve_id _ _ NM') in A'.
      destruct i; cbn [part_of] in A, A'; try contradiction; apply N; destruct A, A'; congruence.
  Qed.
  Lemma drop_cmds_apart : forall s', ForallOrdPairs drops_apart (drop_cmds d m (schemas_after s' want) (d_schemas got)).
  Proof.
    intros s'. unfold drop_cmds. cbv zeta. apply fop_mix.
    - intros c a I E. subst c. apply in_flat_map in I. destruct I as ((g, w) & _ & I). apply in_app_or in I. destruct I as [I|I]; apply in_flat_map in I; destruct I as (t & _ & I).
      + unfold drop_parts_cmds in I. destruct (kept_table _ _); [|destruct I]. apply in_app_or in I. destruct I as [I|I].
        * in_if I; [destruct I|]. apply in_map_iff in I. destruct I as (x & X & _). discriminate X.
        * apply in_map_iff in I. destruct I as (x & X & _). discriminate X.
      + unfold drop_function_cmds in I. in_if I; [destruct I|]. destruct I as [X|[]]. discriminate X.
    - assert (NM : forall A (f : A -> command) l, (forall x a, f x <> KAlterTableDrop a) -> no_alter_drop (map f l)).
      { intros A f l H c a I E. subst c. apply in_map_iff in I. destruct I as (x & X & _). now apply H in X. }
      destruct (is_sqlite d) eqn:SQ.
      + apply fop_mix; [apply NM; discriminate|]. apply fop_mix; [apply NM; discriminate|]. apply fop_alters.
        apply (fop_flat _ _ _ alters_apart); [apply all_alters_apart| |].
        * intros a I. apply in_flat_map in I. destruct I as ((g, w) & P & I). cbn [fst snd] in I. apply in_flat_map in I. destruct I as (t & It & I).
          destruct (alters_form d got want s' g w t a P It I) as (_ & _ & pl & pk & px & _ & _ & ->). unfold decompose_alter. cbn [a_add_columns a_drop_columns a_schema a_table map app].
          rewrite map_map. apply in_paired in P. destruct P as (Ig & _). destruct (proj2 CG g Ig) as (_ & _ & T & _). destruct (T t It) as (_ & GL & _).
          destruct (NI g Ig) as (_ & NT & _). destruct (NT t It) as (_ & NL & _).
          apply (fop_map _ _ (fun l l' => l_name l <> l_name l')).
          -- intros l l' _ _ N i A A'. destruct A as [_ A], A' as [_ A']. cbn [with_drop_columns plain_alter a_drop_columns a_drop_constraints a_drop_indexes] in A, A'.
             destruct i; try contradiction; destruct A as (u & X & Y), A' as (u' & X' & Y'); try destruct X as [<-|[]]; try destruct X' as [<-|[]]; try destruct X. cbn [old_column dl_name] in Y, Y'. congruence.
          -- replace (filter pl (objects (t_columns t))) with (filter (fun l => negb (l_ignore l) && pl l) (objects (t_columns t))).
             ++ apply (distinct_fop _ l_name l_ignore); [apply GL|]. intros l L. now apply not_ignored in L.
             ++ clear - NL. induction (objects (t_columns t)) as [|l ls IH]; [reflexivity|]. cbn [filter]. rewrite (NL l (or_introl eq_refl)). cbn [negb andb]. rewrite IH; [reflexivity|]. intros x J. apply NL. now right.
        * intros a b x y H Ia Ib Ix Iy i A A'.
          assert (X : forall a x, In a (flat_map (fun p : schema * schema => flat_map (drop_alters d (snd p)) (objects (s_tables (fst p)))) (paired (schemas_after s' want) (d_schemas got))) ->
            In x (decompose_alter a) -> alter_table_removes cur x i -> alter_table_removes cur a i).
          { clear - SQ. intros a x Ia Ix A. apply in_flat_map in Ia. destruct Ia as ((g, w) & P & I). cbn [fst snd] in I. apply in_flat_map in I. destruct I as (t & It & I).
            destruct (alters_form d got want s' g w t a P It I) as (_ & _ & pl & pk & px & _ & _ & ->). unfold decompose_alter in Ix. cbn [a_add_columns a_drop_columns a_schema a_table map app] in Ix.
            apply in_map_iff in Ix. destruct Ix as (y & <- & Iy). destruct A as [A1 A2]. cbn [with_drop_columns plain_alter a_drop_columns a_drop_constraints a_drop_indexes a_schema a_table] in A1, A2.
            split; [exact A1|]. cbn [a_drop_columns a_drop_constraints a_drop_indexes]. destruct i; try contradiction; destruct A2 as (z & Z & E); try destruct Z as [<-|[]]; try destruct Z. exists y. auto. }
          exact (H i (X a x Ia Ix A) (X b y Ib Iy A')).
      + apply fop_mix'; [|apply fop_alters, all_alters_apart]. intros c a I E. subst c. rewrite !in_app_iff in I. destruct I as [I|[I|I]]; in_if I; try destruct I as [X|[]]; try discriminate X; try destruct I.
  Qed.
End Twice.
Lemma migration_drops_apart : forall m got want mg, migrate m got want = Ok mg -> catalog (dialect_of (m_dialect mg)) (d_current got) got -> nothing_ignored got ->
  ForallOrdPairs (drops_apart got) (m_cmds mg).
Proof.
  intros m got want mg MG CG NI. destruct (migrate_shape _ _ _ _ MG) as (_ & es & s & es' & s' & -> & _). apply fop_mix.
  - intros c a I E. subst c. in_if I; [|destruct I]. apply in_app_or in I. destruct I as [I|I].
    + apply in_map_iff in I. destruct I as (x & X & _). discriminate X.
    + apply in_flat_map in I. destruct I as (w & _ & I). apply creates_kind in I. destruct I as [I _]. discriminate I.
  - destruct (drop_extraneous m); [|constructor]. apply fop_mix.
    + intros c a I E. subst c. in_if I; [destruct I|]. destruct I as [X|[]]. discriminate X.
    + apply drop_cmds_apart; assumption.
Qed.
