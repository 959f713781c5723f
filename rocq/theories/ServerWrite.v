(** * ServerWrite: every command of an expressible migration has SQL *)
From Coq Require Import Lia.
From Verif Require Import GoBase GoBaseFacts QuoteModel EffectModel BuildModel SpecText SpecLex SpecIdent SpecSql.
From Verif Require Import CacheModel UpsertModel DdlModel MigrateModel SpecDdl SpecDrop SpecMigrate SpecColumn SpecExec SpecServer
  DdlSupported MigrateFacts MigrateExec MigratePf ServerForm ServerRun PropertiesDdl.
From Verif Require Import SpecServer SpecExec.

Lemma has_text_writable : forall d c, has_text (command_sql d c) -> writable d c.
Proof. intros d c (s & H). unfold writable, text_of in *. destruct (snd (command_sql d c)); [reflexivity|discriminate H..]. Qed.
Section Write.
  Variables (m : mode) (got want : metadata) (mg : migration).
  Local Notation d := (dialect_of (m_dialect mg)).
  Hypothesis MG : migrate m got want = Ok mg.
  Hypothesis UE : update_existing m = false.
  Hypothesis CMP : comparable d got want.
  Hypothesis WO : wanted_ok d (d_current got) want.
  Hypothesis EX : expressible d got want.
  Hypothesis K3 : d = DSQLite \/ d = DPostgres \/ d = DMySQL.

  Lemma new_index_supported : forall s tb x, has_table want s tb -> table_index tb x -> index_supported d (new_index d x).
  Proof.
    intros s tb x HT X. destruct (te_indexes _ _ _ _ (ex_tables _ _ _ EX s tb HT) x X) as (A & A' & A''). unfold index_supported, new_index. cbn [ci_concurrently ci_if_not_exists ci_index].
    split; [discriminate|]. split; [intros E M; rewrite M in E; discriminate E|]. auto.
  Qed.
  Lemma column_addable : forall s tb c e l, has_table want s tb -> table_column tb l -> (e = true -> d = DPostgres) ->
    (d = DSQLite -> In c (m_cmds mg) /\ create_missing m = true /\ adds d (d_current got) c (IColumn s (t_name tb) (l_name l)) /\ lists got (ITable s (t_name tb))) -> add_column_supported d (new_column d e l).
  Proof.
    intros s tb c e l HT L E A. right. cbn [new_column al_column al_if_not_exists al_ref_table al_ref_column]. destruct (te_columns _ _ _ _ (ex_tables _ _ _ EX s tb HT) l L) as (S1 & S2).
    split; [exact S1|]. split; [exact E|]. intros SQ. destruct (A SQ) as (Ic & CM & AD & LT).
    destruct (added_new m got want mg MG CMP c _ CM (I : in_scope d (IColumn s (t_name tb) (l_name l))) Ic AD) as [_ NG].
    destruct (S2 SQ LT NG) as (P & U & N & G). split; [exact P|]. split; [exact U|]. split; [exact N|]. split; [intros [X|X]; now destruct X|].
    intros [X Y]. apply X. now apply G.
  Qed.
  Lemma created_written : forall c, In c (m_cmds mg) -> create_missing m = true -> create_form d got want c -> writable d c.
  Proof.
    intros c Ic CM F. apply has_text_writable. destruct F as [n N L|e E PG|s tb x HT X M|s tb g HT G|s tb p HT P PM|s tb ie e pl pk px c HT PL PK PX C IE NS|s tb ie e l HT L SQ IE LT|v r ine V VS|f F SQ]; cbn [command_sql].
    - apply create_errors; [reflexivity|]. intros SQ.
      destruct (added_new m got want mg MG CMP _ (ISchema n) CM N Ic) as [_ NG]; [cbn [adds]; auto|]. apply NG. now apply (ex_schemas _ _ _ EX SQ).
    - now apply create_errors.
    - apply create_index_errors; [reflexivity|]. now apply (new_index_supported s tb).
    - unfold has_text, create_trigger_sql. cbn [cg_ignore]. eexists. reflexivity.
    - apply create_table_errors; [reflexivity|]. pose proof (te_name _ _ _ _ (ex_tables _ _ _ EX s tb HT)) as T1. pose proof (te_args _ _ _ _ (ex_tables _ _ _ EX s tb HT)) as T2. pose proof (wt_plain _ _ _ _ (wo_tables _ _ _ WO s tb HT)) as T3.
      unfold create_table_supported. cbv zeta. cbn [ct_table ct_indexes]. split; [exact T1|]. split; [now intros X|]. split; [now intros X|].
      split; [|split; [|split]].
      + intros _ l I. unfold table_columns, alive in I. apply filter_In in I. destruct I as [I J]. cbn [ct_table] in I. apply (te_columns _ _ _ _ (ex_tables _ _ _ EX s tb HT)). split; [exact I|now apply negb_true_iff].
      + intros k I. apply (te_constraints _ _ _ _ (ex_tables _ _ _ EX s tb HT)). unfold table_constraints in I. cbn [ct_table ct_constraints] in I. apply filter_In in I. destruct I as [I J].
        unfold in_table in J. apply andb_true_iff in J. split; [exact I|]. now apply negb_true_iff.
      + intros X. destruct (filter p (objects (t_indexes tb))) as [|x l] eqn:E; [now destruct X|]. apply (PM x). assert (J : In x (filter p (objects (t_indexes tb)))) by (rewrite E; now left). apply filter_In in J. apply J.
      + intros i I. unfold alive in I. apply filter_In in I. destruct I as [I _]. apply in_map_iff in I. destruct I as (x & <- & I). apply filter_In in I. destruct I as [I J].
        apply (new_index_supported s tb); [exact HT|]. split; [exact I|now apply P].
    - assert (A : alter_table_supported d (mk_alter_table ie (t_schema tb) (t_name tb) (map (new_column d e) (filter pl (objects (t_columns tb)))) [] []
      (map added_constraint (filter pk (objects (t_constraints tb)))) [] []
      (map (new_index d) (filter px (objects (t_indexes tb)))) [] false)).
      { unfold alter_table_supported. cbn [a_if_exists a_add_columns a_alter_columns a_drop_columns a_create_indexes a_drop_indexes a_drop_constraints a_add_constraints a_alter_constraints length Nat.add].
        split; [auto|]. split; [|split; [|split; [|split; [|split; [|split; [|split; [|split; [|split]]]]]]]]; try (intros k0 []).
        - intros SQ. now destruct NS.
        - intros PQ. split; [|reflexivity]. destruct (filter px (objects (t_indexes tb))) as [|x l] eqn:E; [reflexivity|]. assert (J : In x (filter px (objects (t_indexes tb)))) by (rewrite E; now left).
          apply filter_In in J. destruct J as [_ J]. apply PX in J. destruct J as [_ J]. rewrite J in PQ. destruct PQ; discriminate.
        - intros a I. apply in_map_iff in I. destruct I as (l & <- & I). apply filter_In in I. destruct I as [I J]. apply (column_addable s tb (c (mk_alter_table ie (t_schema tb) (t_name tb) (map (new_column d e) (filter pl (objects (t_columns tb)))) [] []
      (map added_constraint (filter pk (objects (t_constraints tb)))) [] []
      (map (new_index d) (filter px (objects (t_indexes tb)))) [] false))); [exact HT|split; [exact I|now apply PL]|auto|]. intros SQ. now destruct NS.
        - intros a I. apply in_map_iff in I. destruct I as (k & <- & I). apply filter_In in I. destruct I as [I J]. right. unfold added_constraint. cbn [at_constraint at_index at_not_valid].
          destruct (PK k J) as [P1 P2]. split; [exact P2|]. split; [now intros X|]. split; [intros _; apply (te_constraints _ _ _ _ (ex_tables _ _ _ EX s tb HT)); split; auto|discriminate].
        - intros a I. apply in_map_iff in I. destruct I as (x & <- & I). apply filter_In in I. destruct I as [I J]. right. apply (new_index_supported s tb); [exact HT|]. split; [exact I|]. now apply PX. }
      destruct C as [(-> & _)|(-> & _)]; apply alter_table_errors; auto.
    - apply alter_table_errors; [reflexivity|]. unfold alter_table_supported. cbn [a_if_exists a_add_columns a_alter_columns a_drop_columns a_create_indexes a_drop_indexes a_drop_constraints a_add_constraints a_alter_constraints length Nat.add].
      split; [auto|]. split; [lia|]. split; [auto|]. split; [|repeat split; intros k0 []]. intros a [<-|[]].
      eapply column_addable; [exact HT|exact L|auto|]. intros _. split; [exact Ic|]. split; [exact CM|]. split; [|exact LT]. cbn [adds]. unfold alter_table_adds.
      destruct (ServerOk.table_facts d got want s tb (CW got want mg CMP) HT) as (S1 & R & _). cbn [a_schema a_table a_add_columns part_of]. rewrite S1, R. split; [auto|]. eexists. split; [now left|reflexivity].
    - now apply create_errors.
    - unfold has_text, create_function_sql. cbn [cf_ignore cf_function]. destruct d; try (now destruct SQ); eexists; reflexivity.
  Qed.
  Lemma dropped_written : forall c, drop_form d got want c -> writable d c.
  Proof.
    intros c F. apply has_text_writable. destruct (drop_errors d) as (DT & DV & DX & DG & DF & DE).
    destruct F as [s tb x HT X M|s tb g HT G|f F|b ns e N V BM SQ|ns e N T E|s tb pl pk px HT LW PK PX NS|s tb l HT L LW SQ|es e N IN]; cbn [command_sql].
    - apply DX; [reflexivity|]. unfold drop_index_supported, old_index. cbn [dx_concurrently dx_if_exists dx_cascade]. destruct d; cbn; intuition discriminate.
    - apply DG.
    - apply DF; [reflexivity|]. intros SQ. now apply (ex_functions _ _ _ EX SQ f).
    - apply DV; [reflexivity|]. unfold drop_view_supported. cbn [dv_materialized dv_names dv_cascade]. split; [|exact SQ]. intros ->. destruct BM as (v & V1 & V2); [reflexivity|]. now apply (ex_views _ _ _ EX v).
    - apply DT; [reflexivity|]. unfold drop_table_supported. cbn [dt_cascade]. intros X. apply E in X. destruct K3 as [K|[K|K]]; auto. contradiction.
    - apply alter_table_errors; [reflexivity|]. unfold alter_table_supported. cbn [a_if_exists a_add_columns a_alter_columns a_drop_columns a_create_indexes a_drop_indexes a_drop_constraints a_add_constraints a_alter_constraints length Nat.add].
      split; [discriminate|]. split; [intros X; contradiction|]. split; [|split; [intros k0 []|split; [intros k0 []|split; [|split; [|split; [intros k0 []|split; [intros k0 []|split; [intros k0 []|]]]]]]]].
      + intros PQ. split; [reflexivity|]. destruct (filter px (objects (t_indexes tb))) as [|x l] eqn:Q; [reflexivity|]. assert (J : In x (filter px (objects (t_indexes tb)))) by (rewrite Q; now left).
        apply filter_In in J. destruct J as [_ J]. apply PX in J. rewrite J in PQ. destruct PQ; discriminate.
      + intros a I. apply in_map_iff in I. destruct I as (l & <- & _). right. unfold drop_supported, old_column. cbn [dl_if_exists dl_cascade]. destruct d; cbn; intuition discriminate.
      + intros a I. apply in_map_iff in I. destruct I as (l & <- & _). right. split; [exact NS|]. unfold drop_supported, old_constraint. cbn [dk_if_exists dk_cascade]. destruct d; cbn; intuition discriminate.
      + intros a I. apply in_map_iff in I. destruct I as (x & <- & J). apply filter_In in J. destruct J as [_ J]. apply PX in J. right. unfold old_index. cbn [dx_concurrently dx_if_exists dx_cascade]. rewrite J. auto.
    - apply alter_table_errors; [reflexivity|]. unfold alter_table_supported. cbn [a_if_exists a_add_columns a_alter_columns a_drop_columns a_create_indexes a_drop_indexes a_drop_constraints a_add_constraints a_alter_constraints length Nat.add].
      split; [discriminate|]. split; [lia|]. split; [auto|]. split; [intros k0 []|]. split; [intros k0 []|]. split; [|repeat split; intros k0 []].
      intros a [<-|[]]. right. unfold drop_supported, old_column. cbn [dl_if_exists dl_cascade]. rewrite SQ. cbn. intuition discriminate.
    - apply DE; [reflexivity|]. destruct K3 as [K|[K|K]]; [exfalso| exact K|exfalso]; (assert (Z : d_extensions got = []) by (apply (ex_extensions _ _ _ EX); rewrite K; discriminate)); rewrite Z in IN; destruct es as [|e' es]; [now destruct N|destruct (IN e' (or_introl eq_refl))|now destruct N|destruct (IN e' (or_introl eq_refl))].
  Qed.
  Lemma all_written : forall c, In c (m_cmds mg) -> writable d c.
  Proof.
    intros c I. destruct (migration_form m got want mg c MG UE CMP I) as [[CM F]|[_ F]]; [now apply created_written|now apply dropped_written].
  Qed.
End Write.
