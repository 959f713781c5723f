(** * MigratePf: what running a migration leads to; migrating a catalog to itself *)
From Coq Require Import Lia Permutation.
From Verif Require Import GoBase GoBaseFacts QuoteModel BuildModel CacheModel SpecCache CacheFacts UpsertModel DdlModel
  MigrateModel SpecMigrate MigrateFacts MigrateDb MigrateRun.

(** ** It is decided what a catalog lists *)
Lemma exists_dec : forall A (P : A -> Prop) l, (forall a, P a \/ ~ P a) -> (exists a, In a l /\ P a) \/ ~ exists a, In a l /\ P a.
Proof.
  intros A P l D. induction l as [|a l IH]; [right; intros (a & [] & _)|].
  destruct (D a) as [H|H]; [left; exists a; split; [now left|exact H]|].
  destruct IH as [(b & I & K)|N]; [left; exists b; split; [now right|exact K]|right].
  intros (b & [<-|I] & K); [auto|]. apply N. eauto.
Qed.
Lemma bytes_dec : forall a b : bytes, a = b \/ a <> b.
Proof. intros a b. destruct (beqb a b) eqn:E; [left; now apply beqb_eq|right; intros ->]. assert (beqb b b = true) by now apply beqb_eq. congruence. Qed.
Lemma and_dec : forall P Q : Prop, (P \/ ~ P) -> (Q \/ ~ Q) -> (P /\ Q) \/ ~ (P /\ Q).
Proof. tauto. Qed.
Lemma present_dec : forall A (nm : A -> bytes) ig l n, present nm ig l n \/ ~ present nm ig l n.
Proof.
  intros A nm ig l n. unfold present. apply (exists_dec A (fun a => ig a = false /\ nm a = n)).
  intros a. apply and_dec; [destruct (ig a); auto; right; discriminate|apply bytes_dec].
Qed.
Lemma table_has_dec : forall s t i, table_has s t i \/ ~ table_has s t i.
Proof. intros s t [ ]; cbn [table_has]; try tauto; repeat apply and_dec; try apply bytes_dec; apply present_dec. Qed.
Lemma schema_has_dec : forall sc i, schema_has sc i \/ ~ schema_has sc i.
Proof.
  intros sc i.
  assert (X : (exists t, In t (objects (s_tables sc)) /\ t_ignore t = false /\ table_has (s_name sc) t i) \/
              ~ exists t, In t (objects (s_tables sc)) /\ t_ignore t = false /\ table_has (s_name sc) t i).
  { apply (exists_dec _ (fun t => t_ignore t = false /\ table_has (s_name sc) t i)). intros t.
    apply and_dec; [destruct (t_ignore t); auto; right; discriminate|apply table_has_dec]. }
  destruct i; cbn [schema_has]; try exact X; try (apply and_dec); try apply bytes_dec; apply present_dec.
Qed.
Lemma lists_dec : forall db i, lists db i \/ ~ lists db i.
Proof.
  intros db i. unfold lists. apply (exists_dec _ (fun sc => s_ignore sc = false /\ schema_has sc i)). intros sc.
  apply and_dec; [destruct (s_ignore sc); auto; right; discriminate|apply schema_has_dec].
Qed.

(** ** The phases of a migration *)
Section Migration.
  Variables (m : mode) (got want : metadata) (mg : migration).
  Hypothesis MG : migrate m got want = Ok mg.
  Let d := dialect_here mg.
  Let cur := d_current got.

  Definition from_create (c : command) : Prop :=
    exists s, (s = ext_state_of got \/ exists es, missing_extensions (d_extensions want) (ext_state_of got) = Some (es, s)) /\
      In c (flat_map (create_schema_cmds d m cur (schemas_after s got)) (objects (d_schemas want))).

  Lemma cmds_not_ignored : forall c, In c (m_cmds mg) -> cmd_ignore c = false.
  Proof.
    intros c I. destruct (migrate_shape _ _ _ _ MG) as (_ & es & s & es' & s' & E & _). rewrite E in I.
    apply in_app_or in I. destruct I as [I|I].
    - in_if I; [|destruct I]. apply in_app_or in I. destruct I as [I|I].
      + apply in_map_iff in I. destruct I as (e & <- & _). reflexivity.
      + apply in_flat_map in I. destruct I as (w & _ & I). apply (creates_kind _ _ _ _ _ _ I).
    - in_if I; [|destruct I]. apply in_app_or in I. destruct I as [I|I].
      + in_if I; [destruct I|]. destruct I as [<-|[]]. reflexivity.
      + apply (drops_kind _ _ _ _ _ I).
  Qed.
  Lemma removes_only_drops : forall c i, In c (m_cmds mg) -> removes d cur c i ->
    drop_extraneous m = true /\ is_create c = false.
  Proof.
    intros c i I R. destruct (migrate_shape _ _ _ _ MG) as (_ & es & s & es' & s' & E & _). rewrite E in I.
    apply in_app_or in I. destruct I as [I|I].
    - exfalso. in_if I; [|destruct I]. apply in_app_or in I. destruct I as [I|I].
      + apply in_map_iff in I. destruct I as (e & <- & _). exact R.
      + apply in_flat_map in I. destruct I as (w & _ & I). now apply (creates_remove_nothing _ _ _ _ _ _ _ I) in R.
    - destruct (drop_extraneous m); [|destruct I]. split; [reflexivity|]. apply in_app_or in I. destruct I as [I|I].
      + in_if I; [destruct I|]. destruct I as [<-|[]]. reflexivity.
      + apply (drops_kind _ _ _ _ _ I).
  Qed.
  Lemma adds_only_creates : forall c i, In c (m_cmds mg) -> adds d cur c i ->
    (create_missing m = true \/ update_existing m = true) /\ is_create c = true /\ from_create c.
  Proof.
    intros c i I A. destruct (migrate_shape _ _ _ _ MG) as (_ & es & s & es' & s' & E & X1 & X2). rewrite E in I.
    apply in_app_or in I. destruct I as [I|I].
    - destruct (create_missing m || update_existing m) eqn:CU; [|destruct I]. split; [now apply orb_true_iff|].
      apply in_app_or in I. destruct I as [I|I].
      + apply in_map_iff in I. destruct I as (e & <- & _). destruct A.
      + split.
        * apply in_flat_map in I. destruct I as (w & _ & I). apply (creates_kind _ _ _ _ _ _ I).
        * exists s. split; [|exact I]. destruct X1 as [[_ X1]|X1]; [now left|right; eauto].
    - exfalso. in_if I; [|destruct I]. apply in_app_or in I. destruct I as [I|I].
      + in_if I; [destruct I|]. destruct I as [<-|[]]. exact A.
      + now apply (drops_add_nothing _ _ cur _ _ _ i I) in A.
  Qed.

  Section Drops.
    Hypothesis CG : catalog d cur got.
    Hypothesis CW : catalog d cur want.
    Hypothesis XW : extensions_apart want (d_extensions got).
    Hypothesis NI : nothing_ignored got.
    Hypothesis NA : names_agree got want.

    Lemma want_after_good : forall es' s', ((es' = [] /\ s' = ext_state_of want) \/
        missing_extensions (droppable_extensions (d_extensions got)) (ext_state_of want) = Some (es', s')) ->
      good_slice s_name s_ignore true (schemas_after s' want).
    Proof.
      intros es' s' X. destruct X as [[_ ->]|X].
      - unfold schemas_after, ext_state_of. cbn [x_schema_cache]. destruct CW as [GW _]. destruct (d_schemas want). exact GW.
      - apply (schemas_after_good want (droppable_extensions (d_extensions got)) es' s'); [apply CW| |exact X].
        destruct XW as [E|E]; [now left|right]. intros e sc Ie Is. apply E; [|exact Is].
        unfold droppable_extensions in Ie. apply filter_In in Ie. apply Ie.
    Qed.
    Lemma migration_drops_nothing_wanted : forall c i, In c (m_cmds mg) -> removes d cur c i -> ~ lists want i.
    Proof.
      intros c i I R. destruct (removes_only_drops c i I R) as [DE KC].
      destruct (migrate_shape _ _ _ _ MG) as (_ & es & s & es' & s' & E & X1 & X2). rewrite E, DE in I.
      apply in_app_or in I. destruct I as [I|I].
      - exfalso. in_if I; [|destruct I]. apply in_app_or in I. destruct I as [I|I].
        + apply in_map_iff in I. destruct I as (e & <- & _). exact R.
        + apply in_flat_map in I. destruct I as (w & _ & I). now apply (creates_remove_nothing _ _ _ _ _ _ _ I) in R.
      - apply in_app_or in I. destruct I as [I|I]; [in_if I; [destruct I|]; destruct I as [<-|[]]; destruct R|].
        pose proof (want_after_good es' s' X2) as GW.
        destruct (proj1 (in_drops d m cur (d_schemas got) (schemas_after s' want) (proj2 CG) (proj2 CW) i)) as (g & w & P & D); [eauto|].
        change (lists want i) with (lists_in (objects (schemas_after s' want)) i).
        revert P D. apply drops_sound; auto; try apply CG; try apply CW.
        + intros sc Is t It. destruct (NI sc Is) as (_ & T & _). destruct (T t It) as (_ & _ & _ & T1 & T2). auto.
        + intros s0 t t' x H1 H2. apply (proj1 NA s0 t t' x); auto.
        + intros s0 t t' x H1 H2. apply (proj2 NA s0 t t' x); auto.
    Qed.
    Lemma migration_drops_all_else : forall i,
      (d = DSQLite -> forall sc v, In sc (objects (d_schemas got)) -> In v (objects (s_views sc)) -> v_materialized v = false) ->
      drop_extraneous m = true -> in_scope d i -> (forall s, i <> ISchema s) ->
      lists got i -> ~ lists want i -> exists c, In c (m_cmds mg) /\ removes d cur c i.
    Proof.
      intros i SV DE SC NS LG LW.
      destruct (migrate_shape _ _ _ _ MG) as (_ & es & s & es' & s' & E & X1 & X2). rewrite E, DE.
      pose proof (want_after_good es' s' X2) as GW.
      destruct (proj2 (in_drops d m cur (d_schemas got) (schemas_after s' want) (proj2 CG) (proj2 CW) i)) as (c & I & R).
      - apply drops_complete; auto; try apply CG; try apply CW.
      - exists c. split; [|exact R]. apply in_or_app. right. apply in_or_app. now right.
    Qed.
  End Drops.

  Section Creates.
    Hypothesis CM : create_missing m = true.
    Hypothesis CG : catalog d cur got.
    Hypothesis CW : catalog d cur want.
    Hypothesis XG : extensions_apart got (d_extensions want).
    Hypothesis PV : plain_views want.

    Lemma got_after_good : forall s, (s = ext_state_of got \/ exists es, missing_extensions (d_extensions want) (ext_state_of got) = Some (es, s)) ->
      good_slice s_name s_ignore true (schemas_after s got).
    Proof.
      intros s [->|(es & X)].
      - unfold schemas_after, ext_state_of. cbn [x_schema_cache]. destruct CG as [GG _]. destruct (d_schemas got). exact GG.
      - apply (schemas_after_good got (d_extensions want) es s); [apply CG|exact XG|exact X].
    Qed.
    Lemma migration_adds : forall i, in_scope d i ->
      (exists c, In c (m_cmds mg) /\ adds d cur c i) <-> lists want i /\ ~ lists got i.
    Proof.
      intros i SC.
      assert (CA : forall s, good_slice s_name s_ignore true (schemas_after s got) ->
        (exists c, In c (flat_map (create_schema_cmds d m cur (schemas_after s got)) (objects (d_schemas want))) /\ adds d cur c i) <->
        lists want i /\ ~ lists got i).
      { intros s G. change (lists got i) with (lists_in (objects (schemas_after s got)) i). apply creates_add; auto; try apply CG; try apply CW. }
      split.
      - intros (c & I & A). destruct (adds_only_creates c i I A) as (_ & _ & s & X & J).
        apply (CA s (got_after_good s X)). eauto.
      - intros H. destruct (migrate_shape _ _ _ _ MG) as (_ & es & s & es' & s' & E & X1 & X2).
        apply (CA s) in H. 2:{ apply got_after_good. destruct X1 as [[_ X1]|X1]; [now left|right; eauto]. }
        destruct H as (c & I & A). exists c. split; [|exact A]. rewrite E, CM. cbn [orb]. apply in_or_app. left. apply in_or_app. now right.
    Qed.
    Hypothesis PF : forall w, In w (objects (d_schemas want)) -> NoDup (map f_name (filter (fun f => negb (f_ignore f)) (fobjects (s_functions w)))).
    Lemma migration_apart : ForallOrdPairs (apart d cur) (m_cmds mg).
    Proof.
      destruct (migrate_shape _ _ _ _ MG) as (_ & es & s & es' & s' & E & X1 & X2). rewrite E, CM. cbn [orb].
      assert (LE : forall es, ForallOrdPairs (apart d cur) (map (fun e => KCreateExtension (mk_create_extension true e false false)) es)).
      { intros l. induction l as [|e l IH]; cbn [map]; [constructor|]. constructor; [|exact IH]. apply Forall_forall. intros c _ i _ A _. exact A. }
      assert (DD : forall l, (forall c i, In c l -> ~ adds d cur c i) -> ForallOrdPairs (apart d cur) l).
      { intros l. induction l as [|c l IH]; intros H; [constructor|]. constructor; [|apply IH; intros c' i I; apply H; now right].
        apply Forall_forall. intros c' _ i _ A _. revert A. apply H. now left. }
      assert (ND : forall c i, In c (if drop_extraneous m then
             (if is_nil es' then [] else [KDropExtension (mk_drop_extension true es' (drop_cascade m) false)])
             ++ drop_cmds (dialect_here mg) m (schemas_after s' want) (d_schemas got) else []) -> ~ adds d cur c i).
      { intros c i I A. in_if I; [|destruct I]. apply in_app_or in I. destruct I as [I|I].
        - in_if I; [destruct I|]. destruct I as [<-|[]]. exact A.
        - now apply (drops_add_nothing _ _ cur _ _ _ i I) in A. }
      apply fop_app; [apply fop_app|apply DD; exact ND|].
      - apply LE.
      - apply creates_apart; auto; try apply CG; try apply CW.
      - intros a b Ia _ i _ A _. apply in_map_iff in Ia. destruct Ia as (e & <- & _). exact A.
      - intros a b _ Ib i _ _ A. now apply ND in A.
    Qed.
    Hypothesis NA : names_agree got want.
    Lemma after_creates : exists ds, exists cs,
      exec_cmds mg = cs ++ ds /\
      (forall c, In c ds <-> In c (m_cmds mg) /\ is_create c = false) /\
      forall i, in_scope d i -> (after d cur cs (lists got) i <-> lists got i \/ lists want i).
    Proof.
      destruct (exec_phases mg cmds_not_ignored) as (cs & ds & E & C1 & C2). exists ds, cs. split; [exact E|]. split; [exact C2|].
      intros i SC.
      assert (FP : ForallOrdPairs (apart d cur) (exec_cmds mg)).
      { eapply fop_perm; [apply apart_sym| |exact migration_apart]. apply Permutation_sym.
        eapply Permutation_trans; [apply exec_perm|].
        assert (F : filter (fun c => negb (cmd_ignore c)) (m_cmds mg) = m_cmds mg).
        { pose proof cmds_not_ignored as NIg. clear - NIg. induction (m_cmds mg) as [|c l IH]; cbn [filter]; [reflexivity|].
          rewrite NIg by now left. cbn [negb]. f_equal. apply IH. intros x I. apply NIg. now right. }
        rewrite F. apply Permutation_refl. }
      rewrite run_creates.
      - assert (X : (exists c, In c cs /\ adds d cur c i) <-> lists want i /\ ~ lists got i).
        { rewrite <- migration_adds by exact SC. split.
          - intros (c & I & A). exists c. split; [|exact A]. now apply C1.
          - intros (c & I & A). exists c. split; [|exact A]. apply C1. split; [exact I|]. now apply (adds_only_creates c i). }
        rewrite X. destruct (lists_dec got i); tauto.
      - intros c j I R. apply C1 in I. destruct I as [I K]. destruct (removes_only_drops c j I R) as [_ K']. congruence.
      - intros a c b EC.
        assert (Ic : In c (m_cmds mg)) by (apply C1; rewrite EC; apply in_or_app; right; now left).
        assert (Ia : forall c', In c' a -> In c' (m_cmds mg)) by (intros c' I; apply C1; rewrite EC; apply in_or_app; now left).
        assert (AP : forall c', In c' a -> apart d cur c' c).
        { intros c' I. apply (fop_split _ _ a c (b ++ ds) FP); [|exact I]. rewrite E, EC, <- app_assoc. reflexivity. }
        destruct c; cbn [acts]; auto.
        + set (j := ITable (resolve cur (t_schema (ct_table c))) (t_name (ct_table c))).
          assert (A : adds d cur (KCreateTable c) j) by (unfold j; split; cbn [part_of]; auto).
          assert (SJ : in_scope d j) by exact Logic.I.
          destruct (proj1 (migration_adds j SJ)) as [LW LG]; [eauto|].
          intros [H|(c' & I' & A')]; [auto|]. now apply (AP c' I' j SJ).
        + intros ND t. set (n := x_name (ci_index c)). set (s0 := resolve cur (x_schema (ci_index c))).
          assert (A : adds d cur (KCreateIndex c) (IIndex s0 (x_table (ci_index c)) n)) by reflexivity.
          destruct (proj1 (migration_adds (IIndex s0 (x_table (ci_index c)) n) Logic.I)) as [LW LG]; [eauto|].
          intros [H|(c' & I' & A')].
          * assert (t = x_table (ci_index c)) by (apply (proj1 NA s0 t (x_table (ci_index c)) n); auto). subst t. auto.
          * destruct (proj1 (migration_adds (IIndex s0 t n) Logic.I)) as [LW' _]; [eauto|].
            assert (t = x_table (ci_index c)) by (apply (proj1 NA s0 t (x_table (ci_index c)) n); auto). subst t.
            exact (AP c' I' (IIndex s0 (x_table (ci_index c)) n) Logic.I A' A).
    Qed.
  End Creates.

  (** Everything together. *)
  Section All.
    Hypothesis CG : catalog d cur got.
    Hypothesis CW : catalog d cur want.
    Hypothesis XG : extensions_apart got (d_extensions want).
    Hypothesis XW : extensions_apart want (d_extensions got).
    Hypothesis NI : nothing_ignored got.
    Hypothesis NA : names_agree got want.
    Hypothesis PV : plain_views want.
    Hypothesis PF : forall w, In w (objects (d_schemas want)) -> NoDup (map f_name (filter (fun f => negb (f_ignore f)) (fobjects (s_functions w)))).
    Hypothesis SV : d = DSQLite -> forall sc v, In sc (objects (d_schemas got)) -> In v (objects (s_views sc)) -> v_materialized v = false.
    Hypothesis CU : create_missing m = true \/ update_existing m = false.

    Lemma migration_result : forall i, in_scope d i ->
      (after d cur (exec_cmds mg) (lists got) i <->
       (lists got i \/ (create_missing m = true /\ lists want i)) /\
       (drop_extraneous m = false \/ lists want i \/ exists s, i = ISchema s)).
    Proof.
      intros i SC.
      assert (X : exists cs ds, exec_cmds mg = cs ++ ds /\
        (forall c, In c ds <-> In c (m_cmds mg) /\ is_create c = false) /\
        (after d cur cs (lists got) i <-> lists got i \/ (create_missing m = true /\ lists want i))).
      { destruct (create_missing m) eqn:CM.
        - destruct (after_creates CM CG CW XG PV PF NA) as (ds & cs & E & D & A). exists cs, ds. split; [exact E|]. split; [exact D|].
          rewrite (A i SC). tauto.
        - destruct (exec_phases mg cmds_not_ignored) as (cs & ds & E & C1 & C2). exists cs, ds. split; [exact E|]. split; [exact C2|].
          destruct CU as [X|UE]; [discriminate|].
          destruct (migrate_shape _ _ _ _ MG) as (_ & es & s & es' & s' & EM & _). rewrite CM, UE in EM. cbn [orb app] in EM.
          assert (EC : cs = []).
          { destruct cs as [|c cs]; [reflexivity|exfalso]. destruct (proj1 (C1 c) (or_introl eq_refl)) as [I K]. rewrite EM in I.
            in_if I; [|destruct I]. apply in_app_or in I. destruct I as [I|I].
            - in_if I; [destruct I|]. destruct I as [<-|[]]. discriminate.
            - apply drops_kind in I. destruct I as [I _]. congruence. }
          rewrite EC. cbn [after fold_left]. intuition discriminate. }
      destruct X as (cs & ds & E & D & A). rewrite E, after_app, run_drops.
      2:{ intros c j I AD. apply D in I. destruct I as [I K]. destruct (adds_only_creates c j I AD) as (_ & K' & _). congruence. }
      rewrite A.
      assert (R : (exists c, In c ds /\ removes d cur c i) <-> exists c, In c (m_cmds mg) /\ removes d cur c i).
      { split; intros (c & I & R); exists c; (split; [|exact R]).
        - now apply D.
        - apply D. split; [exact I|]. now apply (removes_only_drops c i). }
      rewrite R. split.
      - intros [H N]. split; [exact H|]. destruct (drop_extraneous m) eqn:DE; [right|now left].
        destruct (lists_dec want i) as [LW|LW]; [now left|right].
        assert (LG : lists got i) by (destruct H as [H|[_ H]]; [exact H|contradiction]).
        destruct i as [s0| | | | | | | ]; [now exists s0|..]; exfalso; apply N; apply migration_drops_all_else; auto; discriminate.
      - intros [H K]. split; [exact H|]. intros (c & I & RM).
        destruct (removes_only_drops c i I RM) as [DE _]. destruct K as [K|[K|[s0 ->]]]; [congruence| |].
        + now apply (migration_drops_nothing_wanted CG CW XW NI NA c i I RM).
        + destruct c; cbn [removes] in RM; try contradiction; try discriminate; try (now destruct RM as [[] _]).
          * destruct RM as (? & ? & _ & E0). discriminate.
          * destruct RM as (? & ? & _ & E0). exact E0.
          * destruct RM as (? & E0 & _). discriminate.
          * destruct RM as (? & E0). discriminate.
    Qed.
  End All.
End Migration.

(** ** Migrating a catalog to itself *)
Lemma filter_nil : forall A (p : A -> bool) l, (forall a, In a l -> p a = false) -> filter p l = [].
Proof.
  intros A p l. induction l as [|a l IH]; intros H; cbn [filter]; [reflexivity|]. rewrite H by now left. apply IH. intros b I. apply H. now right.
Qed.
Lemma flat_map_nil : forall A B (f : A -> list B) l, (forall a, In a l -> f a = []) -> flat_map f l = [].
Proof.
  intros A B f l. induction l as [|a l IH]; intros H; cbn [flat_map]; [reflexivity|]. rewrite H by now left. apply IH. intros b I. apply H. now right.
Qed.
Lemma diff_column_self : forall d l, snd (diff_column d l l) = false.
Proof.
  intros d l. unfold diff_column. cbn [snd].
  assert (E : equal_fold (l_type l) (l_type l) = true) by (unfold equal_fold; now apply beqb_eq). rewrite E.
  destruct (l_not_null l), (is_empty (l_default l)), (is_postgres d), (is_empty (l_identity l)); reflexivity.
Qed.
Section Self.
  Variables (d : dialect) (m : mode) (current : bytes).
  Lemma self_table : forall sc t, good_schema d current sc -> In t (objects (s_tables sc)) -> create_table_cmds d m sc t = [].
  Proof.
    intros sc t G It. unfold create_table_cmds. destruct (t_ignore t) eqn:IG; [reflexivity|].
    destruct G as (_ & TS & TG & _). destruct (TG t It) as (_ & GL & GK & GX & _ & GG & _).
    rewrite (find_table_spec _ _ TS It IG). cbv zeta. cbn [missing negb].
    assert (K : missing_constraints d t t = []).
    { unfold missing_constraints. destruct (is_sqlite d) eqn:SQ; [reflexivity|]. apply filter_nil. intros c Ic.
      assert (ND : d <> DSQLite) by (intros X; now rewrite X in SQ). specialize (GK ND).
      destruct (c_ignore c) eqn:I; [reflexivity|]. unfold find_constraint. now rewrite (found_here _ _ _ _ _ c GK). }
    assert (X : missing_indexes d t t = []).
    { unfold missing_indexes. rewrite filter_nil; [reflexivity|]. intros c Ic.
      destruct (x_ignore c) eqn:I; [reflexivity|]. unfold find_index. now rewrite (found_here _ _ _ _ _ c GX). }
    assert (T : missing_triggers t t = []).
    { unfold missing_triggers. rewrite filter_nil; [reflexivity|]. intros c Ic.
      destruct (g_ignore c) eqn:I; [reflexivity|]. unfold find_trigger. now rewrite (found_here _ _ _ _ _ c GG). }
    assert (A : added_columns d m t t = []).
    { unfold added_columns. apply flat_map_nil. intros l Il. destruct (l_ignore l) eqn:I; [reflexivity|].
      unfold find_column. now rewrite (found_here _ _ _ _ _ l GL). }
    assert (C : altered_columns d m t t = []).
    { unfold altered_columns. apply flat_map_nil. intros l Il. destruct (l_ignore l) eqn:I; [reflexivity|].
      unfold find_column. rewrite (found_here _ _ _ _ _ l GL) by auto. destruct (update_existing m); [|reflexivity].
      pose proof (diff_column_self d l) as D. destruct (diff_column d l l) as [c b]. cbn [snd] in D. now rewrite D. }
    rewrite K, X, T, A, C. cbn [map filter is_nil andb app]. destruct (is_mysql d), (is_sqlite d); reflexivity.
  Qed.
  Lemma self_schema : forall c w, good_slice s_name s_ignore true c -> (forall g, In g (objects c) -> good_schema d current g) ->
    In w (objects c) -> create_schema_cmds d m current c w = [].
  Proof.
    intros c w G GS Iw. unfold create_schema_cmds. destruct (s_ignore w) eqn:IG; [reflexivity|]. cbv zeta.
    rewrite (schema_name_here d current c w (GS w Iw)). unfold find_schema. rewrite (found_here _ _ _ _ _ w G Iw IG eq_refl). cbn [missing andb app].
    destruct (GS w Iw) as (CUR & TS & TG & VS & VN & FS & FN).
    rewrite flat_map_nil by (intros t It; apply self_table; auto).
    rewrite flat_map_nil.
    2:{ intros v Iv. unfold create_view_cmds. destruct (v_ignore v) eqn:IV; [reflexivity|].
        unfold find_view. now rewrite (found_here _ _ _ _ _ v VS). }
    rewrite flat_map_nil; [reflexivity|].
    intros f If. unfold create_function_cmds. destruct (is_sqlite d); [reflexivity|]. destruct (f_ignore f) eqn:IF; [reflexivity|].
    assert (H : has_function (f_name f) (s_functions w) = true).
    { apply functions_spec; [exact FS|now apply (proj1 FS)|]. exists f. auto. }
    now rewrite H.
  Qed.
  Lemma self_drops : forall c c', objects c' = objects c -> good_slice s_name s_ignore true c' ->
    (forall g, In g (objects c) -> good_schema d current g) ->
    (forall sc, In sc (objects c) ->
      (forall t, In t (objects (s_tables sc)) ->
        (forall l, In l (objects (t_columns t)) -> l_ignore l = false) /\
        (forall c, In c (objects (t_constraints t)) -> c_ignore c = false) /\
        (forall x, In x (objects (t_indexes t)) -> x_ignore x = false) /\
        (forall g, In g (objects (t_triggers t)) -> g_ignore g = false)) /\
      (forall v, In v (objects (s_views sc)) -> v_ignore v = false) /\
      (forall f, In f (fobjects (s_functions sc)) -> f_ignore f = false)) ->
    drop_cmds d m c' c = [].
  Proof.
    intros c c' E G GS NI. unfold drop_cmds. cbv zeta.
    assert (P : forall p, In p (paired c' c) -> exists g, p = (g, g) /\ In g (objects c)).
    { intros [g w] Ip. apply in_paired in Ip. destruct Ip as (Ig & IG & ->). exists g.
      unfold find_schema. rewrite (found_here _ _ _ _ _ g G) by (auto; now rewrite E). auto. }
    assert (T : forall g, In g (objects c) -> forall t, In t (objects (s_tables g)) -> t_ignore t = false -> find_table (t_name t) (s_tables g) = Some t).
    { intros g Ig t It IG. apply find_table_spec; auto. apply (GS g Ig). }
    rewrite (flat_map_nil _ _ (fun p : schema * schema => flat_map (drop_table_names (snd p)) (objects (s_tables (fst p))))).
    2:{ intros p Ip. destruct (P p Ip) as (g & -> & Ig). cbn [fst snd]. apply flat_map_nil. intros t It. unfold drop_table_names.
        destruct (t_ignore t) eqn:IG; [reflexivity|]. now rewrite T. }
    assert (V : forall b, flat_map (fun p : schema * schema => flat_map (drop_view_names b (snd p)) (objects (s_views (fst p)))) (paired c' c) = []).
    { intros b. apply flat_map_nil. intros p Ip. destruct (P p Ip) as (g & -> & Ig). cbn [fst snd]. apply flat_map_nil. intros v Iv.
      unfold drop_view_names, find_view. destruct (GS g Ig) as (_ & _ & _ & VS & _). destruct (NI g Ig) as (_ & NV & _).
      now rewrite (found_here _ _ _ _ _ v VS Iv (NV v Iv) eq_refl). }
    rewrite !V.
    assert (LP : forall g, In g (objects c) -> forall t, In t (objects (s_tables g)) -> forall t', kept_table g t = Some t' ->
      t' = t /\ dropped_columns d t t = [] /\ dropped_constraints d t t = [] /\ dropped_indexes d t t = [] /\ dropped_triggers d t t = []).
    { intros g Ig t It t' K. apply kept_some in K. destruct K as [IG F]. rewrite T in F by auto. split; [congruence|].
      destruct (GS g Ig) as (_ & _ & TG & _). destruct (TG t It) as (_ & GL & GK & GX & _ & GG & _).
      destruct (NI g Ig) as (NT & _). destruct (NT t It) as (N1 & N2 & N3 & N4).
      split; [|split; [|split]].
      - unfold dropped_columns. rewrite filter_nil; [reflexivity|]. intros x Ix. unfold find_column. now rewrite (found_here _ _ _ _ _ x GL Ix (N1 x Ix) eq_refl).
      - unfold dropped_constraints. destruct (is_sqlite d) eqn:SQ; [reflexivity|].
        assert (ND : d <> DSQLite) by (intros X; now rewrite X in SQ). specialize (GK ND). rewrite filter_nil; [reflexivity|]. intros x Ix. unfold find_constraint.
        now rewrite (found_here _ _ _ _ _ x GK Ix (N2 x Ix) eq_refl).
      - unfold dropped_indexes. rewrite filter_nil; [reflexivity|]. intros x Ix. unfold find_index. now rewrite (found_here _ _ _ _ _ x GX Ix (N3 x Ix) eq_refl).
      - unfold dropped_triggers. rewrite filter_nil; [reflexivity|]. intros x Ix. unfold find_trigger. now rewrite (found_here _ _ _ _ _ x GG Ix (N4 x Ix) eq_refl). }
    rewrite (flat_map_nil _ _ (fun p : schema * schema => flat_map (drop_alters d (snd p)) (objects (s_tables (fst p))))).
    2:{ intros p Ip. destruct (P p Ip) as (g & -> & Ig). cbn [fst snd]. apply flat_map_nil. intros t It. unfold drop_alters.
        destruct (kept_table g t) as [t'|] eqn:K; [|reflexivity]. destruct (LP g Ig t It t' K) as (-> & E1 & E2 & E3 & E4). rewrite E1, E2, E3.
        destruct (is_mysql d); reflexivity. }
    rewrite flat_map_nil.
    2:{ intros p Ip. destruct (P p Ip) as (g & -> & Ig). cbn [fst snd]. rewrite flat_map_nil.
        - rewrite flat_map_nil; [reflexivity|]. intros f If. unfold drop_function_cmds.
          destruct (GS g Ig) as (_ & _ & _ & _ & _ & FS & _). destruct (NI g Ig) as (_ & _ & NF).
          assert (H : has_function (f_name f) (s_functions g) = true).
          { apply functions_spec; [exact FS|now apply (proj1 FS)|]. exists f. auto. }
          now rewrite H.
        - intros t It. unfold drop_parts_cmds. destruct (kept_table g t) as [t'|] eqn:K; [|reflexivity].
          destruct (LP g Ig t It t' K) as (-> & E1 & E2 & E3 & E4). rewrite E3, E4. destruct (is_mysql d); reflexivity. }
    cbn. destruct (is_sqlite d); reflexivity.
  Qed.
End Self.
(** Only commands about extensions. *)
Lemma migrate_self : forall m db mg, migrate m db db = Ok mg -> catalog (dialect_of (m_dialect mg)) (d_current db) db -> extensions_apart db (d_extensions db) ->
  (drop_extraneous m = true -> nothing_ignored db) ->
  forall c, In c (m_cmds mg) -> is_extension_command c.
Proof.
  intros m db mg MG CG XA NI c I.
  destruct (migrate_shape _ _ _ _ MG) as (_ & es & s & es' & s' & E & X1 & X2). rewrite E in I.
  apply in_app_or in I. destruct I as [I|I].
  - in_if I; [|destruct I]. apply in_app_or in I. destruct I as [I|I].
    + apply in_map_iff in I. destruct I as (e & <- & _). exact Logic.I.
    + exfalso. rewrite flat_map_nil in I; [destruct I|]. intros w Iw. apply self_schema; [|apply CG|exact Iw].
      eapply got_after_good; [exact CG|exact XA|]. destruct X1 as [[_ X1]|X1]; [now left|right; eauto].
  - destruct (drop_extraneous m); [|destruct I]. apply in_app_or in I. destruct I as [I|I].
    + in_if I; [destruct I|]. destruct I as [<-|[]]. exact Logic.I.
    + exfalso. rewrite (self_drops _ _ (d_current db)) in I; [destruct I|reflexivity| |apply CG|].
      * eapply want_after_good; [exact CG|exact XA|exact X2].
      * intros sc Is. destruct (NI eq_refl sc Is) as (_ & NT & NV & NF). split; [|auto]. intros t It. now apply NT.
Qed.
Lemma found_extensions : forall es s, (forall e, In e es -> exists i, fst (ext_lookup e s) = Ok (Some i)) ->
  missing_extensions es s = Some ([], s).
Proof.
  induction es as [|e es IH]; intros s H; cbn [missing_extensions]; [reflexivity|].
  destruct (H e (or_introl eq_refl)) as [i L].
  assert (S : ext_lookup e s = (Ok (Some i), s)).
  { unfold ext_lookup in *. destruct (mget (ext_name e) (x_cache s)) as [j|]; [|discriminate].
    destruct (Nat.leb (x_schemas s) j); [discriminate|]. destruct (nth_error (x_extensions s) j); [|discriminate].
    destruct (CacheModel.has_prefix _ _); [cbn [fst] in L; congruence|discriminate]. }
  rewrite S. apply IH. intros x I. apply H. now right.
Qed.
Lemma migrate_self_empty : forall m db mg, migrate m db db = Ok mg -> catalog (dialect_of (m_dialect mg)) (d_current db) db ->
  (forall e, In e (d_extensions db) -> exists i, fst (ext_lookup e (ext_state_of db)) = Ok (Some i)) ->
  (drop_extraneous m = true -> nothing_ignored db) -> m_cmds mg = [].
Proof.
  intros m db mg MG CG XF NI.
  destruct (migrate_shape _ _ _ _ MG) as (_ & es & s & es' & s' & E & X1 & X2).
  rewrite found_extensions in X1 by exact XF.
  assert (XD : missing_extensions (droppable_extensions (d_extensions db)) (ext_state_of db) = Some ([], ext_state_of db)).
  { apply found_extensions. intros e Ie. apply XF. unfold droppable_extensions in Ie. apply filter_In in Ie. apply Ie. }
  rewrite XD in X2.
  assert (es = [] /\ s = ext_state_of db) as [-> ->] by (destruct X1 as [X1|X1]; [exact X1|split; congruence]).
  assert (es' = [] /\ s' = ext_state_of db) as [-> ->] by (destruct X2 as [X2|X2]; [exact X2|split; congruence]).
  assert (S : schemas_after (ext_state_of db) db = d_schemas db).
  { unfold schemas_after, ext_state_of. cbn [x_schema_cache]. destruct (d_schemas db). reflexivity. }
  rewrite S in E. cbn [map app is_nil] in E. rewrite E.
  rewrite flat_map_nil.
  2:{ intros w Iw. apply self_schema; [apply CG|apply CG|exact Iw]. }
  destruct (drop_extraneous m).
  - rewrite (self_drops _ _ (d_current db)); [|reflexivity|apply CG|apply CG|].
    + destruct (_ || _); reflexivity.
    + intros sc Is. destruct (NI eq_refl sc Is) as (_ & NT & NV & NF). split; [|auto]. intros t It. now apply NT.
  - destruct (_ || _); reflexivity.
Qed.

(** ** Every command has an effect *)
Lemma is_nil_true : forall A (l : list A), is_nil l = true -> l = [].
Proof. intros A [|a l] H; [reflexivity|discriminate]. Qed.
Lemma creates_effect : forall d m current got w c, create_missing m = true -> update_existing m = false ->
  In c (create_schema_cmds d m current got w) -> exists i, in_scope d i /\ adds d current c i.
Proof.
  intros d m current got w c CM UE I. unfold create_schema_cmds in I. destruct (s_ignore w); [destruct I|]. rewrite CM in I.
  cbv zeta in I. rewrite !in_app_iff, !in_flat_map in I. destruct I as [I|[(t & _ & I)|[(v & _ & I)|(f & _ & I)]]].
  - match type of I with In _ (if _ && _ && negb (is_empty ?x) then _ else _) => set (n := x) in * end.
    destruct (missing _) in I; cbn [andb] in I; [|destruct I]. destruct (is_empty n) eqn:EM; cbn [negb] in I; [destruct I|].
    destruct I as [<-|[]]. exists (ISchema n). split; [|reflexivity]. cbn [in_scope]. intros X. rewrite X in EM. discriminate.
  - unfold create_table_cmds in I. destruct (t_ignore t); [destruct I|]. cbv zeta in I.
    rewrite !in_app_iff in I. destruct I as [I|[I|[I|[I|I]]]].
    + in_if I; [destruct I|]. apply in_map_iff in I. destruct I as (x & <- & _). eexists. split; [|reflexivity]. exact Logic.I.
    + unfold missing_triggers in I. apply in_map_iff in I. destruct I as (x & <- & _). eexists. split; [|reflexivity]. exact Logic.I.
    + in_if I; [destruct I|]. destruct I as [<-|[]]. rewrite CM. exists (ITable (resolve current (t_schema t)) (t_name t)).
      split; [exact Logic.I|]. split; cbn [part_of]; auto.
    + destruct (is_sqlite d) eqn:SQ.
      * apply in_map_iff in I. destruct I as (a & <- & I). unfold decompose_alter in I.
        cbn [a_add_columns a_drop_columns a_schema a_table map] in I. rewrite app_nil_r in I. apply in_map_iff in I.
        destruct I as (y & <- & _). exists (IColumn (resolve current (t_schema t)) (t_name t) (l_name (al_column y))).
        split; [exact Logic.I|]. split; [cbn [part_of with_add_columns plain_alter a_schema a_table]; auto|]. exists y. split; [now left|reflexivity].
      * assert (NS : d <> DSQLite) by (intros ->; discriminate).
        match type of I with In _ (if is_nil (a_add_columns ?x) && _ && _ && _ then _ else _) => set (a := x) in * end.
        assert (AC : a_alter_columns a = []).
        { unfold a. cbn [a_alter_columns]. destruct (negb _); [|reflexivity]. apply flat_map_nil. intros l _.
          destruct (l_ignore l); [reflexivity|]. destruct (find_column _ _); [|reflexivity]. now rewrite UE. }
        rewrite AC in I. cbn [is_nil] in I.
        assert (PO : a_schema a = t_schema t /\ a_table a = t_name t) by (split; reflexivity). destruct PO as [P1 P2].
        destruct (a_add_columns a) as [|y l] eqn:E1.
        -- destruct (a_add_constraints a) as [|y l] eqn:E2.
           ++ destruct (a_create_indexes a) as [|y l] eqn:E3; cbn [is_nil andb] in I; [destruct I|]. destruct I as [<-|[]].
              exists (IIndex (resolve current (t_schema t)) (t_name t) (x_name (ci_index y))). split; [exact Logic.I|].
              unfold adds, alter_table_adds. rewrite P1, P2, E3. split; [cbn [part_of]; auto|]. exists y. split; [now left|reflexivity].
           ++ cbn [is_nil andb] in I. destruct I as [<-|[]].
              exists (IConstraint (resolve current (t_schema t)) (t_name t) (c_name (at_constraint y))). split; [exact NS|].
              unfold adds, alter_table_adds. rewrite P1, P2, E2. split; [cbn [part_of]; auto|]. exists y. split; [now left|reflexivity].
        -- cbn [is_nil andb] in I. destruct I as [<-|[]].
           exists (IColumn (resolve current (t_schema t)) (t_name t) (l_name (al_column y))). split; [exact Logic.I|].
           unfold adds, alter_table_adds. rewrite P1, P2, E1. split; [cbn [part_of]; auto|]. exists y. split; [now left|reflexivity].
    + match type of I with In _ (if is_nil ?x then _ else _) => set (ks := x) in * end.
      destruct ks as [|k ks'] eqn:EK; cbn [is_nil] in I; [destruct I|]. destruct I as [<-|[]].
      exists (IConstraint (resolve current (t_schema t)) (t_name t) (c_name k)). split.
      * cbn [in_scope]. intros ->. unfold ks in EK. cbn in EK. discriminate.
      * unfold adds, alter_table_adds. cbn [a_schema a_table a_add_constraints part_of]. split; [auto|]. exists (added_constraint k).
        split; [now left|reflexivity].
  - unfold create_view_cmds in I. destruct (v_ignore v); [destruct I|]. destruct (find_view _ _); [destruct I|].
    destruct I as [<-|I]; [eexists; split; [|reflexivity]; exact Logic.I|]. cbn [app] in I. in_if I; [|destruct I]. apply in_app_or in I. destruct I as [I|I]; apply in_map_iff in I;
      destruct I as (x & <- & _); eexists; (split; [|reflexivity]); exact Logic.I.
  - unfold create_function_cmds in I. destruct (is_sqlite d) eqn:SQ; [destruct I|]. destruct (_ || _) in I; [destruct I|]. destruct I as [<-|[]].
    eexists. split; [|reflexivity]. cbn [in_scope]. intros ->. discriminate.
Qed.
Ltac other_kind := split; [discriminate|let E := fresh in intros E; first [intros; discriminate|exfalso; rewrite E in *; discriminate]].
Lemma drops_effect : forall d m current got want c,
  (forall g, In g (objects got) -> good_schema d current g) ->
  (forall sc, In sc (objects got) ->
      (forall t, In t (objects (s_tables sc)) ->
        (forall l, In l (objects (t_columns t)) -> l_ignore l = false) /\
        (forall c, In c (objects (t_constraints t)) -> c_ignore c = false) /\
        (forall x, In x (objects (t_indexes t)) -> x_ignore x = false) /\
        (forall g, In g (objects (t_triggers t)) -> g_ignore g = false)) /\
      (forall v, In v (objects (s_views sc)) -> v_ignore v = false) /\
      (forall f, In f (fobjects (s_functions sc)) -> f_ignore f = false)) ->
  In c (drop_cmds d m want got) ->
  exists i, removes d current c i /\ lists_in (objects got) i /\ (forall s, i <> ISchema s) /\ (d = DSQLite -> forall s t k, i <> IConstraint s t k).
Proof.
  intros d m current got want c GS NI I. unfold drop_cmds in I. cbv zeta in I.
  assert (PP : forall g w, In (g, w) (paired want got) -> In g (objects got) /\ s_ignore g = false /\ resolve current (s_name g) = s_name g).
  { intros g w P. apply in_paired in P. destruct P as (Ig & IG & _). split; [exact Ig|]. split; [exact IG|]. apply resolve_id. apply (GS g Ig). }
  assert (LT : forall g w t i, In (g, w) (paired want got) -> In t (objects (s_tables g)) -> t_ignore t = false -> table_has (s_name g) t i ->
             lists_in (objects got) i).
  { intros g w t i P It IG H. destruct (PP g w P) as (Ig & IGg & _). exists g. split; [exact Ig|]. split; [exact IGg|].
    destruct i; cbn [table_has] in H; try contradiction; cbn [schema_has]; exists t; auto. }
  assert (DT : forall s n, In (s, n) (flat_map (fun p : schema * schema => flat_map (drop_table_names (snd p)) (objects (s_tables (fst p)))) (paired want got)) ->
             lists_in (objects got) (ITable (resolve current s) n)).
  { intros s n J. apply in_flat_map in J. destruct J as ((g, w) & P & J). cbn [fst snd] in J. apply in_flat_map in J. destruct J as (t & It & J).
    unfold drop_table_names in J. destruct (t_ignore t) eqn:IG; [destruct J|]. destruct (find_table _ _); [destruct J|]. destruct J as [J|[]].
    destruct (PP g w P) as (Ig & IGg & RS). destruct (GS g Ig) as (_ & _ & TG & _).
    assert (s = t_schema t /\ n = t_name t) as [-> ->] by (split; congruence). rewrite (proj1 (TG t It)), RS.
    apply (LT g w t _ P It IG). cbn [table_has]. auto. }
  assert (DV : forall b s n, In (s, n) (flat_map (fun p : schema * schema => flat_map (drop_view_names b (snd p)) (objects (s_views (fst p)))) (paired want got)) ->
             lists_in (objects got) (IView (resolve current s) n)).
  { intros b s n J. apply in_flat_map in J. destruct J as ((g, w) & P & J). cbn [fst snd] in J. apply in_flat_map in J. destruct J as (v & Iv & J).
    unfold drop_view_names in J. destruct (find_view _ _); [destruct J|]. in_if J; [|destruct J]. destruct J as [J|[]].
    destruct (PP g w P) as (Ig & IGg & RS). destruct (GS g Ig) as (_ & _ & _ & _ & VN & _). destruct (NI g Ig) as (_ & NV & _).
    assert (s = v_schema v /\ n = v_name v) as [-> ->] by (split; congruence). rewrite (VN v Iv), RS.
    exists g. split; [exact Ig|]. split; [exact IGg|]. cbn [schema_has]. split; [reflexivity|]. exists v. auto. }
  assert (DA : forall a, In a (flat_map (fun p : schema * schema => flat_map (drop_alters d (snd p)) (objects (s_tables (fst p)))) (paired want got)) ->
             exists g w t t', In (g, w) (paired want got) /\ In t (objects (s_tables g)) /\ t_ignore t = false /\ t_schema t = s_name g /\
               is_nil (dropped_columns d t t') && is_nil (dropped_constraints d t t')
                 && is_nil (if is_mysql d then dropped_indexes d t t' else []) = false /\
               a = mk_alter_table false (t_schema t) (t_name t) [] [] (dropped_columns d t t') [] [] (dropped_constraints d t t') []
                     (if is_mysql d then dropped_indexes d t t' else []) false).
  { intros a J. apply in_flat_map in J. destruct J as ((g, w) & P & J). cbn [fst snd] in J. apply in_flat_map in J. destruct J as (t & It & J).
    unfold drop_alters in J. destruct (kept_table w t) as [t'|] eqn:K; [|destruct J].
    destruct (is_nil (dropped_columns d t t') && is_nil (dropped_constraints d t t')
                 && is_nil (if is_mysql d then dropped_indexes d t t' else [])) eqn:NN; [destruct J|]. destruct J as [<-|[]].
    exists g, w, t, t'. split; [exact P|]. split; [exact It|]. apply kept_some in K. destruct K as [K _]. split; [exact K|].
    destruct (PP g w P) as (Ig & IGg & RS). destruct (GS g Ig) as (_ & _ & TG & _). split; [apply (TG t It)|]. auto. }
  assert (COL : forall g w t t' y, In (g, w) (paired want got) -> In t (objects (s_tables g)) -> t_ignore t = false ->
            In y (dropped_columns d t t') -> lists_in (objects got) (IColumn (s_name g) (t_name t) (dl_name y))).
  { intros g w t t' y P It IG J. unfold dropped_columns in J. apply in_map_iff in J. destruct J as (l & <- & J). apply filter_In in J. destruct J as [Il _].
    destruct (PP g w P) as (Ig & IGg & RS). destruct (NI g Ig) as (NT & _). destruct (NT t It) as (N1 & _).
    apply (LT g w t _ P It IG). cbn [table_has dl_name]. repeat split. exists l. auto. }
  apply in_app_or in I. destruct I as [I|I].
  - apply in_flat_map in I. destruct I as ((g, w) & P & I). cbn [fst snd] in I. destruct (PP g w P) as (Ig & IGg & RS).
    destruct (GS g Ig) as (_ & _ & TG & _ & _ & _ & FN). destruct (NI g Ig) as (NT & NV & NF).
    apply in_app_or in I. destruct I as [I|I]; apply in_flat_map in I; destruct I as (t & It & I).
    + destruct (NT t It) as (N1 & N2 & N3 & N4). destruct (TG t It) as (TSc & _ & _ & _ & XT & _ & GT).
      unfold drop_parts_cmds in I. destruct (kept_table w t) as [t'|] eqn:K; [|destruct I]. apply kept_some in K. destruct K as [IG _].
      apply in_app_or in I. destruct I as [I|I].
      * in_if I; [destruct I|]. apply in_map_iff in I. destruct I as (x & <- & I). unfold dropped_indexes in I.
        apply in_map_iff in I. destruct I as (y & <- & I). apply filter_In in I. destruct I as [Iy _].
        exists (IIndex (s_name g) (t_name t) (x_name y)). split; [|split; [|other_kind]].
        -- cbn [removes dx_schema dx_name]. exists (t_name t). now rewrite (proj1 (XT y Iy)), RS.
        -- apply (LT g w t _ P It IG). cbn [table_has]. repeat split. exists y. auto.
      * unfold dropped_triggers in I. apply in_map_iff in I. destruct I as (y & <- & I). apply filter_In in I. destruct I as [Iy _].
        exists (ITrigger (s_name g) (t_name t) (g_name y)). destruct (GT y Iy) as [E1 E2]. split; [|split; [|other_kind]].
        -- cbn [removes dg_schema dg_name dg_table]. exists (t_name t). rewrite E1, RS. auto.
        -- apply (LT g w t _ P It IG). cbn [table_has]. repeat split. exists y. auto.
    + unfold drop_function_cmds in I. in_if I; [destruct I|]. destruct I as [<-|[]].
      exists (IFunction (s_name g) (f_name t)). split; [|split; [|other_kind]].
      * cbn [removes df_function]. now rewrite (FN t It), RS.
      * exists g. split; [exact Ig|]. split; [exact IGg|]. cbn [schema_has]. split; [reflexivity|]. exists t. auto.
  - destruct (is_sqlite d) eqn:SQ; rewrite !in_app_iff in I.
    + destruct I as [I|[I|I]]; apply in_map_iff in I; destruct I as (x & <- & I).
      * unfold decompose_drop_view in I. cbn [dv_names] in I. apply in_map_iff in I. destruct I as ((s, n) & <- & I).
        exists (IView (resolve current s) n). split; [|split; [now apply (DV false)|other_kind]].
        cbn [removes dv_names]. exists s, n. split; [now left|reflexivity].
      * unfold decompose_drop_table in I. cbn [dt_names] in I. apply in_map_iff in I. destruct I as ((s, n) & <- & I).
        exists (ITable (resolve current s) n). split; [|split; [now apply DT|other_kind]].
        cbn [removes dt_names]. exists s, n. split; [now left|]. cbn [part_of]. auto.
      * apply in_flat_map in I. destruct I as (a & Ia & I). destruct (DA a Ia) as (g & w & t & t' & P & It & IG & TSc & NN & ->).
        unfold decompose_alter in I. cbn [a_add_columns a_drop_columns a_schema a_table map app] in I. apply in_map_iff in I. destruct I as (y & <- & I).
        destruct (PP g w P) as (Ig & IGg & RS).
        exists (IColumn (s_name g) (t_name t) (dl_name y)). split; [|split; [now apply (COL g w t t')|other_kind]].
        unfold removes, alter_table_removes. cbn [with_drop_columns plain_alter a_schema a_table a_drop_columns part_of]. rewrite TSc, RS.
        split; [auto|]. exists y. split; [now left|reflexivity].
    + destruct I as [I|[I|[I|I]]].
      * apply in_map_iff in I. destruct I as (a & <- & Ia). destruct (DA a Ia) as (g & w & t & t' & P & It & IG & TSc & NN & ->).
        destruct (PP g w P) as (Ig & IGg & RS). destruct (NI g Ig) as (NT & _). destruct (NT t It) as (N1 & N2 & N3 & N4).
        destruct (dropped_columns d t t') as [|y l] eqn:E1.
        -- destruct (dropped_constraints d t t') as [|y l] eqn:E2.
           ++ destruct (is_mysql d) eqn:MY; [|discriminate]. destruct (dropped_indexes d t t') as [|y l] eqn:E3; [discriminate|].
              assert (J : In y (dropped_indexes d t t')) by (rewrite E3; now left). unfold dropped_indexes in J.
              apply in_map_iff in J. destruct J as (x & Ey & J). apply filter_In in J. destruct J as [Ix _].
              exists (IIndex (s_name g) (t_name t) (x_name x)). split; [|split; [|other_kind]].
              ** unfold removes, alter_table_removes. cbn [a_schema a_table a_drop_indexes part_of]. rewrite TSc, RS.
                 split; [auto|]. exists y. split; [now left|]. now rewrite <- Ey.
              ** apply (LT g w t _ P It IG). cbn [table_has]. repeat split. exists x. auto.
           ++ assert (J : In y (dropped_constraints d t t')) by (rewrite E2; now left). unfold dropped_constraints in J. rewrite SQ in J.
              apply in_map_iff in J. destruct J as (x & Ey & J). apply filter_In in J. destruct J as [Ix _].
              exists (IConstraint (s_name g) (t_name t) (c_name x)). split; [|split; [|other_kind]].
              ** unfold removes, alter_table_removes. cbn [a_schema a_table a_drop_constraints part_of]. rewrite TSc, RS.
                 split; [auto|]. exists y. split; [now left|]. now rewrite <- Ey.
              ** apply (LT g w t _ P It IG). cbn [table_has]. repeat split. exists x. auto.
        -- exists (IColumn (s_name g) (t_name t) (dl_name y)). split; [|split; [|other_kind]].
           ++ unfold removes, alter_table_removes. cbn [a_schema a_table a_drop_columns part_of]. rewrite TSc, RS.
              split; [auto|]. exists y. split; [now left|reflexivity].
           ++ apply (COL g w t t'); auto. rewrite E1. now left.
      * match type of I with In _ (if is_nil ?x then _ else _) => destruct (is_nil x) eqn:NN; [destruct I|] end. destruct I as [<-|[]].
        cbn [dv_names] in NN. destruct (flat_map _ _) as [|(s, n) l] eqn:E1 in NN; [discriminate|].
        exists (IView (resolve current s) n). split; [|split; [|other_kind]].
        -- cbn [removes dv_names]. exists s, n. rewrite E1. split; [now left|reflexivity].
        -- apply (DV false). rewrite E1. now left.
      * match type of I with In _ (if is_nil ?x then _ else _) => destruct (is_nil x) eqn:NN; [destruct I|] end. destruct I as [<-|[]].
        cbn [dv_names] in NN. destruct (flat_map _ _) as [|(s, n) l] eqn:E1 in NN; [discriminate|].
        exists (IView (resolve current s) n). split; [|split; [|other_kind]].
        -- cbn [removes dv_names]. exists s, n. rewrite E1. split; [now left|reflexivity].
        -- apply (DV true). rewrite E1. now left.
      * match type of I with In _ (if is_nil ?x then _ else _) => destruct (is_nil x) eqn:NN; [destruct I|] end. destruct I as [<-|[]].
        cbn [dt_names] in NN. destruct (flat_map _ _) as [|(s, n) l] eqn:E1 in NN; [discriminate|].
        exists (ITable (resolve current s) n). split; [|split; [|other_kind]].
        -- cbn [removes dt_names]. exists s, n. rewrite E1. split; [now left|]. cbn [part_of]. auto.
        -- apply DT. rewrite E1. now left.
Qed.
(** A migration between catalogs that list the same things. *)
Lemma migrate_same_lists : forall m got want mg, migrate m got want = Ok mg ->
  catalog (dialect_of (m_dialect mg)) (d_current got) got -> catalog (dialect_of (m_dialect mg)) (d_current got) want ->
  extensions_apart got (d_extensions want) -> extensions_apart want (d_extensions got) ->
  nothing_ignored got -> names_agree got want -> plain_views want ->
  update_existing m = false ->
  (forall i, in_scope (dialect_here mg) i -> lists want i -> lists got i) ->
  (forall i, (forall s, i <> ISchema s) -> (dialect_here mg = DSQLite -> forall s t k, i <> IConstraint s t k) -> lists got i -> lists want i) ->
  forall c, In c (m_cmds mg) -> is_extension_command c.
Proof.
  intros m got want mg MG CG CW XG XW NI NA PV UE SUB SUP c I.
  destruct (migrate_shape _ _ _ _ MG) as (_ & es & s & es' & s' & E & X1 & X2). pose proof I as I0. rewrite E in I. rewrite UE, orb_false_r in I.
  apply in_app_or in I. destruct I as [I|I].
  - destruct (create_missing m) eqn:CM; [|destruct I]. apply in_app_or in I. destruct I as [I|I].
    + apply in_map_iff in I. destruct I as (e & <- & _). exact Logic.I.
    + exfalso. apply in_flat_map in I. destruct I as (w & Iw & I).
      destruct (creates_effect _ _ _ _ _ _ CM UE I) as (i & SC & A).
      destruct (proj1 (migration_adds m got want mg MG CM CG CW XG PV i SC)) as [H N]; [eauto|]. apply N. now apply SUB.
  - destruct (drop_extraneous m) eqn:DE; [|destruct I]. apply in_app_or in I. destruct I as [I|I].
    + in_if I; [destruct I|]. destruct I as [<-|[]]. exact Logic.I.
    + exfalso. destruct (drops_effect _ _ (d_current got) _ _ _ (proj2 CG) (fun sc Is => conj (fun t It => proj2 (proj1 (proj2 (NI sc Is)) t It)) (proj2 (proj2 (NI sc Is)))) I) as (i & R & L & NS & NC).
      apply (migration_drops_nothing_wanted m got want mg MG CG CW XW NI NA c i I0 R). now apply SUP.
Qed.
