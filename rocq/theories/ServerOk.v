(** * ServerOk: the commands of a migration can be read and carried out *)
From Coq Require Import Lia.
From Verif Require Import GoBase GoBaseFacts QuoteModel EffectModel SpecText SpecLex SpecIdent SpecSql BuildModel.
From Verif Require Import CacheModel UpsertModel DdlModel MigrateModel SpecDdl SpecDrop SpecMigrate SpecColumn SpecExec SpecServer
  MigrateFacts MigrateDb MigrateRun MigratePf ColumnPf ServerFacts ServerText DdlToks ServerStep ServerForm.

Lemma good_empty : forall d, good_name d [].
Proof. intros d ([|y a] & x & b & H); discriminate H. Qed.
Lemma filter_nodup : forall A (nm : A -> bytes) ig p l, distinct nm ig l -> (forall a, p a = true -> ig a = false) -> NoDup (map nm (filter p l)).
Proof.
  intros A nm ig p l D H. pose proof (distinct_fop A nm ig p l D H) as F. induction F as [|a l' N F IH]; [constructor|]. cbn [map]. constructor; [|exact IH].
  rewrite in_map_iff. intros (b & E & I). rewrite Forall_forall in N. exact (N b I (eq_sym E)).
Qed.
Lemma alive_new : forall d (l : list index), alive ci_ignore (map (new_index d) l) = map (new_index d) l.
Proof. intros d l. unfold alive. induction l as [|x l IH]; [reflexivity|]. cbn. now rewrite IH. Qed.
Lemma in_table_alive : forall d k, in_table d k = true -> c_ignore k = false.
Proof. intros d k H. unfold in_table in H. apply andb_true_iff in H. destruct H as [H _]. now apply negb_true_iff. Qed.

Section Ok.
  Variables (d : dialect) (got want : metadata).
  Local Notation cur := (d_current got).
  Local Notation res := (resolve (d_current got)).
  Hypothesis CW : catalog d cur want.
  Hypothesis CG : catalog d cur got.
  Hypothesis NI : nothing_ignored got.
  Hypothesis WO : wanted_ok d cur want.
  Hypothesis PO : present_ok d got.
  Hypothesis KNOWN : d = DSQLite \/ d = DPostgres \/ d = DMySQL.

  Lemma table_facts : forall db s tb, catalog d cur db -> has_table db s tb ->
    t_schema tb = s /\ res s = s /\ good_table d s tb /\ lists db (ISchema s) /\ lists db (ITable s (t_name tb)).
  Proof.
    intros db s tb [_ C] (sc & I & IG & <- & It & TI). destruct (C sc I) as (N & _ & T & _). pose proof (T tb It) as G.
    split; [apply G|]. split; [now apply resolve_id|]. split; [exact G|]. split; [exists sc; cbn [schema_has]; auto|].
    exists sc. split; [exact I|]. split; [exact IG|]. exists tb. cbn [table_has]. auto.
  Qed.
  Lemma part_listed : forall db s tb i, has_table db s tb -> table_has s tb i -> lists db i.
  Proof.
    intros db s tb i (sc & I & IG & <- & It & TI) H. exists sc. split; [exact I|]. split; [exact IG|].
    destruct i; try contradiction; exists tb; auto.
  Qed.
  Lemma column_listed : forall db s tb l, has_table db s tb -> table_column tb l -> lists db (IColumn s (t_name tb) (l_name l)).
  Proof. intros db s tb l H [I J]. apply (part_listed db s tb); [exact H|]. cbn [table_has]. split; [reflexivity|]. split; [reflexivity|]. exists l. auto. Qed.

  (** ** They can be read *)
  Lemma created_ok : forall c, create_form d got want c -> writable d c -> command_ok d cur c.
  Proof.
    intros c F W. destruct F as [n N L|e E|s tb x HT X M|s tb g HT G|s tb p HT P|s tb ie e pl pk px c HT PL PK PX C|s tb ie e l HT L SQ|v r ine V|f F SQ]; cbn [command_ok].
    - now apply (wo_schemas _ _ _ WO).
    - split; [|exact (wo_extensions _ _ _ WO e E)]. unfold writable in W. cbn [command_sql] in W. unfold create_extension_sql in W. cbn [ce_ignore] in W.
      destruct d; try discriminate W; reflexivity.
    - split; [exact M|]. exact (wt_indexes _ _ _ _ (wo_tables _ _ _ WO s tb HT) x X).
    - exact (wt_triggers _ _ _ _ (wo_tables _ _ _ WO s tb HT) g G).
    - destruct (wo_tables _ _ _ WO s tb HT) as [T1 T2 T3 T4 T5 T6 T7 T8]. split; [exact T3|].
      assert (TC : forall k, In k (table_constraints d (mk_create_table true true tb (map (new_index d) (filter p (objects (t_indexes tb)))) false)) -> table_constraint tb k).
      { intros k I. unfold table_constraints in I. cbn [ct_constraints ct_table] in I. apply filter_In in I. destruct I as [I J]. split; [exact I|now apply in_table_alive in J]. }
      split; [constructor; cbn [ct_table ct_indexes]; auto|].
      + destruct T4 as (l & L1 & L2). unfold table_columns, alive. cbn [ct_table]. intros E. assert (X : In l (filter (fun x => negb (l_ignore x)) (objects (t_columns tb)))) by (apply filter_In; now rewrite L2).
        rewrite E in X. destruct X.
      + intros l I. unfold table_columns, alive in I. cbn [ct_table] in I. apply filter_In in I. destruct I as [I J]. apply T5. split; [exact I|now apply negb_true_iff].
      + intros k I. now apply T6, TC.
      + intros i I. rewrite alive_new in I. apply in_map_iff in I. destruct I as (x & <- & I). apply filter_In in I. destruct I as [I J]. apply T7. split; auto.
      + intros SQ k I. now apply T6; [apply TC|].
    - destruct (wo_tables _ _ _ WO s tb HT) as [T1 T2 T3 T4 T5 T6 T7 T8].
      match goal with |- command_ok d cur (c ?a) => assert (X : alter_table_ok d a /\ only_adds d a) end; [|destruct C as [[-> _]|[-> _]]; exact X].
      split; constructor; cbn [a_schema a_table a_add_columns a_alter_columns a_drop_columns a_add_constraints a_alter_constraints a_drop_constraints a_create_indexes a_drop_indexes]; auto; try solve [intros ? []].
      + intros y I. apply in_map_iff in I. destruct I as (l & <- & I). apply filter_In in I. destruct I as [I J]. split; [reflexivity|].
        constructor; cbn [new_column al_column al_checks al_ref_table al_ref_column]; auto using good_empty. apply T5. split; auto.
      + intros y I. apply in_map_iff in I. destruct I as (k & <- & I). apply filter_In in I. destruct I as [I J]. split; [reflexivity|].
        constructor; cbn [added_constraint at_constraint at_index]; auto using good_empty. apply T6. split; [exact I|now apply PK].
      + intros y I. apply in_map_iff in I. destruct I as (x & <- & I). apply filter_In in I. destruct I as [I J]. split; [now apply (PX x)|]. split; [reflexivity|]. apply T7. split; [exact I|now apply PX].
      + intros y I. apply in_map_iff in I. destruct I as (l & <- & I). auto.
      + intros y I. apply in_map_iff in I. destruct I as (l & <- & I). auto.
      + intros SQ y I. apply in_map_iff in I. destruct I as (k & <- & I). apply filter_In in I. destruct I as [I J]. apply T6; [split; [exact I|now apply PK]|exact SQ].
    - destruct (wo_tables _ _ _ WO s tb HT) as [T1 T2 T3 T4 T5 T6 T7 T8].
      split; constructor; cbn [a_schema a_table a_add_columns a_alter_columns a_drop_columns a_add_constraints a_alter_constraints a_drop_constraints a_create_indexes a_drop_indexes]; auto; try solve [intros ? []]; try solve [intros _ ? []].
      + intros y [<-|[]]. split; [reflexivity|]. constructor; cbn [new_column al_column al_checks al_ref_table al_ref_column]; auto using good_empty. now apply T5.
      + intros y [<-|[]]. auto.
    - destruct (wo_views _ _ _ WO v V) as (V1 & V2 & V3). constructor; auto.
    - exact (wo_functions _ _ _ WO f F).
  Qed.
  Lemma dropped_ok : forall c, drop_form d got want c -> writable d c -> command_ok d cur c.
  Proof.
    intros c F W. destruct F as [s tb x HT X M|s tb g HT G|f F|b ns e N V|ns e N T|s tb pl pk px HT LW PK PX NSQ|s tb l HT L LW SQ|es e N IN]; cbn [command_ok].
    - destruct (po_tables _ _ PO s tb HT) as [P1 P2 P3 P4 P5 P6]. destruct (table_facts got s tb CG HT) as (S1 & _ & GT & _). destruct GT as (_ & _ & _ & _ & GX & _).
      split; [exact M|]. cbn [old_index dx_if_exists]. split; [destruct KNOWN as [-> |[-> | ->]]; try reflexivity; congruence|].
      destruct X as [X1 X2]. destruct (GX x X1) as [X3 _]. constructor; cbn [old_index dx_schema dx_name]; rewrite ?X3, <- ?S1; try apply P1; apply P5; split; auto.
    - destruct (po_tables _ _ PO s tb HT) as [P1 P2 P3 P4 P5 P6]. destruct (table_facts got s tb CG HT) as (S1 & _ & GT & _). destruct GT as (_ & _ & _ & _ & _ & _ & GG).
      split; [reflexivity|]. destruct (GG g (proj1 G)) as [G1 G2]. constructor; cbn [dg_schema dg_table dg_name]; rewrite ?G1, ?G2, <- ?S1; auto. apply P1.
    - split; [reflexivity|]. destruct (po_functions _ _ PO f F) as (F1 & F2 & F3). constructor; auto.
    - split; [reflexivity|]. split; [exact N|]. apply Forall_forall. intros n I. destruct (V n I) as (v & HV & ->). exact (po_views _ _ PO v HV).
    - split; [reflexivity|]. split; [exact N|]. apply Forall_forall. intros n I. destruct (T n I) as (s & tb & HT & ->). destruct (po_tables _ _ PO s tb HT) as [P1 P2 _ _ _ _]. cbn [fst snd]. split; [apply P1|exact P2].
    - destruct (po_tables _ _ PO s tb HT) as [P1 P2 P3 P4 P5 P6]. destruct (table_facts got s tb CG HT) as (S1 & _ & GT & _). destruct GT as (_ & GL & GK & GX & _).
      destruct HT as (sc & I1 & I2 & I3 & I4 & I5). destruct (NI sc I1) as (_ & NT & _). destruct (NT tb I4) as (_ & NL & NK & NX & NG).
      split; constructor; cbn [a_schema a_table a_add_columns a_alter_columns a_drop_columns a_add_constraints a_alter_constraints a_drop_constraints a_create_indexes a_drop_indexes]; auto; try solve [intros ? []]; try apply P1.
      + intros y I. apply in_map_iff in I. destruct I as (l & <- & I). apply filter_In in I. destruct I as [I J]. split; [reflexivity|]. apply P3. split; auto.
      + intros y I. apply in_map_iff in I. destruct I as (k & <- & I). apply filter_In in I. destruct I as [I J]. split; [reflexivity|]. apply P4. split; auto.
      + intros y I. apply in_map_iff in I. destruct I as (x & <- & I). apply filter_In in I. destruct I as [I J]. split; [now apply (PX x)|]. split; [reflexivity|]. apply P5. split; auto.
      + intros SQ. replace (filter pk (objects (t_constraints tb))) with (@nil constraint); [reflexivity|]. symmetry. apply filter_nil. intros k _. destruct (pk k) eqn:E; [|reflexivity]. now apply PK in E.
      + rewrite !map_map. cbn [old_column old_constraint old_index dl_name dk_name dx_name].
        assert (F : forall A (nm : A -> bytes) ig (p : A -> bool) l, distinct nm ig l -> (forall a, In a l -> ig a = false) -> NoDup (map nm (filter p l))).
        { intros A nm ig p l D H. replace (filter p l) with (filter (fun a => negb (ig a) && p a) l).
          - apply (filter_nodup A nm ig); [exact D|]. intros a J. apply andb_true_iff in J. destruct J as [J _]. now apply negb_true_iff.
          - clear D. induction l as [|a l IH]; [reflexivity|]. cbn [filter]. rewrite (H a (or_introl eq_refl)). cbn [negb andb]. rewrite IH; [reflexivity|]. intros b J. apply H. now right. }
        split; [|split].
        * apply (F _ l_name l_ignore); [apply GL|exact NL].
        * destruct (is_sqlite d) eqn:SQ; [replace (filter pk (objects (t_constraints tb))) with (@nil constraint); [constructor|]; symmetry; apply filter_nil; intros k _;
            destruct (pk k) eqn:E; [|reflexivity]; apply PK in E; apply sqlite_is in SQ; contradiction|]. apply (F _ c_name c_ignore); [apply GK; now apply sqlite_not|exact NK].
        * apply (F _ x_name x_ignore); [apply GX|exact NX].
    - destruct (po_tables _ _ PO s tb HT) as [P1 P2 P3 P4 P5 P6].
      split; constructor; cbn [a_schema a_table a_add_columns a_alter_columns a_drop_columns a_add_constraints a_alter_constraints a_drop_constraints a_create_indexes a_drop_indexes]; auto; try solve [intros ? []]; try apply P1.
      + intros y [<-|[]]. split; [reflexivity|]. now apply P3.
      + cbn [map]. repeat split; repeat constructor. intros [].
    - split.
      + unfold writable in W. cbn [command_sql] in W. unfold drop_extension_sql in W. cbn [de_ignore] in W. destruct d; try discriminate W; reflexivity.
      + cbn [de_extensions]. clear W. assert (X : forall es, incl es (d_extensions got) -> exists ns, length ns = length es /\ Forall2 (fun e0 n => exists v, extension_parts e0 n v) es ns /\ Forall (good_name DPostgres) ns).
        { intros l. induction l as [|x l IH]; intros IL; [exists []; repeat constructor|]. destruct IH as (ns & L & A & B); [intros y J; apply IL; now right|].
          destruct (po_extensions _ _ PO x (IL x (or_introl eq_refl))) as (n & v & E1 & E2). exists (n :: ns). split; [cbn; congruence|]. split; constructor; eauto. }
        destruct (X es IN) as (ns & L & A & B). exists ns. split; [|auto]. destruct es; [congruence|]. destruct ns; discriminate.
  Qed.

  (** ** What they create *)
  Local Notation created := (created d (d_current got)).
  Local Notation column_pair := (column_pair d).
  Local Notation constraint_pair := (constraint_pair d).
  Local Notation index_pair := (index_pair d).
  Definition three (s t : bytes) (ls : list column) (ks : list constraint) (xs : list index) : list (item * definition) :=
    map (column_pair s t) ls ++ map (constraint_pair s t) ks ++ map (fun x => index_pair s t (new_index d x)) xs.
  Lemma three_nodup : forall s t ls ks xs, NoDup (map l_name ls) -> NoDup (map c_name ks) -> NoDup (map x_name xs) -> NoDup (map fst (three s t ls ks xs)).
  Proof.
    intros s t ls ks xs A B C. unfold three. rewrite !map_app, !map_map. cbn [ServerStep.column_pair ServerStep.constraint_pair ServerStep.index_pair fst new_index ci_index]. apply NoDup_three.
    - apply (NoDup_map_inj _ _ _ l_name (IColumn s t)); [congruence|exact A].
    - apply (NoDup_map_inj _ _ _ c_name (IConstraint s t)); [congruence|exact B].
    - apply (NoDup_map_inj _ _ _ x_name (IIndex s t)); [congruence|exact C].
    - intros x. rewrite !in_map_iff. intros (y & <- & _). split; intros (z & X & _); discriminate.
    - intros x. rewrite !in_map_iff. intros (y & <- & _) (z & X & _). discriminate.
  Qed.
  Lemma in_three : forall s t ls ks xs i v, In (i, v) (three s t ls ks xs) <->
    (exists l, In l ls /\ i = IColumn s t (l_name l) /\ v = FColumn (said_column d l [] None)) \/
    (exists k, In k ks /\ i = IConstraint s t (c_name k) /\ v = FConstraint (said_def d k) (said_deferrable k) false false) \/
    (exists x, In x xs /\ i = IIndex s t (x_name x) /\ v = index_definition (said_index d (new_index d x))).
  Proof.
    intros s t ls ks xs i v. unfold three. rewrite !in_app_iff, !in_map_iff. unfold ServerStep.column_pair, ServerStep.constraint_pair, ServerStep.index_pair. cbn [new_index ci_index].
    split; (intros [(y & A & B)|[(y & A & B)|(y & A & B)]]; [left|right; left|right; right]; exists y).
    1-3: split; [exact B|]; split; congruence.
    all: destruct B as [-> ->]; split; [reflexivity|exact A].
  Qed.
  Lemma table_created : forall tb p, created (KCreateTable (mk_create_table true true tb (map (new_index d) (filter p (objects (t_indexes tb)))) false)) =
    (ITable (res (t_schema tb)) (t_name tb), FTable) ::
    three (res (t_schema tb)) (t_name tb) (alive l_ignore (objects (t_columns tb))) (not_sqlite_list d (filter (in_table d) (objects (t_constraints tb)))) (filter p (objects (t_indexes tb))).
  Proof.
    intros tb p. cbn [ServerStep.created ct_table]. f_equal. unfold table_items, three. cbv zeta. cbn [ct_table ct_indexes]. rewrite alive_new, map_map. reflexivity.
  Qed.
  Lemma not_sqlite_filter : forall A (p : A -> bool) l, (forall a, p a = true -> d <> DSQLite) -> not_sqlite_list d (filter p l) = filter p l.
  Proof.
    intros A p l H. unfold not_sqlite_list. destruct d; try reflexivity. symmetry. apply filter_nil. intros a _. destruct (p a) eqn:E; [|reflexivity]. now apply H in E.
  Qed.
  Lemma alter_created : forall tb ie e pl pk px, (forall k, pk k = true -> c_ignore k = false /\ d <> DSQLite) ->
    alter_items d (d_current got) (mk_alter_table ie (t_schema tb) (t_name tb) (map (new_column d e) (filter pl (objects (t_columns tb)))) [] []
      (map added_constraint (filter pk (objects (t_constraints tb)))) [] [] (map (new_index d) (filter px (objects (t_indexes tb)))) [] false) =
    three (res (t_schema tb)) (t_name tb) (filter pl (objects (t_columns tb))) (filter pk (objects (t_constraints tb))) (filter px (objects (t_indexes tb))).
  Proof.
    intros tb ie e pl pk px H. unfold alter_items, three. cbv zeta. cbn [a_schema a_table a_add_columns a_add_constraints a_create_indexes]. rewrite !map_map. apply f_equal2; [reflexivity|]. apply f_equal2; [|reflexivity].
    assert (E : not_sqlite_list d (map added_constraint (filter pk (objects (t_constraints tb)))) = map added_constraint (filter pk (objects (t_constraints tb)))).
    { rewrite <- (not_sqlite_filter _ pk (objects (t_constraints tb))) by (intros k K; now apply (H k)). unfold not_sqlite_list. destruct d; reflexivity. }
    rewrite E, map_map. reflexivity.
  Qed.
  Lemma sub_nodup : forall s tb pl pk px, good_table d s tb -> (forall l, pl l = true -> l_ignore l = false) -> (forall k, pk k = true -> c_ignore k = false /\ d <> DSQLite) ->
    (forall x, px x = true -> x_ignore x = false) -> forall a b,
    NoDup (map fst (three a b (filter pl (objects (t_columns tb))) (filter pk (objects (t_constraints tb))) (filter px (objects (t_indexes tb))))).
  Proof.
    intros s tb pl pk px (_ & GL & GK & GX & _) PL PK PX a b. apply three_nodup.
    - apply (filter_nodup _ l_name l_ignore); [apply GL|exact PL].
    - destruct (is_sqlite d) eqn:SQ; [replace (filter pk (objects (t_constraints tb))) with (@nil constraint); [constructor|]; symmetry; apply filter_nil; intros k _;
        destruct (pk k) eqn:E; [|reflexivity]; apply PK in E; apply sqlite_is in SQ; tauto|]. apply (filter_nodup _ c_name c_ignore); [apply GK; now apply sqlite_not|]. intros k K. now apply PK.
    - apply (filter_nodup _ x_name x_ignore); [apply GX|exact PX].
  Qed.
  Lemma table_nodup : forall s tb p, good_table d s tb -> (forall x, p x = true -> x_ignore x = false) -> forall a b,
    NoDup (map fst (three a b (alive l_ignore (objects (t_columns tb))) (not_sqlite_list d (filter (in_table d) (objects (t_constraints tb)))) (filter p (objects (t_indexes tb))))).
  Proof.
    intros s tb p G P a b. replace (not_sqlite_list d (filter (in_table d) (objects (t_constraints tb)))) with
      (filter (fun k => negb (is_sqlite d) && in_table d k) (objects (t_constraints tb))).
    - apply (sub_nodup s tb (fun l => negb (l_ignore l))); auto.
      + intros l L. now apply negb_true_iff.
      + intros k K. apply andb_true_iff in K. destruct K as [K1 K2]. split; [now apply in_table_alive in K2|]. apply sqlite_not. now apply negb_true_iff.
    - unfold not_sqlite_list. destruct d; cbn [is_sqlite negb andb]; try reflexivity. apply filter_false.
  Qed.
  Lemma created_nodup : forall c, create_form d got want c -> NoDup (map fst (created c)).
  Proof.
    assert (ONE : forall p : item * definition, NoDup (map fst [p])) by (intros p; repeat constructor; intros []).
    intros c F. destruct F as [n N L|e E|s tb x HT X M|s tb g HT G|s tb p HT P|s tb ie e pl pk px c HT PL PK PX C|s tb ie e l HT L SQ|v r ine V|f F SQ]; try exact (ONE _); try exact (NoDup_nil _).
    - rewrite table_created. destruct (table_facts want s tb CW HT) as (_ & _ & GT & _). cbn [map fst]. constructor; [|now apply (table_nodup s)].
      rewrite in_map_iff. intros ([i v] & E & I). cbn [fst] in E. subst i. apply in_three in I. destruct I as [(y & _ & X & _)|[(y & _ & X & _)|(y & _ & X & _)]]; discriminate X.
    - destruct (table_facts want s tb CW HT) as (_ & _ & GT & _).
      match goal with |- NoDup (map fst (created (c ?a))) => assert (E : created (c a) = alter_items d (d_current got) a) by (destruct C as [[-> _]|[-> _]]; reflexivity) end.
      rewrite E, alter_created by exact PK. apply (sub_nodup s); auto. intros x X. now apply PX.
    - cbn. unfold not_sqlite_list. rewrite SQ. repeat constructor. intros [].
  Qed.

  Lemma lists_nonempty_schema : forall s, lists want (ISchema s) -> res s = s.
  Proof. intros s (sc & I & _ & ->). apply resolve_id. apply (proj2 CW sc I). Qed.
  (** Everything created is wanted, and is what the command is said to add. *)
  Lemma created_sound : forall c i v, create_form d got want c -> In (i, v) (created c) -> adds d cur c i /\ in_scope d i /\ wanted_definition d want i v.
  Proof.
    intros c i v F I. destruct F as [n N L|e E|s tb x HT X M|s tb g HT G|s tb p HT P|s tb ie e pl pk px c HT PL PK PX C|s tb ie e l HT L SQ|w r ine V|f F SQ].
    - destruct I as [I|[]]. assert (i = ISchema n /\ v = FSchema) as [-> ->] by (split; cbn [cs_name] in I; congruence). cbn [adds in_scope wanted_definition cs_name]. auto.
    - destruct I.
    - destruct (table_facts want s tb CW HT) as (S1 & R & (_ & _ & _ & _ & GX & _) & _). destruct (GX x (proj1 X)) as [X1 X2].
      cbn [ServerStep.created] in I. unfold ServerStep.index_pair in I. cbn [new_index ci_index] in I. rewrite X1, X2, R in I. destruct I as [I|[]].
      assert (i = IIndex s (t_name tb) (x_name x) /\ v = index_definition (said_index d (new_index d x))) as [-> ->] by (split; congruence).
      cbn [adds in_scope wanted_definition new_index ci_index]. rewrite X1, X2, R. split; [reflexivity|]. split; [exact Logic.I|]. exists tb, x. auto.
    - destruct (table_facts want s tb CW HT) as (S1 & R & (_ & _ & _ & _ & _ & _ & GG) & _). destruct (GG g (proj1 G)) as [G1 G2].
      cbn [ServerStep.created cg_trigger] in I. rewrite G1, G2, R in I. destruct I as [I|[]].
      assert (i = ITrigger s (t_name tb) (g_name g) /\ v = FTrigger (frag d (g_sql g))) as [-> ->] by (split; congruence).
      cbn [adds in_scope wanted_definition cg_trigger]. rewrite G1, G2, R. split; [reflexivity|]. split; [exact Logic.I|]. exists tb, g. auto.
    - destruct (table_facts want s tb CW HT) as (S1 & R & GT & LS & LT). rewrite table_created, S1, R in I. destruct I as [I|I].
      + assert (i = ITable s (t_name tb) /\ v = FTable) as [-> ->] by (split; congruence). cbn [adds in_scope wanted_definition]. unfold create_table_adds. cbn [ct_table part_of]. rewrite S1, R. auto.
      + unfold wanted_definition. apply in_three in I. destruct I as [(y & Y & -> & ->)|[(y & Y & -> & ->)|(y & Y & -> & ->)]]; cbn [adds in_scope]; unfold create_table_adds; cbn [ct_table part_of ct_indexes]; rewrite S1, R.
        * unfold alive in Y. apply filter_In in Y. destruct Y as [Y1 Y2]. apply negb_true_iff in Y2. split; [split; [auto|exists y; auto]|]. split; [exact Logic.I|].
          exists tb, y. unfold table_column. auto.
        * assert (NS : d <> DSQLite) by (unfold not_sqlite_list in Y; intros X; rewrite X in Y; destruct Y). rewrite not_sqlite_id in Y by exact NS.
          apply filter_In in Y. destruct Y as [Y1 Y2]. pose proof (in_table_alive _ _ Y2) as Y3. split; [split; [auto|exists y; repeat (split; [auto|])]|].
          -- right. intros E. unfold in_table in Y2. rewrite Y3 in Y2. cbn [negb andb] in Y2. destruct d; try congruence; rewrite E in Y2; discriminate Y2.
          -- split; [exact NS|]. exists tb, y. unfold SpecColumn.table_constraint. auto.
        * split; [split; [auto|]|].
          -- exists (new_index d y). split; [now apply in_map|reflexivity].
          -- split; [exact Logic.I|]. apply filter_In in Y. destruct Y as [Y1 Y2]. exists tb, y. unfold table_index. split; [auto|]. split; [auto|]. split; [auto|]. auto.
    - destruct (table_facts want s tb CW HT) as (S1 & R & GT & LS & LT).
      match type of I with In _ (created (c ?a)) => assert (E : created (c a) = alter_items d (d_current got) a) by (destruct C as [[-> _]|[-> _]]; reflexivity);
        assert (A : adds d cur (c a) i = alter_table_adds cur a i) by (destruct C as [[-> _]|[-> _]]; reflexivity) end.
      rewrite E, alter_created in I by exact PK. rewrite A. clear A E. unfold alter_table_adds. cbn [a_schema a_table a_add_columns a_add_constraints a_create_indexes]. rewrite S1, R in *.
      unfold wanted_definition. apply in_three in I. destruct I as [(y & Y & -> & ->)|[(y & Y & -> & ->)|(y & Y & -> & ->)]]; cbn [part_of in_scope]; pose proof Y as Y0; apply filter_In in Y; destruct Y as [Y1 Y2].
      + split; [split; [auto|]|].
        * exists (new_column d e y). split; [now apply in_map|reflexivity].
        * split; [exact Logic.I|]. exists tb, y. unfold table_column. auto 6.
      + split; [split; [auto|]|].
        * exists (added_constraint y). split; [now apply in_map|reflexivity].
        * destruct (PK y Y2) as [K1 K2]. split; [exact K2|]. exists tb, y. unfold SpecColumn.table_constraint. auto 6.
      + split; [split; [auto|]|].
        * exists (new_index d y). split; [now apply in_map|reflexivity].
        * split; [exact Logic.I|]. exists tb, y. destruct (PX y Y2) as [K1 K2]. unfold table_index. auto 6.
    - destruct (table_facts want s tb CW HT) as (S1 & R & GT & LS & LT). cbn [ServerStep.created] in I. unfold alter_items in I. cbv zeta in I.
      cbn [a_schema a_table a_add_columns a_add_constraints a_create_indexes map new_column al_column app] in I.
      replace (not_sqlite_list d (@nil add_constraint)) with (@nil add_constraint) in I by (unfold not_sqlite_list; now destruct d). cbn [map app] in I. rewrite S1, R in I. destruct I as [I|[]].
      unfold ServerStep.column_pair in I. assert (i = IColumn s (t_name tb) (l_name l) /\ v = FColumn (said_column d l [] None)) as [-> ->] by (split; congruence).
      cbn [adds in_scope wanted_definition]. unfold alter_table_adds. cbn [a_schema a_table a_add_columns part_of]. rewrite S1, R. split; [split; [auto|]|].
      + exists (new_column d e l). split; [now left|reflexivity].
      + split; [exact Logic.I|]. exists tb, l. auto.
    - destruct V as (sc & V1 & V2 & V3 & V4). destruct (proj2 CW sc V1) as (N & _ & _ & _ & VS & _). pose proof (VS w V3) as W1.
      cbn [ServerStep.created cv_view] in I. destruct I as [I|[]]. rewrite W1, (resolve_id _ _ N) in I.
      assert (i = IView (s_name sc) (v_name w) /\ v = FView (v_materialized w) (frag d (v_sql w))) as [-> ->] by (split; congruence).
      cbn [adds in_scope wanted_definition cv_view]. rewrite W1, (resolve_id _ _ N). split; [reflexivity|]. split; [exact Logic.I|]. exists w. split; [exists sc; auto|]. auto.
    - destruct F as (sc & V1 & V2 & V3 & V4). destruct (proj2 CW sc V1) as (N & _ & _ & _ & _ & _ & FS). pose proof (FS f V3) as W1.
      cbn [ServerStep.created cf_function] in I. destruct I as [I|[]]. rewrite W1, (resolve_id _ _ N) in I.
      assert (i = IFunction (s_name sc) (f_name f) /\ v = FFunction (frag d (f_sql f))) as [-> ->] by (split; congruence).
      cbn [adds in_scope wanted_definition cf_function]. rewrite W1, (resolve_id _ _ N). split; [reflexivity|]. split; [exact SQ|]. exists f. split; [exists sc; auto|]. auto.
  Qed.
  (** Nothing that is said to be added is left out. *)
  Lemma created_complete : forall c i, create_form d got want c -> in_scope d i -> adds d cur c i -> exists v, In (i, v) (created c).
  Proof.
    intros c i F SC A. destruct F as [n N L|e E|s tb x HT X M|s tb g HT G|s tb p HT P|s tb ie e pl pk px c HT PL PK PX C|s tb ie e l HT L SQ|w r ine V|f F SQ].
    - cbn [adds cs_name] in A. subst i. eexists. now left.
    - destruct A.
    - cbn [adds] in A. subst i. eexists. now left.
    - cbn [adds] in A. subst i. eexists. now left.
    - rewrite table_created. cbn [adds] in A. unfold create_table_adds in A. cbn [ct_table ct_indexes] in A. destruct A as [PT A]. destruct i; try contradiction; cbn [part_of] in PT; destruct PT as [-> ->].
      + eexists. now left.
      + destruct A as (l & L1 & L2 & <-). eexists. right. apply in_three. left. exists l. split; [apply filter_In; now rewrite L2|auto].
      + destruct A as (k0 & K1 & K2 & <- & K3). eexists. right. apply in_three. right. left. exists k0. split; [|auto]. cbn [in_scope] in SC. rewrite not_sqlite_id by exact SC.
        apply filter_In. split; [exact K1|]. unfold in_table. rewrite K2. cbn [negb andb]. destruct K3 as [K3|K3]; [contradiction|].
        destruct d; try congruence; apply negb_true_iff; apply (false_iff _ _ (beqb_eq _ _)); exact K3.
      + destruct A as (y & Y & <-). apply in_map_iff in Y. destruct Y as (x0 & <- & Y). eexists. right. apply in_three. right. right. exists x0. split; [exact Y|]. split; reflexivity.
    - match type of A with adds _ _ (c ?a) _ => assert (E : created (c a) = alter_items d (d_current got) a) by (destruct C as [[-> _]|[-> _]]; reflexivity);
        assert (A' : alter_table_adds cur a i) by (destruct C as [[-> _]|[-> _]]; exact A) end.
      rewrite E, alter_created by exact PK. clear A E. unfold alter_table_adds in A'. cbn [a_schema a_table a_add_columns a_add_constraints a_create_indexes] in A'.
      destruct A' as [PT A]. destruct i; try contradiction; cbn [part_of] in PT; destruct PT as [-> ->]; destruct A as (y & Y & <-); apply in_map_iff in Y; destruct Y as (z & <- & Y); eexists; apply in_three.
      + left. exists z. split; [exact Y|]. split; reflexivity.
      + right. left. exists z. split; [exact Y|]. split; reflexivity.
      + right. right. exists z. split; [exact Y|]. split; reflexivity.
    - cbn [adds] in A. unfold alter_table_adds in A. cbn [a_schema a_table a_add_columns a_add_constraints a_create_indexes] in A.
      destruct A as [PT A]. destruct i; try contradiction; cbn [part_of] in PT; destruct PT as [-> ->]; destruct A as (y & Y & <-); try destruct Y as [<-|[]]; try destruct Y. eexists. left. reflexivity.
    - cbn [adds] in A. subst i. eexists. now left.
    - cbn [adds] in A. subst i. eexists. now left.
  Qed.
End Ok.
