(** * MigrateDb: the create phase and the drop phase of Migrate over whole catalogs *)
From Coq Require Import Lia.
From Verif Require Import GoBase GoBaseFacts QuoteModel BuildModel CacheModel SpecCache CacheFacts UpsertModel DdlModel
  MigrateModel SpecMigrate MigrateFacts.

Lemma is_nil_false : forall A (x : A) l, In x l -> is_nil l = false.
Proof. intros A x [|y l] H; [destruct H|reflexivity]. Qed.
Definition lists_in (l : list schema) (i : item) : Prop :=
  exists sc, In sc l /\ s_ignore sc = false /\ schema_has sc i.
Definition item_schema (i : item) : bytes :=
  match i with
  | ISchema s | ITable s _ | IColumn s _ _ | IConstraint s _ _ | IIndex s _ _ | ITrigger s _ _
  | IView s _ | IFunction s _ => s
  end.
Lemma has_schema : forall sc i, schema_has sc i -> item_schema i = s_name sc.
Proof.
  intros sc i H. destruct i; cbn [schema_has item_schema] in *; auto; try apply H;
    destruct H as (t0 & _ & _ & H); apply H.
Qed.
Lemma lists_found : forall d current c i,
  good_slice s_name s_ignore true c -> (forall g, In g (objects c) -> good_schema d current g) ->
  (lists_in (objects c) i <-> exists g, find_schema (item_schema i) c = Some g /\ schema_has g i).
Proof.
  intros d current c i G GS. split.
  - intros (sc & I & IG & H). exists sc. split; [|exact H]. rewrite (has_schema _ _ H).
    unfold find_schema. now apply found_here.
  - intros (g & F & H). apply found_some in F. exists g. tauto.
Qed.

Section Creates.
  Variables (d : dialect) (m : mode) (current : bytes) (got want : cached schema).
  Hypothesis CM : create_missing m = true.
  Hypothesis GG : good_slice s_name s_ignore true got.
  Hypothesis GGS : forall g, In g (objects got) -> good_schema d current g.
  Hypothesis WW : good_slice s_name s_ignore true want.
  Hypothesis WWS : forall w, In w (objects want) -> good_schema d current w.
  Hypothesis PV : forall w v, In w (objects want) -> In v (objects (s_views w)) -> v_indexes v = [] /\ v_triggers v = [].

  Lemma creates_add : forall i, in_scope d i ->
    (exists c, In c (flat_map (create_schema_cmds d m current got) (objects want)) /\ adds d current c i) <->
    lists_in (objects want) i /\ ~ lists_in (objects got) i.
  Proof.
    intros i SC. rewrite (lists_found d current got) by assumption. split.
    - intros (c & I & AD). apply in_flat_map in I. destruct I as (w & Iw & I).
      destruct (s_ignore w) eqn:IG; [unfold create_schema_cmds in I; rewrite IG in I; destruct I|].
      assert (X : schema_has w i /\ ~ in_got_schema got w i).
      { rewrite <- (schema_adds d m current CM got w) by (auto; intros v Iv; now apply (PV w)). eauto. }
      destruct X as [H N]. split; [exists w; auto|]. rewrite (has_schema _ _ H). exact N.
    - intros [(w & Iw & IG & H) N]. rewrite (has_schema _ _ H) in N.
      destruct (proj2 (schema_adds d m current CM got w GGS (WWS w Iw) IG (fun v Iv => PV w v Iw Iv) i SC)) as (c & I & AD); [tauto|].
      exists c. split; [|exact AD]. apply in_flat_map. eauto.
  Qed.
End Creates.

(** ** The drop phase *)
Section Drops.
  Variables (d : dialect) (m : mode) (current : bytes) (got want : cached schema).
  Hypothesis GG : good_slice s_name s_ignore true got.
  Hypothesis GGS : forall g, In g (objects got) -> good_schema d current g.
  Hypothesis WW : good_slice s_name s_ignore true want.
  Hypothesis WWS : forall w, In w (objects want) -> good_schema d current w.

  Lemma in_paired : forall g w, In (g, w) (paired want got) <->
    In g (objects got) /\ s_ignore g = false /\
    w = match find_schema (s_name g) want with Some w => w | None => empty_schema (s_name g) end.
  Proof.
    intros g w. unfold paired. rewrite in_flat_map. split.
    - intros (x & I & H). destruct (s_ignore x) eqn:IG; [destruct H|]. destruct H as [E|[]].
      assert (x = g) by congruence. subst x. repeat split; auto. congruence.
    - intros (I & IG & ->). exists g. split; [exact I|]. rewrite IG. now left.
  Qed.
  Lemma paired_good : forall g w, In (g, w) (paired want got) ->
    good_schema d current g /\ good_schema d current w /\ s_name w = s_name g.
  Proof.
    intros g w P. apply in_paired in P. destruct P as (I & IG & ->). split; [auto|].
    destruct (find_schema (s_name g) want) as [w|] eqn:F.
    - apply found_some in F. destruct F as (Iw & _ & E). auto.
    - split; [|reflexivity]. apply empty_schema_good. now apply (GGS g).
  Qed.
  Lemma paired_want : forall g w i, In (g, w) (paired want got) -> item_schema i = s_name g ->
    (forall s, i <> ISchema s) -> (lists_in (objects want) i <-> schema_has w i).
  Proof.
    intros g w i P E NS. rewrite (lists_found d current want), E by assumption.
    apply in_paired in P. destruct P as (I & IG & ->). destruct (find_schema (s_name g) want) as [w|].
    - split; [intros (x & F & H); assert (x = w) by congruence; now subst x|]. intros H. exists w. auto.
    - split; [intros (x & F & _); discriminate|]. intros H. exfalso.
      destruct i; cbn [schema_has empty_schema s_name s_tables s_views s_functions cached_new fcached_new objects fobjects] in H;
        try (now destruct H as (t0 & [] & _)); try (destruct H as (_ & a & [] & _)). now eapply NS.
  Qed.

  (** The items a dropped table or a part of it is. *)
  Lemma kept_part : forall g w t i, In (g, w) (paired want got) -> In t (objects (s_tables g)) -> t_ignore t = false ->
    part_of (s_name g) (t_name t) i ->
    (lists_in (objects want) i <-> exists t', find_table (t_name t) (s_tables w) = Some t' /\ table_has (s_name g) t' i).
  Proof.
    intros g w t i P I IG PO. destruct (paired_good _ _ P) as (Gg & Gw & E).
    rewrite (paired_want g w i P).
    2:{ destruct i; cbn [part_of item_schema] in *; tauto. }
    2:{ intros s ->. exact PO. }
    destruct Gw as (_ & GS & _).
    assert (X : (exists t', In t' (objects (s_tables w)) /\ t_ignore t' = false /\ table_has (s_name w) t' i) <->
                exists t', find_table (t_name t) (s_tables w) = Some t' /\ table_has (s_name g) t' i).
    { rewrite E. split.
      - intros (t' & I' & IG' & H). exists t'. split; [|exact H].
        assert (N : t_name t = t_name t') by (destruct i; cbn [part_of table_has] in *; intuition congruence).
        rewrite N. now apply find_table_spec.
      - intros (t' & F & H). apply found_some in F. exists t'. tauto. }
    destruct i; cbn [schema_has part_of] in *; try contradiction; exact X.
  Qed.

  Lemma decompose_removes : forall ai s t ls i,
    (exists a', In a' (decompose_alter (mk_alter_table ai s t [] [] ls [] [] [] [] [] false)) /\ alter_table_removes current a' i) <->
    alter_table_removes current (mk_alter_table ai s t [] [] ls [] [] [] [] [] false) i.
  Proof.
    intros ai s t ls i. unfold decompose_alter. cbn [a_add_columns a_drop_columns a_schema a_table map app].
    unfold alter_table_removes. cbn [a_schema a_table a_drop_columns a_drop_constraints a_drop_indexes]. split.
    - intros (a' & I & PO & H). apply in_map_iff in I. destruct I as (c & <- & I).
      cbn [with_drop_columns plain_alter a_schema a_table a_drop_columns a_drop_constraints a_drop_indexes] in *.
      split; [exact PO|]. destruct i as [s0|s0 t0|s0 t0 c0|s0 t0 k0|s0 t0 x0|s0 t0 g0|s0 v0|s0 f0]; auto;
        destruct H as (x & [<-|[]] & H). exists c. auto.
    - intros [PO H]. destruct i as [s0|s0 t0|s0 t0 c0|s0 t0 k0|s0 t0 x0|s0 t0 g0|s0 v0|s0 f0]; try contradiction;
        destruct H as (x & I & H); try contradiction.
      eexists. split; [apply in_map; exact I|].
      cbn [with_drop_columns plain_alter a_schema a_table a_drop_columns].
      split; [exact PO|]. exists x. split; [now left|exact H].
  Qed.
  Definition alters_remove (w : schema) (t : table) (i : item) : Prop :=
    exists a, In a (drop_alters d w t) /\ alter_table_removes current a i.
  Lemma decompose_alters : d = DSQLite -> forall w t i,
    (exists a, In a (flat_map decompose_alter (drop_alters d w t)) /\ alter_table_removes current a i) <-> alters_remove w t i.
  Proof.
    intros SQ w t i. unfold alters_remove. rewrite SQ. unfold drop_alters. destruct (kept_table w t) as [t'|].
    2:{ split; intros (a & [] & _). }
    change (dropped_constraints DSQLite t t') with (@nil drop_constraint). change (is_mysql DSQLite) with false. cbn iota.
    destruct (is_nil (dropped_columns DSQLite t t') && is_nil [] && is_nil []); cbn [flat_map].
    { split; intros (a & [] & _). }
    rewrite app_nil_r. rewrite decompose_removes. split.
    - intros H. eexists. split; [left; reflexivity|exact H].
    - intros (a & [<-|[]] & H). exact H.
  Qed.

  (** The items removed by the drop phase. *)
  Definition dropped (g w : schema) (i : item) : Prop :=
    (exists t s n, In t (objects (s_tables g)) /\ In (s, n) (drop_table_names w t) /\ part_of (resolve current s) n i) \/
    (exists t c, In t (objects (s_tables g)) /\ In c (drop_parts_cmds d w t) /\ removes d current c i) \/
    (exists t, In t (objects (s_tables g)) /\ alters_remove w t i) \/
    (exists b v s n, In v (objects (s_views g)) /\ (d = DSQLite -> b = false) /\
       In (s, n) (drop_view_names b w v) /\ i = IView (resolve current s) n) \/
    (exists f c, In f (fobjects (s_functions g)) /\ In c (drop_function_cmds w f) /\ removes d current c i).
  Lemma in_drops : forall i,
    (exists c, In c (drop_cmds d m want got) /\ removes d current c i) <->
    exists g w, In (g, w) (paired want got) /\ dropped g w i.
  Proof.
    intros i. unfold drop_cmds. cbv zeta.
    set (pairs := paired want got).
    set (tables := flat_map (fun p => flat_map (drop_table_names (snd p)) (objects (s_tables (fst p)))) pairs).
    set (views := fun b => flat_map (fun p => flat_map (drop_view_names b (snd p)) (objects (s_views (fst p)))) pairs).
    set (alters := flat_map (fun p => flat_map (drop_alters d (snd p)) (objects (s_tables (fst p)))) pairs).
    assert (TT : forall s n, In (s, n) tables <-> exists g w t, In (g, w) pairs /\ In t (objects (s_tables g)) /\ In (s, n) (drop_table_names w t)).
    { intros s n. unfold tables. rewrite in_flat_map. split.
      - intros ((g, w) & P & I). cbn [fst snd] in I. apply in_flat_map in I. destruct I as (t & It & I). exists g, w, t. auto.
      - intros (g & w & t & P & It & I). exists (g, w). split; [exact P|]. cbn [fst snd]. apply in_flat_map. eauto. }
    assert (VV : forall b s n, In (s, n) (views b) <-> exists g w v, In (g, w) pairs /\ In v (objects (s_views g)) /\ In (s, n) (drop_view_names b w v)).
    { intros b s n. unfold views. rewrite in_flat_map. split.
      - intros ((g, w) & P & I). cbn [fst snd] in I. apply in_flat_map in I. destruct I as (t & It & I). exists g, w, t. auto.
      - intros (g & w & t & P & It & I). exists (g, w). split; [exact P|]. cbn [fst snd]. apply in_flat_map. eauto. }
    assert (AA : (if is_sqlite d then exists a, In a (flat_map decompose_alter alters) /\ alter_table_removes current a i
                  else exists a, In a alters /\ alter_table_removes current a i) <->
                 exists g w t, In (g, w) pairs /\ In t (objects (s_tables g)) /\ alters_remove w t i).
    { unfold alters. destruct (is_sqlite d) eqn:SQ.
      - apply is_sqlite_eq in SQ. split.
        + intros (a & I & H). apply in_flat_map in I. destruct I as (a0 & I0 & I).
          apply in_flat_map in I0. destruct I0 as ((g, w) & P & I0). cbn [fst snd] in I0. apply in_flat_map in I0. destruct I0 as (t & It & I0).
          exists g, w, t. split; [exact P|]. split; [exact It|]. apply decompose_alters; [exact SQ|]. exists a. split; [|exact H].
          apply in_flat_map. eauto.
        + intros (g & w & t & P & It & H). apply decompose_alters in H; [|exact SQ]. destruct H as (a & I & H).
          apply in_flat_map in I. destruct I as (a0 & I0 & I).
          exists a. split; [|exact H]. apply in_flat_map. exists a0. split; [|exact I]. apply in_flat_map. exists (g, w).
          split; [exact P|]. cbn [fst snd]. apply in_flat_map. eauto.
      - split.
        + intros (a & I0 & H). apply in_flat_map in I0. destruct I0 as ((g, w) & P & I0). cbn [fst snd] in I0. apply in_flat_map in I0.
          destruct I0 as (t & It & I0). exists g, w, t. split; [exact P|]. split; [exact It|]. exists a. auto.
        + intros (g & w & t & P & It & a & I & H). exists a. split; [|exact H]. apply in_flat_map. exists (g, w).
          split; [exact P|]. cbn [fst snd]. apply in_flat_map. eauto. }
    split.
    - intros (c & I & RM). apply in_app_or in I. destruct I as [I|I].
      + apply in_flat_map in I. destruct I as ((g, w) & P & I). cbn [fst snd] in I. exists g, w. split; [exact P|].
        apply in_app_or in I. destruct I as [I|I]; apply in_flat_map in I; destruct I as (t & It & I).
        * right. left. exists t, c. auto.
        * right. right. right. right. exists t, c. auto.
      + assert (CT : forall s n, In (s, n) tables -> part_of (resolve current s) n i -> exists g w, In (g, w) pairs /\ dropped g w i).
        { intros s n J PO. apply TT in J. destruct J as (g & w & t & P & It & J). exists g, w. split; [exact P|]. left. exists t, s, n. auto. }
        assert (CV : forall b s n, (d = DSQLite -> b = false) -> In (s, n) (views b) -> i = IView (resolve current s) n ->
                       exists g w, In (g, w) pairs /\ dropped g w i).
        { intros b s n B J E. apply VV in J. destruct J as (g & w & t & P & It & J). exists g, w. split; [exact P|].
          right. right. right. left. exists b, t, s, n. auto. }
        destruct (is_sqlite d) eqn:SQ.
        * rewrite !in_app_iff in I. destruct I as [I|[I|I]]; apply in_map_iff in I; destruct I as (x & <- & I).
          -- unfold decompose_drop_view in I. cbn [dv_names] in I. apply in_map_iff in I. destruct I as ((s, n) & <- & I).
             cbn [removes dv_names] in RM. destruct RM as (s' & n' & [E|[]] & RM). assert (s' = s /\ n' = n) as [-> ->] by (split; congruence).
             apply (CV false s n); auto.
          -- unfold decompose_drop_table in I. cbn [dt_names] in I. apply in_map_iff in I. destruct I as ((s, n) & <- & I).
             cbn [removes dt_names] in RM. destruct RM as (s' & n' & [E|[]] & RM). assert (s' = s /\ n' = n) as [-> ->] by (split; congruence).
             now apply (CT s n).
          -- cbn [removes] in RM. destruct (proj1 AA) as (g & w & t & P & It & H); [eauto|].
             exists g, w. split; [exact P|]. right. right. left. eauto.
        * rewrite !in_app_iff in I. destruct I as [I|[I|[I|I]]].
          -- apply in_map_iff in I. destruct I as (x & <- & I). cbn [removes] in RM.
             destruct (proj1 AA) as (g & w & t & P & It & H); [eauto|].
             exists g, w. split; [exact P|]. right. right. left. eauto.
          -- destruct (is_nil _) in I; [destruct I|]. destruct I as [<-|[]]. cbn [removes dv_names] in RM.
             destruct RM as (s & n & J & E). apply (CV false s n); auto.
          -- destruct (is_nil _) in I; [destruct I|]. destruct I as [<-|[]]. cbn [removes dv_names] in RM.
             destruct RM as (s & n & J & E). apply (CV true s n); auto. intros ->. discriminate.
          -- destruct (is_nil _) in I; [destruct I|]. destruct I as [<-|[]]. cbn [removes dt_names] in RM.
             destruct RM as (s & n & J & E). now apply (CT s n).
    - intros (g & w & P & [H|[H|[H|[H|H]]]]).
      + destruct H as (t & s & n & It & I & PO).
        assert (J : In (s, n) tables) by (apply TT; exists g, w, t; auto).
        destruct (is_sqlite d) eqn:SQ.
        * eexists. split.
          -- rewrite !in_app_iff. right. right. left. apply in_map. unfold decompose_drop_table. cbn [dt_names].
             apply in_map_iff. exists (s, n). split; [reflexivity|exact J].
          -- cbn [removes dt_names]. exists s, n. split; [now left|exact PO].
        * eexists. split.
          -- rewrite !in_app_iff. right. right. right. right. cbn [dt_names].
             match goal with |- In _ (if ?b then _ else _) => replace b with false end; [left; reflexivity|].
             first [exact (is_nil_false _ _ _ J) | symmetry; exact (is_nil_false _ _ _ J)].
          -- cbn [removes dt_names]. exists s, n. auto.
      + destruct H as (t & c & It & I & RM). exists c. split; [|exact RM]. apply in_or_app. left.
        apply in_flat_map. exists (g, w). split; [exact P|]. cbn [fst snd]. apply in_or_app. left. apply in_flat_map. eauto.
      + destruct H as (t & It & H). destruct (is_sqlite d) eqn:SQ.
        * destruct (proj2 AA) as (a & I & RM); [exists g, w, t; auto|].
          exists (KAlterTableDrop a). split; [|exact RM]. rewrite !in_app_iff. right. right. right. now apply in_map.
        * destruct (proj2 AA) as (a & I & RM); [exists g, w, t; auto|].
          exists (KAlterTableDrop a). split; [|exact RM]. rewrite !in_app_iff. right. left. now apply in_map.
      + destruct H as (b & v & s & n & Iv & B & I & E).
        assert (J : In (s, n) (views b)) by (apply VV; exists g, w, v; auto).
        destruct (is_sqlite d) eqn:SQ.
        * apply is_sqlite_eq in SQ. rewrite (B SQ) in J. eexists. split.
          -- rewrite !in_app_iff. right. left. apply in_map. unfold decompose_drop_view. cbn [dv_names].
             apply in_map_iff. exists (s, n). split; [reflexivity|exact J].
          -- cbn [removes dv_names]. exists s, n. split; [now left|exact E].
        * destruct b; (eexists; split;
            [rewrite !in_app_iff; right; right|]).
          -- right. left. cbn [dv_names]. match goal with |- In _ (if ?b then _ else _) => replace b with false end; [left; reflexivity|].
             first [exact (is_nil_false _ _ _ J) | symmetry; exact (is_nil_false _ _ _ J)].
          -- cbn [removes dv_names]. exists s, n. auto.
          -- left. cbn [dv_names]. match goal with |- In _ (if ?b then _ else _) => replace b with false end; [left; reflexivity|].
             first [exact (is_nil_false _ _ _ J) | symmetry; exact (is_nil_false _ _ _ J)].
          -- cbn [removes dv_names]. exists s, n. auto.
      + destruct H as (t & c & It & I & RM). exists c. split; [|exact RM]. apply in_or_app. left.
        apply in_flat_map. exists (g, w). split; [exact P|]. cbn [fst snd]. apply in_or_app. right. apply in_flat_map. eauto.
  Qed.

  Hypothesis NI : forall sc, In sc (objects got) ->
    (forall t, In t (objects (s_tables sc)) ->
       (forall x, In x (objects (t_indexes t)) -> x_ignore x = false) /\
       (forall g, In g (objects (t_triggers t)) -> g_ignore g = false)).
  Hypothesis NX : forall s t t' x, lists_in (objects got) (IIndex s t x) -> lists_in (objects want) (IIndex s t' x) -> t = t'.
  Hypothesis NG : forall s t t' x, lists_in (objects got) (ITrigger s t x) -> lists_in (objects want) (ITrigger s t' x) -> t = t'.

  Lemma kept_some : forall w t t', kept_table w t = Some t' -> t_ignore t = false /\ find_table (t_name t) (s_tables w) = Some t'.
  Proof. intros w t t'. unfold kept_table. destruct (t_ignore t); [discriminate|auto]. Qed.
  Lemma drops_sound : forall g w i, In (g, w) (paired want got) -> dropped g w i -> ~ lists_in (objects want) i.
  Proof.
    intros g w i P D. destruct (paired_good _ _ P) as (Gg & Gw & E).
    pose proof (proj1 (in_paired _ _) P) as (Ig & IGg & _).
    destruct Gg as (CUR & TS & TG & VS & VN & FS & FN).
    destruct Gw as (WCUR & WTS & WTG & WVS & WVN & WFS & WFN).
    assert (RS : resolve current (s_name g) = s_name g) by now apply resolve_id.
    (* a table that is kept: an item of it that is wanted is found in it *)
    assert (KP : forall t t' i, In t (objects (s_tables g)) -> kept_table w t = Some t' -> part_of (s_name g) (t_name t) i ->
              lists_in (objects want) i -> table_has (s_name g) t' i /\ good_table d (s_name g) t').
    { intros t t' j It K PO L. apply kept_some in K. destruct K as [IG F].
      apply (kept_part g w t j P It IG PO) in L. destruct L as (t2 & F2 & H). assert (t2 = t') by congruence. subst t2.
      split; [exact H|]. rewrite <- E. apply WTG. apply found_some in F. apply F. }
    destruct D as [D|[D|[D|[D|D]]]].
    - destruct D as (t & s & n & It & I & PO). unfold drop_table_names in I.
      destruct (t_ignore t) eqn:IG; [destruct I|].
      destruct (find_table (t_name t) (s_tables w)) as [t'|] eqn:F; [destruct I|].
      destruct I as [X|[]]. assert (s = t_schema t /\ n = t_name t) as [-> ->] by (split; congruence).
      rewrite (proj1 (TG _ It)), RS in PO. rewrite (kept_part g w t i P It IG PO).
      intros (t' & F' & _). congruence.
    - destruct D as (t & c & It & I & RM). unfold drop_parts_cmds in I.
      destruct (kept_table w t) as [t'|] eqn:K; [|destruct I].
      pose proof (kept_some _ _ _ K) as [IG F].
      destruct (TG _ It) as (TSc & _ & _ & _ & XT & _ & GT).
      apply in_app_or in I. destruct I as [I|I].
      + destruct (is_mysql d); [destruct I|]. apply in_map_iff in I. destruct I as (dx & <- & I).
        unfold dropped_indexes in I. apply in_map_iff in I. destruct I as (x & <- & I). apply filter_In in I. destruct I as [Ix MS].
        cbn [removes dx_schema dx_name] in RM. destruct RM as (t0 & ->). destruct (XT _ Ix) as [E1 E2]. rewrite E1, RS.
        intros L. assert (t_name t = t0).
        { apply (NX (s_name g) (t_name t) t0 (x_name x)); [|exact L]. exists g. split; [exact Ig|]. split; [exact IGg|].
          cbn [schema_has]. exists t. split; [exact It|]. split; [exact IG|]. cbn [table_has]. repeat split. exists x.
          split; [exact Ix|]. split; [|reflexivity]. exact (proj1 (NI _ Ig _ It) _ Ix). }
        subst t0. destruct (KP t t' (IIndex (s_name g) (t_name t) (x_name x)) It K (conj eq_refl eq_refl) L) as [(_ & _ & PR) GT'].
        destruct GT' as (_ & _ & _ & GX & _). unfold find_index in MS. rewrite (missing_found x_name x_ignore false _ _ GX) in MS.
        now apply MS.
      + unfold dropped_triggers in I. apply in_map_iff in I. destruct I as (x & <- & I). apply filter_In in I. destruct I as [Ix MS].
        cbn [removes dg_schema dg_name dg_table] in RM. destruct RM as (t0 & -> & _). destruct (GT _ Ix) as [E1 E2]. rewrite E1, RS.
        intros L. assert (t_name t = t0).
        { apply (NG (s_name g) (t_name t) t0 (g_name x)); [|exact L]. exists g. split; [exact Ig|]. split; [exact IGg|].
          cbn [schema_has]. exists t. split; [exact It|]. split; [exact IG|]. cbn [table_has]. repeat split. exists x.
          split; [exact Ix|]. split; [|reflexivity]. exact (proj2 (NI _ Ig _ It) _ Ix). }
        subst t0. destruct (KP t t' (ITrigger (s_name g) (t_name t) (g_name x)) It K (conj eq_refl eq_refl) L) as [(_ & _ & PR) GT'].
        destruct GT' as (_ & _ & _ & _ & _ & GX & _). unfold find_trigger in MS. rewrite (missing_found g_name g_ignore false _ _ GX) in MS.
        now apply MS.
    - destruct D as (t & It & a & I & RM). unfold drop_alters in I.
      destruct (kept_table w t) as [t'|] eqn:K; [|destruct I].
      match type of I with In _ (if ?b then _ else _) => destruct b; [destruct I|] end. destruct I as [<-|[]].
      unfold alter_table_removes in RM. cbn [a_schema a_table a_drop_columns a_drop_constraints a_drop_indexes] in RM.
      rewrite (proj1 (TG _ It)), RS in RM. destruct RM as [PO RM]. intros L.
      destruct (KP t t' i It K PO L) as [H (_ & GL & GK & GX & _)].
      destruct i as [s0|s0 t0|s0 t0 c0|s0 t0 k0|s0 t0 x0|s0 t0 g0|s0 v0|s0 f0]; try contradiction;
        destruct RM as (y & I & <-); destruct H as (_ & _ & PR).
      + unfold dropped_columns in I. apply in_map_iff in I. destruct I as (l & <- & I). apply filter_In in I. destruct I as [_ MS].
        unfold find_column in MS. rewrite (missing_found l_name l_ignore false _ _ GL) in MS. now apply MS.
      + unfold dropped_constraints in I. destruct (is_sqlite d) eqn:SQ; [destruct I|].
        assert (ND : d <> DSQLite) by (intros ED; rewrite ED in SQ; discriminate).
        apply in_map_iff in I. destruct I as (l & <- & I). apply filter_In in I. destruct I as [_ MS].
        unfold find_constraint in MS. rewrite (missing_found c_name c_ignore false _ _ (GK ND)) in MS. now apply MS.
      + destruct (is_mysql d); [|destruct I]. unfold dropped_indexes in I.
        apply in_map_iff in I. destruct I as (l & <- & I). apply filter_In in I. destruct I as [_ MS].
        unfold find_index in MS. rewrite (missing_found x_name x_ignore false _ _ GX) in MS. now apply MS.
    - destruct D as (b & v & s & n & Iv & _ & I & ->). unfold drop_view_names in I.
      destruct (find_view (v_name v) (s_views w)) as [v'|] eqn:F; [destruct I|].
      destruct (Bool.eqb (v_materialized v) b); [|destruct I]. destruct I as [X|[]].
      assert (s = v_schema v /\ n = v_name v) as [-> ->] by (split; congruence). rewrite (VN _ Iv), RS.
      rewrite (paired_want g w) by (auto; discriminate). cbn [schema_has]. intros [_ PR].
      revert PR. now apply (found_none v_name v_ignore false).
    - destruct D as (f & c & If & I & RM). unfold drop_function_cmds in I.
      destruct (has_function (f_name f) (s_functions w)) eqn:HF; [destruct I|]. destruct I as [<-|[]].
      cbn [removes df_function] in RM. rewrite (FN _ If), RS in RM. subst i.
      rewrite (paired_want g w) by (auto; discriminate). cbn [schema_has]. intros [_ PR].
      apply functions_spec in PR; [congruence|exact WFS|]. now apply (proj1 FS).
  Qed.
  Hypothesis SV : d = DSQLite -> forall sc v, In sc (objects got) -> In v (objects (s_views sc)) -> v_materialized v = false.
  Lemma drops_complete : forall i, in_scope d i -> (forall s, i <> ISchema s) ->
    lists_in (objects got) i -> ~ lists_in (objects want) i ->
    exists g w, In (g, w) (paired want got) /\ dropped g w i.
  Proof.
    intros i SC NS (g & Ig & IGg & H) NW.
    set (w := match find_schema (s_name g) want with Some w => w | None => empty_schema (s_name g) end).
    assert (P : In (g, w) (paired want got)) by (apply in_paired; auto).
    exists g, w. split; [exact P|].
    destruct (paired_good _ _ P) as (Gg & Gw & E).
    rewrite (paired_want g w i P) in NW; [|now apply has_schema|exact NS].
    destruct Gg as (CUR & TS & TG & VS & VN & FS & FN).
    destruct Gw as (WCUR & WTS & WTG & WVS & WVN & WFS & WFN).
    assert (RS : resolve current (s_name g) = s_name g) by now apply resolve_id.
    clearbody w.
    (* either the table is dropped, or it is kept *)
    assert (TD : forall t, In t (objects (s_tables g)) -> t_ignore t = false -> part_of (s_name g) (t_name t) i ->
              find_table (t_name t) (s_tables w) = None -> dropped g w i).
    { intros t It IG PO F. left. exists t, (t_schema t), (t_name t). split; [exact It|]. split.
      - unfold drop_table_names. rewrite IG, F. now left.
      - now rewrite (proj1 (TG _ It)), RS. }
    destruct i as [s0|s0 t0|s0 t0 c0|s0 t0 k0|s0 t0 x0|s0 t0 g0|s0 v0|s0 f0]; cbn [schema_has] in H, NW.
    - exfalso. now apply (NS s0).
    - destruct H as (t & It & IG & -> & ->). destruct (find_table (t_name t) (s_tables w)) as [t'|] eqn:F.
      + exfalso. apply NW. apply found_some in F. exists t'. cbn [table_has]. intuition congruence.
      + apply (TD t); auto. cbn [part_of]. auto.
    - destruct H as (t & It & IG & -> & -> & l & Il & IL & <-). destruct (find_table (t_name t) (s_tables w)) as [t'|] eqn:F.
      + assert (K : kept_table w t = Some t') by (unfold kept_table; now rewrite IG).
        pose proof (found_some _ _ _ _ _ _ F) as (It' & IG' & EN).
        right. right. left. exists t. split; [exact It|].
        assert (ID : In (mk_drop_column (is_postgres d) (l_name l) (is_postgres d) false) (dropped_columns d t t')).
        { unfold dropped_columns. apply in_map_iff. exists l. split; [reflexivity|]. apply filter_In. split; [exact Il|].
          unfold find_column. apply missing_found; [apply (WTG _ It')|]. intros PR. apply NW. exists t'.
          cbn [table_has]. intuition congruence. }
        unfold alters_remove, drop_alters. rewrite K. rewrite (is_nil_false _ _ _ ID). cbn [andb].
        eexists. split; [left; reflexivity|]. unfold alter_table_removes. cbn [a_schema a_table a_drop_columns part_of].
        rewrite (proj1 (TG _ It)), RS. split; [auto|]. eexists. split; [exact ID|reflexivity].
      + apply (TD t); auto. cbn [part_of]. auto.
    - destruct H as (t & It & IG & -> & -> & l & Il & IL & <-). destruct (find_table (t_name t) (s_tables w)) as [t'|] eqn:F.
      + assert (K : kept_table w t = Some t') by (unfold kept_table; now rewrite IG).
        pose proof (found_some _ _ _ _ _ _ F) as (It' & IG' & EN).
        right. right. left. exists t. split; [exact It|].
        assert (ID : In (mk_drop_constraint (is_postgres d) (c_name l) (is_postgres d) false) (dropped_constraints d t t')).
        { unfold dropped_constraints. rewrite not_sqlite by exact SC.
          apply in_map_iff. exists l. split; [reflexivity|]. apply filter_In. split; [exact Il|].
          unfold find_constraint. apply missing_found; [now apply (WTG _ It')|]. intros PR. apply NW. exists t'.
          cbn [table_has]. intuition congruence. }
        unfold alters_remove, drop_alters. rewrite K. rewrite (is_nil_false _ _ _ ID). rewrite !andb_false_r. cbn [andb].
        eexists. split; [left; reflexivity|]. unfold alter_table_removes. cbn [a_schema a_table a_drop_constraints part_of].
        rewrite (proj1 (TG _ It)), RS. split; [auto|]. eexists. split; [exact ID|reflexivity].
      + apply (TD t); auto. cbn [part_of]. auto.
    - destruct H as (t & It & IG & -> & -> & l & Il & IL & <-). destruct (find_table (t_name t) (s_tables w)) as [t'|] eqn:F.
      + assert (K : kept_table w t = Some t') by (unfold kept_table; now rewrite IG).
        pose proof (found_some _ _ _ _ _ _ F) as (It' & IG' & EN).
        assert (ID : In (mk_drop_index false (is_postgres d || is_sqlite d) (x_schema l) (x_table l) (x_name l) (is_postgres d) false) (dropped_indexes d t t')).
        { unfold dropped_indexes. apply in_map_iff. exists l. split; [reflexivity|]. apply filter_In. split; [exact Il|].
          unfold find_index. apply missing_found; [apply (WTG _ It')|]. intros PR. apply NW. exists t'.
          cbn [table_has]. intuition congruence. }
        destruct (TG _ It) as (TSc & _ & _ & _ & XT & _ & GT).
        destruct (is_mysql d) eqn:MY.
        * right. right. left. exists t. split; [exact It|].
          unfold alters_remove, drop_alters. rewrite K. rewrite MY, (is_nil_false _ _ _ ID). rewrite !andb_false_r.
          eexists. split; [left; reflexivity|]. unfold alter_table_removes. cbn [a_schema a_table a_drop_indexes part_of].
          rewrite TSc, RS. split; [auto|]. eexists. split; [exact ID|reflexivity].
        * right. left. eexists t, _. split; [exact It|]. split.
          -- unfold drop_parts_cmds. rewrite K, MY. apply in_or_app. left. apply in_map. exact ID.
          -- cbn [removes dx_schema dx_name]. exists (t_name t). now rewrite (proj1 (XT _ Il)), RS.
      + apply (TD t); auto. cbn [part_of]. auto.
    - destruct H as (t & It & IG & -> & -> & l & Il & IL & <-). destruct (find_table (t_name t) (s_tables w)) as [t'|] eqn:F.
      + assert (K : kept_table w t = Some t') by (unfold kept_table; now rewrite IG).
        pose proof (found_some _ _ _ _ _ _ F) as (It' & IG' & EN).
        destruct (TG _ It) as (TSc & _ & _ & _ & XT & _ & GT).
        right. left. eexists t, _. split; [exact It|]. split.
        * unfold drop_parts_cmds. rewrite K. apply in_or_app. right. unfold dropped_triggers. apply in_map_iff. exists l.
          split; [reflexivity|]. apply filter_In. split; [exact Il|].
          unfold find_trigger. apply missing_found; [apply (WTG _ It')|]. intros PR. apply NW. exists t'.
          cbn [table_has]. intuition congruence.
        * cbn [removes dg_schema dg_name dg_table]. exists (t_name t). destruct (GT _ Il) as [E1 E2]. rewrite E1, RS. auto.
      + apply (TD t); auto. cbn [part_of]. auto.
    - destruct H as [-> (v & Iv & IV & <-)]. right. right. right. left.
      exists (v_materialized v), v, (v_schema v), (v_name v). split; [exact Iv|]. split; [intros SQ; now apply (SV SQ g)|].
      split; [|now rewrite (VN _ Iv), RS]. unfold drop_view_names.
      destruct (find_view (v_name v) (s_views w)) as [v'|] eqn:F.
      + exfalso. apply NW. apply found_some in F. split; [now symmetry|]. exists v'. tauto.
      + rewrite Bool.eqb_reflx. now left.
    - destruct H as [-> (f & If & IF & <-)]. right. right. right. right.
      exists f. eexists. split; [exact If|]. unfold drop_function_cmds.
      destruct (has_function (f_name f) (s_functions w)) eqn:HF.
      + exfalso. apply NW. split; [now symmetry|]. apply functions_spec in HF; [exact HF|exact WFS|]. now apply (proj1 FS).
      + split; [left; reflexivity|]. cbn [removes df_function]. now rewrite (FN _ If), RS.
  Qed.
End Drops.
