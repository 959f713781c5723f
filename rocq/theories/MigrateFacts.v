(** * MigrateFacts: the items that the create phase adds and the drop phase removes *)
From Coq Require Import Lia.
From Verif Require Import GoBase GoBaseFacts QuoteModel BuildModel CacheModel SpecCache CacheFacts UpsertModel DdlModel
  MigrateModel SpecMigrate.

(** ** Lookups *)
Section Found.
  Context {A : Type} (name_of : A -> bytes) (ignored : A -> bool) (ae : bool).
  Notation found := (found name_of ignored ae).
  Notation lookup := (lookup name_of ignored ae).

  (** A lookup does not change the result of later lookups. *)
  Lemma lookup_pure : forall n n' c, fst (lookup n' (snd (lookup n c))) = fst (lookup n' c).
  Proof.
    intros n n' c. unfold CacheModel.lookup at 2. destruct (is_empty n && negb ae); [reflexivity|].
    destruct (mget n (positions c)) as [i|] eqn:M; [|reflexivity].
    assert (D : forall a : option A, nth_error (objects c) i = a ->
      match a with Some a => negb (beqb (name_of a) n) || ignored a = true | None => True end ->
      fst (lookup n' (mk_cached (objects c) (mdel n (positions c)))) = fst (lookup n' c)).
    { intros a E H. unfold CacheModel.lookup. destruct (is_empty n' && negb ae); [reflexivity|].
      cbn [positions objects]. rewrite mget_mdel. destruct (beqb n' n) eqn:B; [|destruct (mget n' (positions c)) as [j|];
        [destruct (nth_error (objects c) j) as [b|]; [destruct (_ || _)|]|]; reflexivity].
      apply beqb_eq in B. subst n'. rewrite M, E. destruct a as [a|]; [|reflexivity]. now rewrite H. }
    destruct (nth_error (objects c) i) as [a|] eqn:E; [|now apply (D None)].
    destruct (negb (beqb (name_of a) n) || ignored a) eqn:H; [|reflexivity]. now apply (D (Some a)).
  Qed.

  Lemma found_some : forall n c a, found n c = Some a -> In a (objects c) /\ ignored a = false /\ name_of a = n.
  Proof.
    intros n c a. unfold MigrateModel.found. destruct (fst (lookup n c)) as [i|] eqn:L; [|discriminate].
    intros E. apply lookup_sound_state in L. destruct L as (b & N & H1 & H2).
    assert (a = b) by congruence. subst b. repeat split; auto. eapply nth_error_In; eassumption.
  Qed.
  Lemma found_none : forall n c, good_slice name_of ignored ae c ->
    found n c = None -> ~ present name_of ignored (objects c) n.
  Proof.
    intros n c (ST & _ & NM) F P. assert (NE : n <> [] \/ ae = true).
    { destruct ae eqn:AE; [now right|left]. destruct P as (a & I & _ & <-). now apply NM. }
    destruct (ST n NE P) as [i L]. unfold MigrateModel.found in F. rewrite L in F.
    apply lookup_sound_state in L. destruct L as (b & N & _). congruence.
  Qed.
  Lemma distinct_inj : forall l a b, distinct name_of ignored l -> In a l -> In b l ->
    ignored a = false -> ignored b = false -> name_of a = name_of b -> a = b.
  Proof.
    intros l a b D Ia Ib Ha Hb E. unfold distinct in D.
    assert (Ia' : In a (filter (fun x => negb (ignored x)) l)) by (apply filter_In; now rewrite Ha).
    assert (Ib' : In b (filter (fun x => negb (ignored x)) l)) by (apply filter_In; now rewrite Hb).
    clear Ia Ib. induction (filter _ l) as [|x r IH]; [destruct Ia'|].
    cbn [map] in D. inversion D as [|y z N D']; subst.
    destruct Ia' as [<-|Ia], Ib' as [<-|Ib]; auto.
    - exfalso. apply N. rewrite E. now apply in_map.
    - exfalso. apply N. rewrite <- E. now apply in_map.
  Qed.
  Lemma found_here : forall n c a, good_slice name_of ignored ae c ->
    In a (objects c) -> ignored a = false -> name_of a = n -> found n c = Some a.
  Proof.
    intros n c a G I H E. destruct (found n c) as [b|] eqn:F.
    - apply found_some in F. destruct F as (I' & H' & E'). f_equal. destruct G as (_ & D & _).
      apply (distinct_inj _ _ _ D I' I H' H). congruence.
    - exfalso. apply (found_none _ _ G F). exists a. auto.
  Qed.
  Lemma missing_found : forall n c, good_slice name_of ignored ae c ->
    (missing (found n c) = true <-> ~ present name_of ignored (objects c) n).
  Proof.
    intros n c G. destruct (found n c) as [a|] eqn:F; cbn [missing].
    - split; [discriminate|]. intros H. exfalso. apply H. apply found_some in F. exists a. tauto.
    - split; [|reflexivity]. intros _. now apply found_none.
  Qed.
End Found.
Lemma cached_new_good : forall A (nm : A -> bytes) ig ae, good_slice nm ig ae cached_new.
Proof.
  intros. repeat split.
  - intros n _ (a & [] & _).
  - constructor.
  - intros _ a [].
Qed.
Lemma resolve_id : forall current s, s <> [] \/ current = [] -> resolve current s = s.
Proof. intros c [|x s] [H|H]; cbn [resolve]; congruence. Qed.
Lemma functions_spec : forall n c, good_functions c -> n <> [] ->
  (has_function n c = true <-> present f_name f_ignore (fobjects c) n).
Proof.
  intros n c [_ G] NE. rewrite <- G by exact NE. unfold has_function.
  destruct (fst (flookup f_name n c)); split; congruence.
Qed.

Lemma not_sqlite : forall d, d <> DSQLite -> is_sqlite d = false.
Proof. intros [] H; auto. congruence. Qed.
Lemma is_sqlite_eq : forall d, is_sqlite d = true -> d = DSQLite.
Proof. intros [] H; auto; discriminate. Qed.
Lemma is_mysql_eq : forall d, is_mysql d = true -> d = DMySQL.
Proof. intros [] H; auto; discriminate. Qed.

(** ** One table of the create phase *)
Section CreateTable.
  Variables (d : dialect) (m : mode) (current : bytes).
  Hypothesis CM : create_missing m = true.
  Variables (gs : schema) (w : table) (s : bytes).
  Hypothesis GS : good_slice t_name t_ignore false (s_tables gs).
  Hypothesis GT : forall t, In t (objects (s_tables gs)) -> good_table d s t.
  Hypothesis GW : good_table d s w.
  Hypothesis CUR : s <> [] \/ current = [].
  Hypothesis WI : t_ignore w = false.

  Let got := find_table (t_name w) (s_tables gs).
  Let got_table := match got with Some t => t | None => empty_table (t_schema w) (t_name w) end.

  Lemma got_table_slices :
    good_slice l_name l_ignore false (t_columns got_table) /\ (d <> DSQLite -> good_slice c_name c_ignore false (t_constraints got_table)) /\
    good_slice x_name x_ignore false (t_indexes got_table) /\ good_slice g_name g_ignore false (t_triggers got_table).
  Proof.
    unfold got_table. destruct got as [g|] eqn:F.
    - apply found_some in F. destruct F as [I _]. specialize (GT _ I). unfold good_table in GT. tauto.
    - cbn [empty_table t_columns t_constraints t_indexes t_triggers].
      split; [apply cached_new_good|]. split; [intros _; apply cached_new_good|]. split; apply cached_new_good.
  Qed.

  Definition in_got (i : item) : Prop := exists g, got = Some g /\ table_has s g i.

  Lemma present_got : forall i,
    in_got i <->
    match i with
    | ITable s' n => s' = s /\ n = t_name w /\ missing got = false
    | IColumn s' n c => s' = s /\ n = t_name w /\ present l_name l_ignore (objects (t_columns got_table)) c
    | IConstraint s' n c => s' = s /\ n = t_name w /\ present c_name c_ignore (objects (t_constraints got_table)) c
    | IIndex s' n c => s' = s /\ n = t_name w /\ present x_name x_ignore (objects (t_indexes got_table)) c
    | ITrigger s' n c => s' = s /\ n = t_name w /\ present g_name g_ignore (objects (t_triggers got_table)) c
    | _ => False
    end.
  Proof.
    intros i. unfold in_got, got_table. destruct got as [g|] eqn:F.
    - pose proof (found_some _ _ _ _ _ _ F) as (_ & _ & E). split.
      + intros (g' & E' & H). assert (g' = g) by congruence. subst g'.
        destruct i; cbn [table_has missing] in *; intuition congruence.
      + intros H. exists g. split; [reflexivity|]. destruct i; cbn [table_has] in *; intuition congruence.
    - split; [intros (g & X & _); discriminate|].
      intros H. exfalso.
      destruct i; cbn [missing empty_table t_columns t_constraints t_indexes t_triggers cached_new objects] in H;
        try contradiction; destruct H as (_ & _ & X); try discriminate; destruct X as (a & [] & _).
  Qed.

  Lemma in_missing_constraints : forall c, d <> DSQLite ->
    In c (missing_constraints d got_table w) <->
    In c (objects (t_constraints w)) /\ c_ignore c = false /\ ~ present c_name c_ignore (objects (t_constraints got_table)) (c_name c).
  Proof.
    intros c ND. unfold missing_constraints. rewrite not_sqlite by exact ND.
    rewrite filter_In, andb_true_iff, negb_true_iff. unfold find_constraint.
    rewrite (missing_found c_name c_ignore false); [tauto|now apply got_table_slices].
  Qed.
  Lemma in_missing_indexes : forall c,
    In c (missing_indexes d got_table w) <->
    exists x, c = mk_create_index false (negb (is_mysql d)) x false /\
      In x (objects (t_indexes w)) /\ x_ignore x = false /\ ~ present x_name x_ignore (objects (t_indexes got_table)) (x_name x).
  Proof.
    intros c. unfold missing_indexes. rewrite in_map_iff.
    split; intros (x & H); exists x.
    - destruct H as [<- H]. apply filter_In in H. destruct H as [I H]. rewrite andb_true_iff, negb_true_iff in H.
      unfold find_index in H. rewrite (missing_found x_name x_ignore false) in H; [tauto|apply got_table_slices].
    - destruct H as (-> & I & H1 & H2). split; [reflexivity|]. apply filter_In. split; [exact I|].
      rewrite andb_true_iff, negb_true_iff. split; [exact H1|]. unfold find_index.
      rewrite (missing_found x_name x_ignore false); [exact H2|apply got_table_slices].
  Qed.
  Lemma in_missing_triggers : forall c,
    In c (missing_triggers got_table w) <->
    exists g, c = KCreateTrigger (mk_create_trigger g false) /\
      In g (objects (t_triggers w)) /\ g_ignore g = false /\ ~ present g_name g_ignore (objects (t_triggers got_table)) (g_name g).
  Proof.
    intros c. unfold missing_triggers. rewrite in_map_iff.
    split; intros (x & H); exists x.
    - destruct H as [<- H]. apply filter_In in H. destruct H as [I H]. rewrite andb_true_iff, negb_true_iff in H.
      unfold find_trigger in H. rewrite (missing_found g_name g_ignore false) in H; [tauto|apply got_table_slices].
    - destruct H as (-> & I & H1 & H2). split; [reflexivity|]. apply filter_In. split; [exact I|].
      rewrite andb_true_iff, negb_true_iff. split; [exact H1|]. unfold find_trigger.
      rewrite (missing_found g_name g_ignore false); [exact H2|apply got_table_slices].
  Qed.
  Lemma in_added_columns : forall c,
    In c (added_columns d m got_table w) <->
    exists l, c = mk_add_column (is_postgres d) l [] [] [] false /\
      In l (objects (t_columns w)) /\ l_ignore l = false /\ ~ present l_name l_ignore (objects (t_columns got_table)) (l_name l).
  Proof.
    intros c. unfold added_columns. rewrite in_flat_map. split; intros (l & H); exists l.
    - destruct H as [I H]. destruct (l_ignore l) eqn:IG; [destruct H|].
      pose proof (missing_found l_name l_ignore false (l_name l) _ (proj1 got_table_slices)) as MF.
      unfold find_column in H. destruct (found _ _ _ _ _); cbn [missing] in MF; [destruct H|].
      rewrite CM in H. destruct H as [<-|[]]. repeat split; auto. now apply MF.
    - destruct H as (-> & I & IG & NP). split; [exact I|]. rewrite IG.
      pose proof (missing_found l_name l_ignore false (l_name l) _ (proj1 got_table_slices)) as MF.
      unfold find_column. destruct (found _ _ _ _ _) as [x|]; cbn [missing] in MF.
      + apply MF in NP. discriminate.
      + rewrite CM. now left.
  Qed.

  (** The items added by the commands of one table. *)
  Lemma table_adds : forall i, in_scope d i ->
    (exists c, In c (create_table_cmds d m gs w) /\ adds d current c i) <-> table_has s w i /\ ~ in_got i.
  Proof.
    intros i SC. unfold create_table_cmds. rewrite WI. fold got. fold got_table. rewrite CM.
    destruct GW as (TS & _ & _ & _ & XW & _ & TW). rewrite TS.
    assert (RS : resolve current s = s) by now apply resolve_id.
    rewrite present_got. split.
    - intros (c & I & AD). rewrite !in_app_iff in I. destruct I as [I|[I|[I|[I|I]]]].
      + destruct (is_mysql d) eqn:MY; [destruct I|]. apply in_map_iff in I. destruct I as (ci & <- & I).
        apply in_missing_indexes in I. destruct I as (x & -> & I & IG & NP).
        cbn [adds ci_index] in AD. destruct (XW _ I) as [E1 E2]. rewrite E1, RS, E2 in AD. subst i. cbn [table_has].
        split; [|tauto]. split; [reflexivity|]. split; [reflexivity|]. exists x. auto.
      + apply in_missing_triggers in I. destruct I as (g & -> & I & IG & NP).
        cbn [adds cg_trigger] in AD. destruct (TW _ I) as [E1 E2]. rewrite E1, RS, E2 in AD. subst i. cbn [table_has].
        split; [|tauto]. split; [reflexivity|]. split; [reflexivity|]. exists g. auto.
      + destruct (missing got) eqn:MG; cbn [negb] in I; [|destruct I]. destruct I as [<-|[]].
        assert (GN : got_table = empty_table (t_schema w) (t_name w)) by (unfold got_table; destruct got; [discriminate|reflexivity]).
        unfold adds, create_table_adds in AD; cbn [ct_table ct_indexes] in AD.
 rewrite TS in AD.
 rewrite RS in AD. destruct AD as [PO AD].
        rewrite GN. cbn [empty_table t_columns t_constraints t_indexes t_triggers cached_new objects].
        destruct i as [s0|s0 t0|s0 t0 c0|s0 t0 k0|s0 t0 x0|s0 t0 g0|s0 v0|s0 f0]; cbn [part_of table_has] in *; try contradiction; destruct PO as [-> ->].
        * split; [auto|]. intros (_ & _ & X); discriminate.
        * split; [auto|]. intros (_ & _ & a & [] & _).
        * split; [|intros (_ & _ & a & [] & _)]. destruct AD as (x & I & IG & E & _). repeat split. exists x. auto.
        * split; [|intros (_ & _ & a & [] & _)]. destruct AD as (x & I & E). destruct (is_mysql d); [|destruct I].
          apply in_missing_indexes in I. destruct I as (y & -> & I & IG & NP). repeat split. exists y. auto.
      + try rewrite TS in I.
        destruct (missing got) eqn:MG; cbn [negb] in I.
        * exfalso. rewrite andb_false_r in I. cbn in I. destruct (is_sqlite d); destruct I.
        * destruct (is_sqlite d) eqn:SQ.
          -- unfold decompose_alter in I. cbn [a_add_columns a_drop_columns a_schema a_table map] in I. rewrite app_nil_r, map_map in I.
             apply in_map_iff in I. destruct I as (ac & <- & I). apply in_added_columns in I. destruct I as (l & -> & I & IG & NP).
             unfold adds, alter_table_adds in AD; cbn [with_add_columns plain_alter a_schema a_table a_add_columns a_add_constraints a_create_indexes] in AD.
             rewrite RS in AD. destruct AD as [PO AD].
             destruct i as [s0|s0 t0|s0 t0 c0|s0 t0 k0|s0 t0 x0|s0 t0 g0|s0 v0|s0 f0]; cbn [part_of table_has] in *; try contradiction; try (now destruct AD as (? & [] & _)).
             destruct PO as [-> ->]. destruct AD as (x & [<-|[]] & E). cbn [al_column] in E. subst. split; [|tauto].
             repeat split. exists l. auto.
          -- match type of I with In _ (if ?b then _ else _) => destruct b; [destruct I|] end. destruct I as [<-|[]].
             unfold adds, alter_table_adds in AD; cbn [a_schema a_table a_add_columns a_add_constraints a_create_indexes] in AD.
             rewrite RS in AD. destruct AD as [PO AD].
             destruct i as [s0|s0 t0|s0 t0 c0|s0 t0 k0|s0 t0 x0|s0 t0 g0|s0 v0|s0 f0]; cbn [part_of table_has] in *; try contradiction; destruct PO as [-> ->]; destruct AD as (x & I & E).
             ++ apply in_added_columns in I. destruct I as (l & -> & I & IG & NP). cbn [al_column] in E. subst.
                split; [|tauto]. repeat split. exists l. auto.
             ++ apply in_map_iff in I. destruct I as (k' & <- & I). apply filter_In in I. destruct I as [I _].
                apply in_missing_constraints in I; [|exact SC]. destruct I as (I & IG & NP). cbn [added_constraint at_constraint] in E. subst.
                split; [|tauto]. repeat split. exists k'. auto.
             ++ rewrite andb_true_r in I. destruct (is_mysql d); [|destruct I]. apply in_missing_indexes in I.
                destruct I as (y & -> & I & IG & NP). cbn [ci_index] in E. subst. split; [|tauto]. repeat split. exists y. auto.
      + match type of I with In _ (if ?b then _ else _) => destruct b; [destruct I|] end. destruct I as [<-|[]].
        unfold adds, alter_table_adds in AD; cbn [a_schema a_table a_add_columns a_add_constraints a_create_indexes] in AD.
        try rewrite TS in AD; rewrite RS in AD. destruct AD as [PO AD].
        destruct i as [s0|s0 t0|s0 t0 c0|s0 t0 k0|s0 t0 x0|s0 t0 g0|s0 v0|s0 f0]; cbn [part_of table_has] in *; try contradiction; destruct PO as [-> ->]; destruct AD as (x & I & E); try (now destruct I).
        apply in_map_iff in I. destruct I as (k' & <- & I). apply filter_In in I. destruct I as [I _].
        apply in_missing_constraints in I; [|exact SC]. destruct I as (I & IG & NP). cbn [added_constraint at_constraint] in E. subst.
        split; [|tauto]. repeat split. exists k'. auto.
    - intros [H NG].
      destruct i as [s0|s0 t0|s0 t0 c0|s0 t0 k0|s0 t0 x0|s0 t0 g0|s0 v0|s0 f0]; cbn [table_has] in H; try contradiction.
      + destruct H as [-> ->]. destruct (missing got) eqn:MG; [|exfalso; apply NG; auto].
        eexists. split; [rewrite !in_app_iff; right; right; left; cbn [negb]; now left|].
        unfold adds, create_table_adds; cbn [ct_table part_of]. rewrite ?TS, RS. auto.
      + destruct H as (-> & -> & l & I & IG & E). assert (NP : ~ present l_name l_ignore (objects (t_columns got_table)) c0) by tauto. clear NG.
        destruct (missing got) eqn:MG.
        * eexists. split; [rewrite !in_app_iff; right; right; left; cbn [negb]; now left|].
          unfold adds, create_table_adds; cbn [ct_table part_of]. rewrite ?TS, RS. split; [auto|]. exists l. auto.
        * assert (IA : In (mk_add_column (is_postgres d) l [] [] [] false) (added_columns d m got_table w)).
          { apply in_added_columns. exists l. subst c0. auto. }
          destruct (is_sqlite d) eqn:SQ.
          -- eexists. split.
             ++ rewrite !in_app_iff. right. right. right. left. cbn [negb]. unfold decompose_alter.
                cbn [a_add_columns a_drop_columns a_schema a_table map]. rewrite app_nil_r, map_map.
                apply in_map_iff. eexists. split; [reflexivity|exact IA].
             ++ unfold adds, alter_table_adds; cbn [with_add_columns plain_alter a_schema a_table a_add_columns part_of].
                rewrite ?TS, RS. split; [auto|]. eexists. split; [now left|exact E].
          -- eexists. split.
             ++ rewrite !in_app_iff. right. right. right. left. cbn [negb a_add_columns].
                match goal with |- In _ (if ?b then _ else _) => replace b with false end; [left; reflexivity|].
                destruct (added_columns d m got_table w); [destruct IA|reflexivity].
             ++ unfold adds, alter_table_adds; cbn [a_schema a_table a_add_columns part_of]. rewrite ?TS, RS. split; [auto|].
                eexists. split; [exact IA|exact E].
      + destruct H as (-> & -> & k & I & IG & E). assert (NP : ~ present c_name c_ignore (objects (t_constraints got_table)) k0) by tauto. clear NG.
        assert (IM : In k (missing_constraints d got_table w)).
        { apply in_missing_constraints; [exact SC|]. subst k0. auto. }
        cbn [in_scope] in SC.
        destruct (is_foreign_key k) eqn:FK.
        * assert (IF : In k (filter is_foreign_key (missing_constraints d got_table w))) by (apply filter_In; auto).
          eexists. split.
          -- rewrite !in_app_iff. right. right. right. right.
             match goal with |- In _ (if ?b then _ else _) => replace b with false end; [left; reflexivity|].
             destruct (filter is_foreign_key (missing_constraints d got_table w)); [destruct IF|reflexivity].
          -- unfold adds, alter_table_adds; cbn [a_schema a_table a_add_constraints part_of]. rewrite ?TS, RS. split; [auto|].
             exists (added_constraint k). split; [now apply in_map|exact E].
        * destruct (missing got) eqn:MG.
          -- eexists. split; [rewrite !in_app_iff; right; right; left; cbn [negb]; now left|].
             unfold adds, create_table_adds; cbn [ct_table part_of]. rewrite ?TS, RS. split; [auto|]. exists k. repeat split; auto.
             right. intros X. unfold is_foreign_key, FOREIGN_KEY in FK. rewrite X in FK. discriminate.
          -- assert (IA : In (added_constraint k) (map added_constraint (filter (fun c => negb (is_foreign_key c)) (missing_constraints d got_table w)))).
             { apply in_map, filter_In. rewrite FK. auto. }
             eexists. split.
             ++ rewrite !in_app_iff. right. right. right. left. cbn [negb a_add_constraints]. rewrite not_sqlite by exact SC.
                match goal with |- In _ (if ?b then _ else _) => replace b with false end; [left; reflexivity|].
                destruct (map added_constraint _) eqn:MM; [destruct IA|]. cbn [is_nil]. now rewrite !andb_false_r.
             ++ unfold adds, alter_table_adds; cbn [a_schema a_table a_add_constraints part_of]. rewrite ?TS, RS. split; [auto|].
                exists (added_constraint k). split; [exact IA|exact E].
      + destruct H as (-> & -> & x & I & IG & E). assert (NP : ~ present x_name x_ignore (objects (t_indexes got_table)) x0) by tauto. clear NG.
        assert (IM : In (mk_create_index false (negb (is_mysql d)) x false) (missing_indexes d got_table w)).
        { apply in_missing_indexes. exists x. subst x0. auto. }
        destruct (XW _ I) as [E1 E2].
        destruct (is_mysql d) eqn:MY.
        * destruct (missing got) eqn:MG.
          -- eexists. split; [rewrite !in_app_iff; right; right; left; cbn [negb]; now left|].
             unfold adds, create_table_adds; cbn [ct_table ct_indexes part_of]. rewrite ?TS, RS. split; [auto|]. eexists. split; [exact IM|exact E].
          -- eexists. split.
             ++ rewrite !in_app_iff. right. right. right. left. cbn [negb andb a_create_indexes].
                replace (is_sqlite d) with false by (apply is_mysql_eq in MY; now rewrite MY).
                match goal with |- In _ (if ?b then _ else _) => replace b with false end; [left; reflexivity|].
                destruct (missing_indexes _ _ _) eqn:MM; [destruct IM|]. cbn [is_nil]. now rewrite !andb_false_r.
             ++ unfold adds, alter_table_adds; cbn [a_schema a_table a_create_indexes part_of]. rewrite ?TS, RS. split; [auto|].
                eexists. split; [exact IM|exact E].
        * eexists. split; [rewrite !in_app_iff; left; apply in_map; exact IM|].
          cbn [adds ci_index]. now rewrite E1, RS, E2, E.
      + destruct H as (-> & -> & g & I & IG & E). assert (NP : ~ present g_name g_ignore (objects (t_triggers got_table)) g0) by tauto. clear NG.
        destruct (TW _ I) as [E1 E2].
        eexists. split.
        * rewrite !in_app_iff. right. left. apply in_missing_triggers. exists g. split; [reflexivity|]. subst g0. auto.
        * cbn [adds cg_trigger]. now rewrite E1, RS, E2, E.
  Qed.
End CreateTable.

(** ** One schema of the create phase *)
Lemma is_empty_false : forall s : bytes, s <> [] -> is_empty s = false.
Proof. intros [|c s] H; [congruence|reflexivity]. Qed.
Lemma find_table_spec : forall c t, good_slice t_name t_ignore false c -> In t (objects c) -> t_ignore t = false ->
  find_table (t_name t) c = Some t.
Proof. intros c t G I IG. unfold find_table. now apply found_here. Qed.
Lemma empty_schema_good : forall d current s, s <> [] \/ current = [] -> good_schema d current (empty_schema s).
Proof.
  intros d current s H. unfold good_schema. cbn [empty_schema s_name s_tables s_views s_functions].
  split; [exact H|]. split; [apply cached_new_good|]. split; [intros t []|]. split; [apply cached_new_good|].
  split; [intros v []|]. split; [|intros f []]. split; [intros f []|]. intros n NE. cbn.
  split; [intros H0; exfalso; apply H0; unfold flookup; destruct (is_empty n); reflexivity|]. intros (a & [] & _).
Qed.
Section CreateSchema.
  Variables (d : dialect) (m : mode) (current : bytes).
  Hypothesis CM : create_missing m = true.
  Variables (got : cached schema) (w : schema).
  Hypothesis GG : good_slice s_name s_ignore true got.
  Hypothesis GGS : forall g, In g (objects got) -> good_schema d current g.
  Hypothesis GW : good_schema d current w.
  Hypothesis WI : s_ignore w = false.
  Hypothesis WV : forall v, In v (objects (s_views w)) -> v_indexes v = [] /\ v_triggers v = [].

  Let fs := find_schema (s_name w) got.
  Let gs := match fs with Some s => s | None => empty_schema (s_name w) end.

  Lemma gs_good : good_schema d current gs /\ s_name gs = s_name w.
  Proof.
    unfold gs. destruct fs as [g|] eqn:F.
    - apply found_some in F. destruct F as (I & _ & E). split; [now apply GGS|exact E].
    - split; [|reflexivity]. apply empty_schema_good. apply GW.
  Qed.
  Definition in_got_schema (i : item) : Prop := exists g, fs = Some g /\ schema_has g i.
  Lemma in_got_gs : forall i, (forall s, i <> ISchema s) -> (in_got_schema i <-> schema_has gs i).
  Proof.
    intros i NS. unfold in_got_schema, gs. destruct fs as [g|] eqn:F.
    - split; [intros (x & E & H); assert (x = g) by congruence; now subst x|]. intros H. exists g. auto.
    - split; [intros (x & E & _); discriminate|]. intros H. exfalso.
      destruct i; cbn [schema_has empty_schema s_name s_tables s_views s_functions cached_new fcached_new objects fobjects] in H;
        try (now destruct H as (t0 & [] & _)); try (destruct H as (_ & a & [] & _)). now eapply NS.
  Qed.
  Lemma schema_name_here : (if is_empty (s_name w) then current else s_name w) = s_name w.
  Proof.
    destruct GW as [H _]. destruct (s_name w) eqn:E; cbn [is_empty]; [|reflexivity].
    destruct H; congruence.
  Qed.
  Lemma schema_adds : forall i, in_scope d i ->
    (exists c, In c (create_schema_cmds d m current got w) /\ adds d current c i) <-> schema_has w i /\ ~ in_got_schema i.
  Proof.
    intros i SC. unfold create_schema_cmds. rewrite WI, schema_name_here. cbv zeta. fold fs. fold gs. rewrite CM.
    destruct gs_good as [GSG GSN]. unfold good_schema in GSG. destruct GSG as (GC & GTS & GTG & GVS & GVN & GFS & GFN). destruct GW as (CUR & TS & TG & VS & VN & FS & FN).
    assert (RS : resolve current (s_name w) = s_name w) by now apply resolve_id.
    assert (TA : forall t, In t (objects (s_tables w)) -> t_ignore t = false -> forall i, in_scope d i ->
      (exists c, In c (create_table_cmds d m gs t) /\ adds d current c i) <->
      table_has (s_name w) t i /\ ~ (exists g, find_table (t_name t) (s_tables gs) = Some g /\ table_has (s_name w) g i)).
    { intros t I IG j SJ. apply table_adds; auto. rewrite <- GSN. exact GTG. }
    assert (TI : forall t, t_ignore t = true -> create_table_cmds d m gs t = []).
    { intros t IG. unfold create_table_cmds. now rewrite IG. }
    split.
    - intros (c & I & AD). rewrite !in_app_iff, !in_flat_map in I.
      destruct I as [I|[(t & It & I)|[(v & Iv & I)|(f & If & I)]]].
      + destruct (missing fs) eqn:MF; cbn [andb] in I; [|destruct I].
        destruct (is_empty (s_name w)) eqn:EM; cbn [negb] in I; [destruct I|]. destruct I as [<-|[]].
        cbn [adds cs_name] in AD. subst i. cbn [schema_has]. split; [reflexivity|]. intros (g & E & _).
        rewrite E in MF. discriminate.
      + destruct (t_ignore t) eqn:IG; [rewrite TI in I by exact IG; destruct I|].
        pose proof (proj1 (TA t It IG i SC) (ex_intro _ c (conj I AD))) as [H N].
        assert (NS : forall s, i <> ISchema s) by (intros s ->; exact H).
        rewrite in_got_gs by exact NS.
        destruct i as [s0|s0 t0|s0 t0 c0|s0 t0 k0|s0 t0 x0|s0 t0 g0|s0 v0|s0 f0]; cbn [table_has] in H; try contradiction; cbn [schema_has];
          (split; [exists t; auto|intros (g & Ig & IGg & Hg); apply N; exists g; split;
            [assert (NE : t_name t = t_name g) by (cbn [table_has] in Hg; intuition congruence); rewrite NE;
             apply find_table_spec; auto|now rewrite GSN in Hg]]).
      + unfold create_view_cmds in I. destruct (v_ignore v) eqn:IG; [destruct I|].
        destruct (find_view (v_name v) (s_views gs)) as [x|] eqn:F; [destruct I|].
        destruct (WV _ Iv) as [E1 E2]. rewrite E1, E2 in I. cbn [filter map app] in I.
        destruct (v_materialized v && is_postgres d); (destruct I as [<-|[]]);
        (cbn [adds cv_view] in AD; rewrite (VN _ Iv), RS in AD; subst i; cbn [schema_has];
          (split; [split; [reflexivity|]; exists v; auto|]);
          rewrite in_got_gs by discriminate; cbn [schema_has]; intros [_ P];
          revert P; apply (found_none v_name v_ignore false); [exact GVS|exact F]).
      + unfold create_function_cmds in I. destruct (is_sqlite d); [destruct I|].
        destruct (f_ignore f) eqn:IG; cbn [orb] in I; [destruct I|].
        destruct (has_function (f_name f) (s_functions gs)) eqn:HF; [destruct I|]. destruct I as [<-|[]].
        cbn [adds cf_function] in AD. rewrite (FN _ If), RS in AD. subst i. cbn [schema_has].
        split; [split; [reflexivity|]; exists f; auto|]. rewrite in_got_gs by discriminate. cbn [schema_has]. intros [_ P].
        apply (proj2 (functions_spec _ _ GFS (proj1 FS _ If))) in P. congruence.
    - intros [H NG].
      assert (CT : forall t, In t (objects (s_tables w)) -> t_ignore t = false -> table_has (s_name w) t i ->
        (forall s, i <> ISchema s) ->
        (forall g, In g (objects (s_tables gs)) -> t_ignore g = false -> table_has (s_name w) g i -> schema_has gs i) ->
        exists c, (In c (flat_map (create_table_cmds d m gs) (objects (s_tables w)))) /\ adds d current c i).
      { intros t It IG HT NS UP. destruct (proj2 (TA t It IG i SC)) as (c & I & AD).
        - split; [exact HT|]. intros (g & F & Hg). apply NG. apply in_got_gs; [exact NS|].
          apply found_some in F. destruct F as (Ig & IGg & _). now apply (UP g).
        - exists c. split; [|exact AD]. apply in_flat_map. eauto. }
      assert (WR : forall c, (In c (flat_map (create_table_cmds d m gs) (objects (s_tables w)))) /\ adds d current c i ->
        exists c, In c ((if missing fs && true && negb (is_empty (s_name w)) then [KCreateSchema (mk_create_schema true (s_name w) false)] else [])
          ++ flat_map (create_table_cmds d m gs) (objects (s_tables w)) ++ flat_map (create_view_cmds d gs) (objects (s_views w))
          ++ flat_map (create_function_cmds d gs) (fobjects (s_functions w))) /\ adds d current c i).
      { intros c [I AD]. exists c. split; [|exact AD]. rewrite !in_app_iff. auto. }
      destruct i as [s0|s0 t0|s0 t0 c0|s0 t0 k0|s0 t0 x0|s0 t0 g0|s0 v0|s0 f0]; cbn [schema_has] in H;
        try (destruct H as (t & It & IG & HT); destruct (CT t It IG HT) as (c & C);
          [discriminate|intros g Ig IGg Hg; cbn [schema_has]; rewrite GSN; eauto|now apply (WR c)]).
      + subst s0. cbn [in_scope] in SC. exists (KCreateSchema (mk_create_schema true (s_name w) false)).
        split; [|reflexivity]. apply in_or_app. left. destruct (missing fs) eqn:MF.
        * rewrite (is_empty_false _ SC). now left.
        * exfalso. apply NG. assert (X : exists g, fs = Some g) by (destruct fs as [g|]; [now exists g|discriminate]).
          destruct X as [g F]. exists g. split; [exact F|]. cbn [schema_has].
          apply found_some in F. symmetry. apply F.
      + destruct H as [-> (v & Iv & IG & E)]. eexists. split.
        * rewrite !in_app_iff, !in_flat_map. right. right. left. exists v. split; [exact Iv|]. unfold create_view_cmds. rewrite IG.
          destruct (find_view (v_name v) (s_views gs)) as [x|] eqn:F; [|left; reflexivity].
          exfalso. apply NG. rewrite in_got_gs by discriminate. cbn [schema_has]. split; [now symmetry|].
          apply found_some in F. exists x. intuition congruence.
        * cbn [adds cv_view]. now rewrite (VN _ Iv), RS, E.
      + destruct H as [-> (f & If & IG & E)]. eexists. split.
        * rewrite !in_app_iff, !in_flat_map. right. right. right. exists f. split; [exact If|]. unfold create_function_cmds. rewrite IG.
          rewrite not_sqlite by exact SC. cbn [orb].
          destruct (has_function (f_name f) (s_functions gs)) eqn:HF; [|left; reflexivity].
          exfalso. apply NG. rewrite in_got_gs by discriminate. cbn [schema_has]. split; [now symmetry|].
          apply functions_spec in HF; [now rewrite <- E|exact GFS|now apply (proj1 FS)].
        * cbn [adds cf_function]. now rewrite (FN _ If), RS, E.
  Qed.
End CreateSchema.
