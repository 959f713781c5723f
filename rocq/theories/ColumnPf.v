(** * ColumnPf: proofs for C46, C47 *)
From Coq Require Import Lia.
From Verif Require Import GoBase GoBaseFacts QuoteModel EffectModel BuildModel CacheModel UpsertModel DdlModel MigrateModel
  SpecMigrate SpecColumn MigrateFacts MigrateDb MigrateRun MigratePf.

(** ** Types *)
Lemma lower_same : forall x y, lower x = lower y <-> same_letter x y.
Proof.
  assert (X : forall x y, (if ascii_dec (lower x) (lower y) then true else false) =
    (Ascii.eqb x y || ((65 <=? ord x) && (ord x <=? 90) && (ord y =? ord x + 32)) || ((65 <=? ord y) && (ord y <=? 90) && (ord x =? ord y + 32)))%N).
  { intros x y. apply Bool.eqb_prop.
    assert (Y : forall x, In x (map ascii_of_nat (List.seq 0 256))).
    { intros z. apply in_map_iff. exists (nat_of_ascii z). split; [apply ascii_nat_embedding|].
      apply in_seq. pose proof (nat_ascii_bounded z). lia. }
    assert (Z : forallb (fun x => forallb (fun y => Bool.eqb (Ascii.eqb (lower x) (lower y))
       (Ascii.eqb x y || ((65 <=? ord x) && (ord x <=? 90) && (ord y =? ord x + 32)) || ((65 <=? ord y) && (ord y <=? 90) && (ord x =? ord y + 32)))%N)
       (map ascii_of_nat (List.seq 0 256))) (map ascii_of_nat (List.seq 0 256)) = true) by (vm_compute; reflexivity).
    rewrite forallb_forall in Z. specialize (Z x (Y x)). rewrite forallb_forall in Z. specialize (Z y (Y y)).
    assert (W : (if ascii_dec (lower x) (lower y) then true else false) = Ascii.eqb (lower x) (lower y)).
    { destruct (ascii_dec (lower x) (lower y)) as [E|N]; symmetry; [now apply Ascii.eqb_eq|now apply Ascii.eqb_neq]. }
    rewrite W. exact Z. }
  intros x y. specialize (X x y). unfold same_letter. split; intros H.
  - destruct (ascii_dec (lower x) (lower y)) as [_|N]; [|congruence]. symmetry in X.
    rewrite !orb_true_iff, !andb_true_iff, Ascii.eqb_eq, !N.leb_le, !N.eqb_eq in X. tauto.
  - destruct (ascii_dec (lower x) (lower y)) as [E|N]; [exact E|]. symmetry in X.
    assert (F : (Ascii.eqb x y || ((65 <=? ord x) && (ord x <=? 90) && (ord y =? ord x + 32)) || ((65 <=? ord y) && (ord y <=? 90) && (ord x =? ord y + 32)))%N = true).
    { rewrite !orb_true_iff, !andb_true_iff, Ascii.eqb_eq, !N.leb_le, !N.eqb_eq. tauto. }
    congruence.
Qed.
Lemma equal_fold_same : forall a b, equal_fold a b = true <-> same_type a b.
Proof.
  intros a b. unfold equal_fold, same_type. rewrite beqb_eq. revert b. induction a as [|x a IH]; intros [|y b]; cbn [map].
  - split; [constructor|reflexivity].
  - split; [discriminate|intros H; inversion H].
  - split; [discriminate|intros H; inversion H].
  - split; intros H.
    + injection H as H1 H2. constructor; [now apply lower_same|now apply IH].
    + inversion H; subst. f_equal; [now apply lower_same|now apply IH].
Qed.
Lemma same_type_refl : forall a, same_type a a.
Proof. intros a. apply equal_fold_same. unfold equal_fold. now apply beqb_eq. Qed.

Lemma empty_changed : forall a b : bytes,
  negb (is_empty a) && is_empty b = true \/ is_empty a && negb (is_empty b) = true <-> (a = [] <-> b <> []).
Proof. intros [|x a] [|y b]; cbn; intuition congruence. Qed.
Lemma bool_changed : forall a b, a && negb b = true \/ negb a && b = true <-> a <> b.
Proof. intros [] []; cbn; intuition congruence. Qed.
Lemma diff_column_differs : forall d k l, snd (diff_column d k l) = true <-> differs d k l.
Proof.
  intros d k l. unfold diff_column, differs. cbn [snd].
  rewrite <- (empty_changed (l_default k)), <- (empty_changed (l_identity k)), <- bool_changed.
  assert (T : negb (equal_fold (l_type k) (l_type l)) = true <-> ~ same_type (l_type k) (l_type l)).
  { rewrite <- equal_fold_same, negb_true_iff. destruct (equal_fold _ _); intuition congruence. }
  rewrite <- T, !orb_true_iff. clear T.
  assert (P : is_postgres d = true <-> d = DPostgres) by (destruct d; cbn; intuition congruence).
  rewrite <- P, <- !andb_assoc. rewrite (andb_true_iff (is_postgres d) (negb _ && _)), (andb_true_iff (is_postgres d) (is_empty _ && _)).
  tauto.
Qed.

(** ** Definitions *)
Lemma creates_from_catalog : forall d m current got want w c, create_missing m = true ->
  In w (objects (d_schemas want)) -> In c (create_schema_cmds d m current got w) -> from_catalog want c.
Proof.
  intros d m current got want w c CM Iw I. unfold create_schema_cmds in I. destruct (s_ignore w) eqn:IG; [destruct I|].
  cbv zeta in I. rewrite !in_app_iff, !in_flat_map in I. destruct I as [I|[(t & It & I)|[(v & Iv & I)|(f & If & I)]]].
  - in_sing I. exact Logic.I.
  - unfold create_table_cmds in I. destruct (t_ignore t) eqn:TI; [destruct I|]. cbv zeta in I. rewrite CM in I.
    assert (HT : has_table want (s_name w) t) by (exists w; auto).
    assert (XI : forall g x, In x (missing_indexes d g t) -> table_index t (ci_index x)).
    { intros g x J. unfold missing_indexes in J. apply in_map_iff in J. destruct J as (y & <- & J). apply filter_In in J.
      destruct J as [J K]. apply andb_prop in K. destruct K as [K _]. apply negb_true_iff in K. split; assumption. }
    assert (KI : forall g k, In k (missing_constraints d g t) -> table_constraint t k).
    { intros g k J. unfold missing_constraints in J. in_if J; [destruct J|]. apply filter_In in J.
      destruct J as [J K]. apply andb_prop in K. destruct K as [K _]. apply negb_true_iff in K. split; assumption. }
    assert (LI : forall g l, In l (added_columns d m g t) -> table_column t (al_column l)).
    { intros g l J. unfold added_columns in J. apply in_flat_map in J. destruct J as (y & J & K).
      destruct (l_ignore y) eqn:YI; [destruct K|]. destruct (find_column _ _); [destruct K|]. rewrite CM in K.
      destruct K as [<-|[]]. split; assumption. }
    rewrite !in_app_iff in I. destruct I as [I|[I|[I|[I|I]]]].
    + in_if I; [destruct I|]. apply in_map_iff in I. destruct I as (x & <- & I). left. exists (s_name w), t. eauto.
    + unfold missing_triggers in I. apply in_map_iff in I. destruct I as (x & <- & I). left. exists (s_name w), t. split; [exact HT|].
      apply filter_In in I. destruct I as [J K]. apply andb_prop in K. destruct K as [K _]. apply negb_true_iff in K. split; assumption.
    + in_if I; [destruct I|]. destruct I as [<-|[]]. exists (s_name w). cbn [ct_table ct_indexes]. split; [exact HT|].
      intros x J. in_if J; [eauto|destruct J].
    + destruct (is_sqlite d) eqn:SQ.
      * apply in_map_iff in I. destruct I as (a & <- & I). unfold decompose_alter in I.
        cbn [a_add_columns a_drop_columns a_schema a_table map] in I. rewrite app_nil_r in I. apply in_map_iff in I.
        destruct I as (y & <- & J). exists (s_name w), t. cbn [with_add_columns plain_alter a_schema a_table a_add_columns a_add_constraints a_create_indexes].
        split; [exact HT|]. split; [reflexivity|]. split; [reflexivity|]. split; [|split; intros ? []].
        intros l [<-|[]]. in_if J; [eauto|destruct J].
      * in_if I; [destruct I|]. destruct I as [<-|[]]. exists (s_name w), t.
        cbn [a_schema a_table a_add_columns a_add_constraints a_create_indexes].
        split; [exact HT|]. split; [reflexivity|]. split; [reflexivity|]. split; [intros l J; in_if J; [eauto|destruct J]|].
        split; [|intros x J; in_if J; [eauto|destruct J]].
        intros k J. in_if J; [|destruct J]. apply in_map_iff in J. destruct J as (y & <- & J). apply filter_In in J.
        destruct J as [J K]. cbn [added_constraint at_constraint]. split; [eauto|]. split; [|intros [a' E]; discriminate].
        intros E. apply negb_true_iff in K. unfold is_foreign_key in K. rewrite E in K. discriminate.
    + in_if I; [destruct I|]. destruct I as [<-|[]]. exists (s_name w), t.
      cbn [a_schema a_table a_add_columns a_add_constraints a_create_indexes].
      split; [exact HT|]. split; [reflexivity|]. split; [reflexivity|]. split; [intros ? []|]. split; [|intros ? []].
      intros k J. apply in_map_iff in J. destruct J as (y & <- & J). apply filter_In in J. destruct J as [J K].
      cbn [added_constraint at_constraint]. split; [eauto|]. split; [eauto|]. intros _. now apply beqb_eq.
  - unfold create_view_cmds in I. destruct (v_ignore v) eqn:VI; [destruct I|]. destruct (find_view _ _); [destruct I|].
    assert (HV : has_view want v) by (exists w; auto).
    destruct I as [<-|I]; [exact HV|]. cbn [app] in I. destruct (v_materialized v && is_postgres d) eqn:VM; [|destruct I].
    apply andb_prop in VM. destruct VM as [VM _].
    apply in_app_or in I. destruct I as [I|I]; apply in_map_iff in I; destruct I as (x & <- & J); apply filter_In in J; destruct J as [J _];
      right; exists v; auto.
  - unfold create_function_cmds in I. destruct (is_sqlite d || f_ignore f || _) eqn:E; [destruct I|]. destruct I as [<-|[]].
    exists w. apply orb_false_iff in E. destruct E as [E _]. apply orb_false_iff in E. cbn [cf_function]. tauto.
Qed.
Lemma missing_extensions_incl : forall es s es' s', missing_extensions es s = Some (es', s') -> incl es' es.
Proof.
  induction es as [|e es IH]; intros s es' s' E x I; cbn [missing_extensions] in E.
  - assert (es' = []) by congruence. subst. exact I.
  - destruct (ext_lookup e s) as [[[i|]| |] s1]; try discriminate.
    + right. now apply (IH _ _ _ E).
    + destruct (missing_extensions es s1) as [[l s2]|] eqn:E2; [|discriminate]. cbn [option_map fst snd] in E.
      assert (es' = e :: l) by congruence. subst es'. destruct I as [<-|I]; [now left|right; now apply (IH _ _ _ E2)].
Qed.
Lemma drops_not_create : forall want c, is_create c = false -> from_catalog want c.
Proof. intros want [] H; try discriminate H; exact Logic.I. Qed.
Lemma definitions_from_catalog : forall m got want mg c, migrate m got want = Ok mg -> create_missing m = true ->
  In c (m_cmds mg) -> from_catalog want c.
Proof.
  intros m got want mg c MG CM I. destruct (migrate_shape _ _ _ _ MG) as (_ & es & s & es' & s' & E & X1 & X2). rewrite E in I.
  apply in_app_or in I. destruct I as [I|I].
  - rewrite CM in I. cbn [orb] in I. apply in_app_or in I. destruct I as [I|I].
    + apply in_map_iff in I. destruct I as (e & <- & I). cbn [from_catalog ce_extension].
      destruct X1 as [[-> _]|X1]; [destruct I|]. now apply (missing_extensions_incl _ _ _ _ X1).
    + apply in_flat_map in I. destruct I as (w & Iw & I). eapply creates_from_catalog; eauto.
  - apply drops_not_create. in_if I; [|destruct I]. apply in_app_or in I. destruct I as [I|I].
    + in_if I; [destruct I|]. destruct I as [<-|[]]. reflexivity.
    + apply (drops_kind _ _ _ _ _ I).
Qed.

(** ** Changed columns *)
Definition altered (d : dialect) (k l : column) : alter_column :=
  let c := fst (diff_column d k l) in
  if is_mysql d
  then mk_alter_column l (ac_drop_default c) (ac_drop_not_null c) false false (ac_drop_identity c) (ac_drop_identity_if_exists c) [] false
  else c.
Lemma altered_alteration : forall d k l, alteration d k l (altered d k l).
Proof.
  intros d k l. unfold alteration, altered. destruct d; cbn [is_mysql effect ac_column]; auto.
  - cbn [diff_column fst effect ac_column ac_drop_identity ac_drop_not_null ac_drop_default l_type l_identity l_not_null l_default is_postgres].
    assert (T : negb (equal_fold (l_type k) (l_type l)) = true <-> ~ same_type (l_type k) (l_type l)).
    { rewrite <- equal_fold_same, negb_true_iff. destruct (equal_fold _ _); intuition congruence. }
    assert (T' : negb (equal_fold (l_type k) (l_type l)) = false <-> same_type (l_type k) (l_type l)).
    { rewrite <- equal_fold_same, negb_false_iff. reflexivity. }
    split; [|split; [|split; [|split; [|split; [|split]]]]].
    + intros S. apply T' in S. now rewrite S.
    + intros S NE. apply T in S. rewrite S. destruct (l_type l); [congruence|reflexivity].
    + destruct (l_not_null k), (l_not_null l); reflexivity.
    + intros H. destruct (l_default k), (l_default l); cbn; try reflexivity; exfalso; intuition congruence.
    + intros H. destruct (l_default k), (l_default l); cbn; try reflexivity; exfalso; apply H; intuition congruence.
    + intros H. destruct (l_identity k), (l_identity l); cbn; try reflexivity; exfalso; intuition congruence.
    + intros H. destruct (l_identity k), (l_identity l); cbn; try reflexivity; exfalso; apply H; intuition congruence.
Qed.
Lemma in_altered : forall d m g w a, update_existing m = true ->
  (In a (altered_columns d m g w) <-> exists k l, table_column w l /\ find_column (l_name l) (t_columns g) = Some k /\
     differs d k l /\ a = altered d k l).
Proof.
  intros d m g w a UE. unfold altered_columns. rewrite in_flat_map. split.
  - intros (l & I & H). destruct (l_ignore l) eqn:IG; [destruct H|]. destruct (find_column _ _) as [k|] eqn:F; [|destruct H].
    rewrite UE in H. destruct (diff_column d k l) as [c diff] eqn:D. destruct diff; [|destruct H]. destruct H as [<-|[]].
    exists k, l. split; [split; assumption|]. split; [exact F|]. split; [apply diff_column_differs; now rewrite D|].
    unfold altered. now rewrite D.
  - intros (k & l & [I IG] & F & D & ->). exists l. split; [exact I|]. rewrite IG, F, UE.
    apply diff_column_differs in D. unfold altered. destruct (diff_column d k l) as [c diff]. cbn [fst snd] in *. subst diff. now left.
Qed.
Definition alters_here (d : dialect) (m : mode) (current : bytes) (got : cached schema) (w : schema) (s t : bytes) (ac : alter_column) : Prop :=
  exists a, In (KAlterTable a) (create_schema_cmds d m current got w) /\ a_schema a = s /\ a_table a = t /\ In ac (a_alter_columns a).
Lemma alter_in_table : forall d m gs w a ac, In (KAlterTable a) (create_table_cmds d m gs w) -> In ac (a_alter_columns a) ->
  d <> DSQLite /\ t_ignore w = false /\ a_schema a = t_schema w /\ a_table a = t_name w /\
  exists g, find_table (t_name w) (s_tables gs) = Some g /\ In ac (altered_columns d m g w).
Proof.
  intros d m gs w a ac I J. unfold create_table_cmds in I. destruct (t_ignore w); [destruct I|]. cbv zeta in I.
  rewrite !in_app_iff in I. destruct I as [I|[I|[I|[I|I]]]].
  - in_if I; [destruct I|]. apply in_map_iff in I. destruct I as (x & E & _). discriminate.
  - unfold missing_triggers in I. apply in_map_iff in I. destruct I as (x & E & _). discriminate.
  - in_if I; [destruct I|]. destruct I as [E|[]]. discriminate.
  - destruct (is_sqlite d) eqn:SQ.
    + apply in_map_iff in I. destruct I as (x & E & I). assert (x = a) by congruence. subst x. unfold decompose_alter in I.
      cbn [a_add_columns a_drop_columns a_schema a_table map] in I. rewrite app_nil_r in I. apply in_map_iff in I.
      destruct I as (y & <- & _). destruct J.
    + in_if I; [destruct I|]. destruct I as [E|[]].
      match type of E with KAlterTable ?x = _ => assert (Ea : x = a) by congruence end. subst a. clear E.
      cbn [a_schema a_table a_alter_columns] in *. split; [intros ->; discriminate|]. repeat split.
      destruct (find_table (t_name w) (s_tables gs)) as [g|]; cbn [missing negb] in J; [eauto|destruct J].
  - in_if I; [destruct I|]. destruct I as [E|[]]. discriminate.
Qed.
Lemma alter_to_table : forall d m gs w g ac, d <> DSQLite -> t_ignore w = false -> find_table (t_name w) (s_tables gs) = Some g ->
  In ac (altered_columns d m g w) ->
  exists a, In (KAlterTable a) (create_table_cmds d m gs w) /\ a_schema a = t_schema w /\ a_table a = t_name w /\ In ac (a_alter_columns a).
Proof.
  intros d m gs w g ac ND TI F I. unfold create_table_cmds. rewrite TI, F. cbv zeta. cbn [missing negb].
  rewrite (not_sqlite d ND). eexists. split.
  - rewrite !in_app_iff. right. right. right. left. cbn [a_add_columns a_alter_columns a_add_constraints a_create_indexes].
    rewrite (is_nil_false _ _ _ I), andb_false_r. cbn [andb]. left. reflexivity.
  - cbn [a_schema a_table a_alter_columns]. auto.
Qed.
Lemma columns_updated : forall m got want mg, migrate m got want = Ok mg -> update_existing m = true ->
  catalog (dialect_of (m_dialect mg)) (d_current got) got -> catalog (dialect_of (m_dialect mg)) (d_current got) want -> extensions_apart got (d_extensions want) ->
  let d := dialect_of (m_dialect mg) in
  (forall a ac, In (KAlterTable a) (m_cmds mg) -> In ac (a_alter_columns a) ->
     d <> DSQLite /\ exists k l, has_column got (a_schema a) (a_table a) k /\ has_column want (a_schema a) (a_table a) l /\
       l_name k = l_name l /\ differs d k l /\ alteration d k l ac) /\
  (forall s t k l, d <> DSQLite -> has_column got s t k -> has_column want s t l -> l_name k = l_name l -> differs d k l ->
     exists a ac, In (KAlterTable a) (m_cmds mg) /\ a_schema a = s /\ a_table a = t /\ In ac (a_alter_columns a) /\ alteration d k l ac).
Proof.
  intros m got want mg MG UE CG CW XG d.
  destruct (migrate_shape _ _ _ _ MG) as (_ & es & s0 & es' & s' & E & X1 & X2). fold (dialect_here mg) in d.
  assert (GG : good_slice s_name s_ignore true (schemas_after s0 got)).
  { destruct X1 as [[_ ->]|X1].
    - unfold schemas_after, ext_state_of. cbn [x_schema_cache]. destruct CG as [GG _]. destruct (d_schemas got). exact GG.
    - apply (schemas_after_good got (d_extensions want) es s0); [apply CG|exact XG|exact X1]. }
  rewrite UE, orb_true_r in E. split.
  - intros a ac I J. rewrite E in I. rewrite !in_app_iff in I. destruct I as [[I|I]|I].
    + apply in_map_iff in I. destruct I as (e & EQ & _). discriminate.
    + apply in_flat_map in I. destruct I as (w & Iw & I). unfold create_schema_cmds in I.
      destruct (s_ignore w) eqn:WI; [destruct I|]. cbv zeta in I. rewrite !in_app_iff, !in_flat_map in I.
      destruct I as [I|[(t & It & I)|[(v & _ & I)|(f & _ & I)]]].
      { in_if I; [|destruct I]. destruct I as [EQ|[]]. discriminate. }
      2:{ unfold create_view_cmds in I. destruct (v_ignore v); [destruct I|]. destruct (find_view _ _); [destruct I|].
          destruct I as [EQ|I]; [discriminate|]. cbn [app] in I. in_if I; [|destruct I]. apply in_app_or in I.
          destruct I as [I|I]; apply in_map_iff in I; destruct I as (x & EQ & _); discriminate. }
      2:{ unfold create_function_cmds in I. in_if I; [destruct I|]. destruct I as [EQ|[]]. discriminate. }
      pose proof (proj2 CW w Iw) as GS. pose proof GS as (_ & _ & GT & _). specialize (GT t It). destruct GT as [TS _].
      assert (NM : (if is_empty (s_name w) then d_current got else s_name w) = s_name w).
      { destruct GS as [H _]. destruct (s_name w) eqn:Q; cbn [is_empty]; [destruct H; congruence|reflexivity]. }
      rewrite NM in I. clear NM.
      destruct (alter_in_table _ _ _ _ _ _ I J) as (ND & TI & E1 & E2 & g & F & K). split; [exact ND|].
      apply in_altered in K; [|exact UE]. destruct K as (k & l & TL & FC & D & ->). exists k, l.
      rewrite E1, E2, TS. apply found_some in F. destruct F as (Ig & IG & NG). apply found_some in FC. destruct FC as (Ik & KI & KN).
      split.
      { exists g. split; [|split; [exact NG|split; assumption]].
        destruct (find_schema (s_name w) (schemas_after s0 got)) as [gs|] eqn:FS.
        - apply found_some in FS. destruct FS as (Is & SI & SN). exists gs. auto.
        - destruct Ig. }
      split; [exists t; split; [exists w; auto|split; [reflexivity|exact TL]]|].
      split; [exact KN|]. split; [exact D|apply altered_alteration].
    + exfalso. in_if I; [|destruct I]. apply in_app_or in I. destruct I as [I|I].
      * in_if I; [destruct I|]. destruct I as [EQ|[]]. discriminate.
      * apply drops_kind in I. destruct I as [I _]. discriminate.
  - intros s t k l ND (gt & (gs & Igs & GI & GN & Igt & GTI) & GTN & Ik & KI) (wt & (ws & Iws & WI & WN & Iwt & WTI) & WTN & Il & LI) KL D.
    pose proof (proj2 CG gs Igs) as Ggs. pose proof (proj2 CW ws Iws) as Gws.
    assert (FS : find_schema (s_name ws) (schemas_after s0 got) = Some gs).
    { unfold find_schema. apply found_here; auto. congruence. }
    assert (NM : (if is_empty (s_name ws) then d_current got else s_name ws) = s_name ws).
    { destruct Gws as [H _]. destruct (s_name ws) eqn:Q; cbn [is_empty]; [destruct H; congruence|reflexivity]. }
    assert (FT : find_table (t_name wt) (s_tables gs) = Some gt).
    { unfold find_table. apply found_here; auto; [apply Ggs|congruence]. }
    assert (FC : find_column (l_name l) (t_columns gt) = Some k).
    { unfold find_column. apply found_here; auto. destruct Ggs as (_ & _ & GT & _). apply (GT gt Igt). }
    destruct (alter_to_table d m gs wt gt (altered d k l) ND WTI FT) as (a & I & A1 & A2 & A3).
    { apply in_altered; [exact UE|]. exists k, l. repeat split; auto. }
    exists a, (altered d k l). split.
    { rewrite E, in_app_iff. left. rewrite in_app_iff. right. apply in_flat_map. exists ws. split; [exact Iws|].
      unfold create_schema_cmds. rewrite WI. cbv zeta. rewrite NM, FS, !in_app_iff. right. left.
      apply in_flat_map. exists wt. split; [exact Iwt|exact I]. }
    assert (TS : t_schema wt = s) by (destruct Gws as (_ & _ & GT & _); destruct (GT wt Iwt) as [TS _]; congruence).
    split; [congruence|]. split; [congruence|]. split; [exact A3|apply altered_alteration].
Qed.
