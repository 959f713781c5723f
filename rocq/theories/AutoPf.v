(** * AutoPf: proofs for AutoMigrate (C61) *)
From Coq Require Import Lia.
From Verif Require Import GoBase GoBaseFacts QuoteModel BuildModel CacheModel SpecCache CacheFacts CacheFnFacts UpsertModel TokenModel DdlModel MigrateModel LoadModel LoadFacts
  LoadGood TriggerModel TriggerStore ViewModel DbModel SpecMigrate SpecColumn SpecDb SpecDeclare DbPf DbRows DbRead DbCatalog DbLoad SpecAuto.

Section Numeric.
  Context (numeric : bytes -> bool) (d : QuoteModel.dialect).
  Lemma in_tables t s xs : In t (tables_in s xs) <-> In (DTable t) xs /\ t_schema t = s.
  Proof.
    unfold tables_in. rewrite in_flat_map. split.
    - intros (x & I & H). destruct x as [t'| |]; [|destruct H|destruct H]. destruct (beqb (t_schema t') s) eqn:E; [|destruct H]. destruct H as [->|[]]. apply beqb_eq in E. auto.
    - intros (I & <-). exists (DTable t). split; [exact I|]. rewrite beqb_refl. now left.
  Qed.
  Lemma in_views v s xs : In v (views_in s xs) <-> In (DView v) xs /\ v_schema v = s.
  Proof.
    unfold views_in. rewrite in_flat_map. split.
    - intros (x & I & H). destruct x as [|v'|]; [destruct H| |destruct H]. destruct (beqb (v_schema v') s) eqn:E; [|destruct H]. destruct H as [->|[]]. apply beqb_eq in E. auto.
    - intros (I & <-). exists (DView v). split; [exact I|]. rewrite beqb_refl. now left.
  Qed.
  Lemma in_functions f s xs : In f (functions_in s xs) <-> In (DFunction f) xs /\ f_schema f = s.
  Proof.
    unfold functions_in. rewrite in_flat_map. split.
    - intros (x & I & H). destruct x as [| |f']; [destruct H|destruct H|]. destruct (beqb (f_schema f') s) eqn:E; [|destruct H]. destruct H as [->|[]]. apply beqb_eq in E. auto.
    - intros (I & <-). exists (DFunction f). split; [exact I|]. rewrite beqb_refl. now left.
  Qed.
  Lemma nodup_keys_tables s xs : NoDup (flat_map key_of xs) -> NoDup (map t_name (tables_in s xs)).
  Proof.
    induction xs as [|x xs IH]; intros D; [constructor|]. cbn [flat_map] in D. pose proof (IH ltac:(clear -D; induction (key_of x) as [|k l IH]; [exact D|inversion D; auto])) as N.
    unfold tables_in. cbn [flat_map]. fold (tables_in s xs). destruct x as [t| |]; [|exact N|exact N]. destruct (beqb (t_schema t) s) eqn:E; [|exact N]. cbn [app map]. constructor; [|exact N].
    intros I. apply tables_names in I. apply beqb_eq in E. cbn [key_of app] in D. inversion D as [|k l N1 N2]; subst. now apply N1.
  Qed.
  Lemma nodup_keys_views s xs : NoDup (flat_map key_of xs) -> NoDup (map v_name (views_in s xs)).
  Proof.
    induction xs as [|x xs IH]; intros D; [constructor|]. cbn [flat_map] in D. pose proof (IH ltac:(clear -D; induction (key_of x) as [|k l IH]; [exact D|inversion D; auto])) as N.
    unfold views_in. cbn [flat_map]. fold (views_in s xs). destruct x as [|v|]; [exact N| |exact N]. destruct (beqb (v_schema v) s) eqn:E; [|exact N]. cbn [app map]. constructor; [|exact N].
    intros I. apply views_names in I. apply beqb_eq in E. cbn [key_of app] in D. inversion D as [|k l N1 N2]; subst. now apply N1.
  Qed.
  (** What a declared table and view are like. *)
  Definition declared_ok (x : declared) : Prop :=
    match x with
    | DTable t => t_name t <> [] /\ ((forall g, In g (objects (t_triggers t)) -> g_schema g = t_schema t) -> good_table d (t_schema t) t)
    | DView v => v_name v <> [] /\ v_ignore v = false
    | DFunction _ => False
    end.
  Lemma declares_ok o i x : only_structs o -> In i (items_of o) -> declares numeric d i x -> declared_ok x.
  Proof.
    intros O I De. destruct De as [t t' L|v v' L|f f' r L N].
    - destruct (load_table_named _ _ _ _ _ _ _ _ L) as (Es & En). split.
      + rewrite En. unfold load_table in L. destruct (ts_name t); [discriminate|congruence].
      + intros G. rewrite Es in *. apply (load_table_good numeric d (ts_schema t) (ts_name t) (ts_fields t) (ts_ddl t) t' L); [|exact G].
        destruct o; cbn [items_of only_structs] in *; try contradiction; apply in_map_iff in I; destruct I as (t0 & E & I); try discriminate. injection E as ->. rewrite Forall_forall in O. apply (O _ I).
    - destruct (load_view_named _ _ _ _ _ _ L) as (Es & En). split.
      + rewrite En. unfold load_view in L. apply lbind_ok in L. destruct L as (st & L & _). unfold load_view_state in L. destruct (vw_name v); [discriminate|congruence].
      + unfold load_view in L. apply lbind_ok in L. destruct L as (st & _ & L). injection L as <-. reflexivity.
    - destruct o; cbn [items_of only_structs] in *; try contradiction; apply in_map_iff in I; destruct I as (t0 & E & I); discriminate.
  Qed.
  Lemma all_declares_ok opts xs : Forall only_structs opts -> Forall2 (declares numeric d) (flat_map items_of opts) xs -> forall x, In x xs -> declared_ok x.
  Proof.
    intros O F x I. destruct (forall2_in _ _ _ _ F I) as (i & Ii & De). apply in_flat_map in Ii. destruct Ii as (o & Io & Ii). rewrite Forall_forall in O. exact (declares_ok o i x (O o Io) Ii De).
  Qed.

  Section Held.
    Context (current dialect cur : bytes) (es : list bytes) (xs : list declared) (ss : cached db_schema).
    Hypothesis (H : all_hold xs ss) (K : NoDup (flat_map key_of xs)) (Ok : forall x, In x xs -> declared_ok x) (M : Forall (migratable current) xs).
    Let db : metadata := plain_metadata (mk_dbm dialect cur es [] ss).
    Lemma schema_of x : In x xs -> exists s, In s (objects ss) /\ ds_name s = d_schema x.
    Proof.
      intros I. destruct H as (_ & N & _). assert (J : In (d_schema x) (map ds_name (objects ss))). { rewrite N. apply first_seen_in. split; [|intros []]. now apply in_map. }
      apply in_map_iff in J. destruct J as (s & E & J). eauto.
    Qed.
    Lemma schema_named s : In s (objects ss) -> exists x, In x xs /\ d_schema x = ds_name s.
    Proof.
      intros I. destruct H as (_ & N & _). assert (J : In (ds_name s) (first_seen [] (map d_schema xs))) by (rewrite <- N; now apply in_map). apply first_seen_in in J. destruct J as (J & _).
      apply in_map_iff in J. destruct J as (x & E & J). eauto.
    Qed.
    Lemma held_lists i : lists db i <-> wanted xs i.
    Proof.
      unfold lists, db, plain_metadata, plain_cached. cbn [d_schemas objects b_schemas]. pose proof H as (_ & _ & HH).
      assert (T : forall s t, In s (objects ss) -> (In t (objects (ds_tables s)) <-> In (DTable t) xs /\ t_schema t = ds_name s)).
      { intros s t I. destruct (HH s I) as (_ & -> & _). apply in_tables. }
      split.
      - intros (sc & I & Ig & Sh). apply in_map_iff in I. destruct I as (s & <- & I). cbn [plain_schema s_name] in *.
        destruct i; cbn [schema_has wanted plain_schema s_name s_tables s_views s_functions] in *.
        + subst. apply schema_named in I. exact I.
        + destruct Sh as (t' & It & Ign & Th). apply (T s t' I) in It. destruct It as (It & Es). exists t'. rewrite Es. auto.
        + destruct Sh as (t' & It & Ign & Th). apply (T s t' I) in It. destruct It as (It & Es). exists t'. rewrite Es. auto.
        + destruct Sh as (t' & It & Ign & Th). apply (T s t' I) in It. destruct It as (It & Es). exists t'. rewrite Es. auto.
        + destruct Sh as (t' & It & Ign & Th). apply (T s t' I) in It. destruct It as (It & Es). exists t'. rewrite Es. auto.
        + destruct Sh as (t' & It & Ign & Th). apply (T s t' I) in It. destruct It as (It & Es). exists t'. rewrite Es. auto.
        + destruct Sh as (-> & w & Iw & Nw & <-). destruct (HH s I) as (_ & _ & E & _). cbn [plain_cached objects] in Iw. rewrite E in Iw. apply in_views in Iw. destruct Iw as (Iw & Es). exists w. auto.
        + destruct Sh as (-> & w & Iw & Nw & <-). destruct (HH s I) as (_ & _ & _ & E & _). rewrite E in Iw. apply in_functions in Iw. destruct Iw as (Iw & Es). exists w. auto.
      - assert (TT : forall t, In (DTable t) xs -> t_ignore t = false -> table_has (t_schema t) t i ->
                   exists sc, In sc (map plain_schema (objects ss)) /\ s_ignore sc = false /\ exists t, In t (objects (s_tables sc)) /\ t_ignore t = false /\ table_has (s_name sc) t i).
        { intros t It Ig Th. destruct (schema_of _ It) as (s & Is & En). cbn [d_schema] in En. exists (plain_schema s). split; [now apply in_map|]. split; [apply (HH s Is)|]. exists t.
          cbn [plain_schema s_tables s_name]. split; [apply (T s t Is); auto|]. split; [exact Ig|]. now rewrite En. }
        destruct i; cbn [wanted schema_has]; intros W; try (destruct W as (t' & It & Ig & Th); apply (TT t' It Ig Th)).
        + destruct W as (x & I & <-). destruct (schema_of x I) as (s & Is & En). exists (plain_schema s). split; [now apply in_map|]. split; [apply (HH s Is)|]. now symmetry.
        + destruct W as (w & I & <- & <-). destruct (schema_of _ I) as (s & Is & En). cbn [d_schema] in En. exists (plain_schema s). split; [now apply in_map|]. split; [apply (HH s Is)|]. split; [now symmetry|].
          exists w. cbn [plain_schema s_views plain_cached objects]. destruct (HH s Is) as (_ & _ & -> & _). split; [apply in_views; auto|]. split; [|reflexivity]. apply (Ok _ I).
        + destruct W as (w & I & _). destruct (Ok _ I).
    Qed.
    Lemma held_plain : plain_views db.
    Proof.
      intros sc v I Iv. unfold db, plain_metadata, plain_cached in I. cbn [d_schemas objects b_schemas] in I. apply in_map_iff in I. destruct I as (s & <- & I). destruct H as (_ & _ & HH). destruct (HH s I) as (_ & _ & E & _).
      cbn [plain_schema s_views plain_cached objects] in Iv. rewrite E in Iv. apply in_views in Iv. destruct Iv as (Iv & _). rewrite Forall_forall in M. destruct (M _ Iv) as (_ & Mv). exact Mv.
    Qed.
    Lemma held_functions : forall s, In s (objects ss) -> fobjects (ds_functions s) = [] /\ fpositions (ds_functions s) = [].
    Proof.
      intros s I. destruct H as (_ & _ & HH). destruct (HH s I) as (_ & _ & _ & E & _ & _ & _ & F). split; [|exact F]. rewrite E. destruct (functions_in (ds_name s) xs) as [|f l] eqn:Q; [reflexivity|].
      assert (J : In f (functions_in (ds_name s) xs)) by (rewrite Q; now left). apply in_functions in J. destruct J as (J & _). destruct (Ok _ J).
    Qed.
    Lemma held_has_table s tb : has_table db s tb <-> In (DTable tb) xs /\ t_ignore tb = false /\ t_schema tb = s.
    Proof.
      unfold has_table, db, plain_metadata, plain_cached. cbn [d_schemas objects b_schemas]. pose proof H as (_ & _ & HH). split.
      - intros (sc & I & _ & <- & It & Ig). apply in_map_iff in I. destruct I as (s' & <- & I). cbn [plain_schema s_tables s_name] in *. destruct (HH s' I) as (_ & E & _). rewrite E in It. apply in_tables in It. tauto.
      - intros (I & Ig & <-). destruct (schema_of _ I) as (s' & Is & En). cbn [d_schema] in En. exists (plain_schema s'). split; [now apply in_map|]. split; [apply (HH s' Is)|]. split; [exact En|].
        cbn [plain_schema s_tables]. destruct (HH s' Is) as (_ & -> & _). split; [apply in_tables; auto|exact Ig].
    Qed.
    Lemma held_has_view v : has_view db v <-> In (DView v) xs.
    Proof.
      unfold has_view, db, plain_metadata, plain_cached. cbn [d_schemas objects b_schemas]. pose proof H as (_ & _ & HH). split.
      - intros (sc & I & _ & It & Ig). apply in_map_iff in I. destruct I as (s' & <- & I). cbn [plain_schema s_views plain_cached objects] in *. destruct (HH s' I) as (_ & _ & E & _). rewrite E in It. apply in_views in It. tauto.
      - intros I. destruct (schema_of _ I) as (s' & Is & En). cbn [d_schema] in En. exists (plain_schema s'). split; [now apply in_map|]. split; [apply (HH s' Is)|].
        cbn [plain_schema s_views plain_cached objects]. destruct (HH s' Is) as (_ & _ & -> & _). split; [apply in_views; auto|]. apply (Ok _ I).
    Qed.
    Lemma held_has_function f : ~ has_function_def db f.
    Proof.
      unfold has_function_def, db, plain_metadata, plain_cached. cbn [d_schemas objects b_schemas]. intros (sc & I & _ & It & Ig). apply in_map_iff in I. destruct I as (s' & <- & I). cbn [plain_schema s_functions] in It.
      destruct (held_functions s' I) as (E & _). rewrite E in It. destruct It.
    Qed.
    Lemma held_catalog : catalog d current db.
    Proof.
      pose proof H as ((F & D & I) & _ & HH). unfold db, plain_metadata. split; cbn [d_schemas b_schemas].
      - apply fresh_good; [|unfold plain_cached; cbn [objects]; now rewrite map_map|discriminate]. apply (fresh_plain ds_name ds_ignore); auto.
      - unfold plain_cached. cbn [objects]. intros sc Is. apply in_map_iff in Is. destruct Is as (s & <- & Is). destruct (HH s Is) as (_ & Et & Ev & _ & Ft & Fv & Iv & _).
        unfold good_schema, plain_schema. cbn [s_name s_tables s_views s_functions]. rewrite Forall_forall in M. destruct (held_functions s Is) as (E1 & E2).
        split; [|split; [|split; [|split; [|split; [|split]]]]].
        + destruct (schema_named s Is) as (x & Ix & <-). apply (M x Ix).
        + apply fresh_good; [exact Ft|rewrite Et; now apply nodup_keys_tables|]. intros _ t It. rewrite Et in It. apply in_tables in It. apply (Ok _ (proj1 It)).
        + intros t It. rewrite Et in It. apply in_tables in It. destruct It as (It & <-). apply (Ok _ It). apply (M _ It).
        + apply fresh_good.
          * apply (fresh_plain dv_name dv_ignore); auto.
          * unfold plain_cached. cbn [objects]. rewrite Ev. now apply nodup_keys_views.
          * intros _ v Hv. unfold plain_cached in Hv. cbn [objects] in Hv. rewrite Ev in Hv. apply in_views in Hv. apply (Ok _ (proj1 Hv)).
        + intros v Hv. unfold plain_cached in Hv. cbn [objects] in Hv. rewrite Ev in Hv. apply in_views in Hv. apply Hv.
        + apply fresh_functions; [|rewrite E1; intros f []]. intros n. rewrite E2, E1. reflexivity.
        + rewrite E1. intros f [].
    Qed.
  End Held.
End Numeric.
