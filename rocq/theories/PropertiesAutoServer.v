(** * PropertiesAutoServer: AutoMigrate, from the structs to the objects of a database (C85) *)
From Coq Require Import Lia.
From Verif Require Import GoBase GoBaseFacts QuoteModel BuildModel CacheModel EffectModel UpsertModel TokenModel DdlModel MigrateModel LoadModel ViewModel DbModel IntroModel AutoModel
  SpecText SpecLex SpecIdent SpecSql SpecDdl SpecDrop SpecMigrate SpecColumn SpecExec SpecDb SpecDeclare SpecIntro SpecAuto DbCatalog PropertiesDb PropertiesIntro PropertiesAuto PropertiesServer.
From Verif Require Import SpecServer SpecAutoServer ServerFacts.

Lemma last_extensions : forall opts acc e, In e (fold_left extensions_after opts acc) -> In e acc \/ exists l, In (OExtensions l) opts /\ In e l.
Proof.
  induction opts as [|o opts IH]; intros acc e I; [now left|]. cbn [fold_left] in I. apply IH in I. destruct I as [I|(l & I & J)]; [|right; exists l; split; [now right|exact J]].
  destruct o; cbn [extensions_after] in I; auto. right. eexists. split; [now left|exact I].
Qed.
Lemma mark_name : forall ks l, l_name (SpecLoad.mark ks l) = l_name l.
Proof. intros ks l. unfold SpecLoad.mark. now destruct (l_ignore l). Qed.
Section Sides.
  Variables (d : dialect) (current : bytes) (extensions : list bytes) (R : rows) (xs : list declared) (opts : list db_option) (b want : metadata).
  Hypothesis CR : catalog_as_read R (objects (d_schemas b)).
  Hypothesis EB : d_extensions b = if is_postgres d then extensions else [].
  Hypothesis LB : forall i, lists b i <-> told R i.
  Hypothesis LW : forall i, lists want i <-> wanted xs i.
  Hypothesis HT : forall s tb, has_table want s tb <-> In (DTable tb) xs /\ t_ignore tb = false /\ t_schema tb = s.
  Hypothesis HV : forall v, has_view want v <-> In (DView v) xs.
  Hypothesis HF : forall f, ~ has_function_def want f.
  Hypothesis EW : d_extensions want = fold_left extensions_after opts [].
  Hypothesis DF : declarations_fit d current (told R) opts xs.
  Hypothesis RF : rows_fit d extensions R.

  Lemma table_of_row : forall s tb, has_table b s tb -> exists r, In r (r_tables R) /\ table_as_read R r tb.
  Proof.
    intros s tb (sc & I & _ & _ & It & _). destruct CR as (_ & C). rewrite Forall_forall in C. destruct (C sc I) as (_ & F & _). destruct (forall2_in _ _ _ _ F It) as (r & Ir & T).
    apply in_schema_key in Ir. exists r. tauto.
  Qed.
  Lemma view_of_row : forall v, has_view b v -> exists r, In r (r_views R) /\ v_schema v = v_schema r /\ v_name v = v_name r /\ v_materialized v = v_materialized r.
  Proof.
    intros v (sc & I & _ & It & _). destruct CR as (_ & C). rewrite Forall_forall in C. destruct (C sc I) as (_ & _ & F & _). destruct (forall2_in _ _ _ _ F It) as (r & Ir & T).
    apply in_schema_key in Ir. destruct T as (T1 & T2 & T3 & _). exists r. tauto.
  Qed.
  Lemma function_of_row : forall f, has_function_def b f -> In f (r_functions R).
  Proof.
    intros f (sc & I & _ & It & _). destruct CR as (_ & C). rewrite Forall_forall in C. destruct (C sc I) as (_ & _ & _ & E). rewrite E in It. now apply in_schema_key in It.
  Qed.
  Lemma rows_present : present_ok d b.
  Proof.
    constructor.
    - intros s tb H. destruct (table_of_row s tb H) as (r & Ir & T). destruct (rf_tables _ _ _ RF r Ir) as (A1 & A2 & A3). destruct T as (T1 & T2 & _ & _ & _ & TC & TK & TX & TG). constructor.
      + rewrite T1. auto.
      + rewrite T2. exact A3.
      + intros l [L _]. rewrite TC in L. apply in_map_iff in L. destruct L as (y & <- & L). rewrite mark_name. apply those_key in L. apply (rf_columns _ _ _ RF). apply L.
      + intros k [L _]. rewrite TK in L. apply those_key in L. apply (rf_constraints _ _ _ RF). apply L.
      + intros x [L _]. rewrite TX in L. apply those_key in L. apply (rf_indexes _ _ _ RF). apply L.
      + intros g [L _]. rewrite TG in L. apply those_key in L. apply (rf_triggers _ _ _ RF). apply L.
    - intros v H. destruct (view_of_row v H) as (r & Ir & -> & -> & _). destruct (rf_views _ _ _ RF r Ir) as (A & A' & _). auto.
    - intros f H. apply (rf_functions _ _ _ RF). now apply function_of_row.
    - intros e I. rewrite EB in I. destruct (is_postgres d) eqn:P; [|destruct I]. apply (rf_extensions _ _ _ RF); [destruct d; try discriminate P; reflexivity|exact I].
  Qed.
  Lemma table_ok_ext : forall (p q : item -> Prop) tb, (forall i, p i -> q i) -> wanted_table_ok d current p tb -> wanted_table_ok d current q tb.
  Proof.
    intros p q tb PQ [A1 A2 A3 A4 A5 A6 A7 A8]. constructor; auto. intros k K. destruct (A6 k K) as [B1 B2]. split; [exact B1|]. intros N. destruct (B2 N) as [C1 (C2 & C3)]. split; [exact C1|]. split; [exact C2|].
    intros E. destruct (C3 E) as [D1 D2]. split; [now apply PQ|]. intros c I. apply PQ. now apply D2.
  Qed.
  Lemma table_expressible_ext : forall (p q : item -> Prop) s tb, (forall i, p i <-> q i) -> table_expressible d p s tb -> table_expressible d q s tb.
  Proof.
    intros p q s tb PQ [A1 A2 A3 A4 A5]. constructor; auto. intros l L. destruct (A3 l L) as [B1 B2]. split; [exact B1|]. intros SQ X Y. apply B2; [exact SQ|now apply PQ|]. intros Z. apply Y. now apply PQ.
  Qed.
  Lemma declarations_wanted : wanted_ok d current want.
  Proof.
    constructor.
    - intros s N L. apply LW in L. destruct L as (x & I & <-). now apply (df_schemas _ _ _ _ _ DF).
    - intros s tb H. apply HT in H. destruct H as (I & G & _). apply (table_ok_ext (wanted xs)); [intros i; apply LW|]. now apply (df_tables _ _ _ _ _ DF).
    - intros v H. apply HV in H. now apply (df_views _ _ _ _ _ DF).
    - intros f H. now apply HF in H.
    - intros e I. rewrite EW in I. apply last_extensions in I. destruct I as [[]|(l & I & J)]. now apply (df_extensions _ _ _ _ _ DF l).
  Qed.
  Lemma declarations_expressible : (d <> DPostgres -> r_functions R = []) -> expressible d b want.
  Proof.
    intros NF. constructor.
    - intros SQ s N L. apply LW in L. destruct L as (x & I & <-). apply LB. now apply (df_schemas _ _ _ _ _ DF).
    - intros s tb H. apply HT in H. destruct H as (I & G & <-). apply (table_expressible_ext (told R)); [intros i; symmetry; apply LB|]. now apply (df_tables _ _ _ _ _ DF).
    - intros v H M. destruct (view_of_row v H) as (r & Ir & _ & _ & E). apply (rf_views _ _ _ RF r Ir). congruence.
    - intros SQ f H. apply function_of_row in H. rewrite NF in H; [destruct H|]. rewrite SQ. discriminate.
    - intros N. rewrite EB. destruct d; try reflexivity. now destruct N.
  Qed.
  Lemma definition_declared : forall i v, wanted_definition d want i v <-> declared_definition d xs i v.
  Proof.
    intros i v. destruct i; cbn [wanted_definition declared_definition]; try (rewrite LW; reflexivity).
    - split.
      + intros (tb & l & H & E & L). apply HT in H. exists tb, l. tauto.
      + intros (tb & l & (H1 & H2 & H3 & H4) & L). exists tb, l. split; [apply HT; auto|]. tauto.
    - split.
      + intros (tb & l & H & E & L). apply HT in H. exists tb, l. tauto.
      + intros (tb & l & (H1 & H2 & H3 & H4) & L). exists tb, l. split; [apply HT; auto|]. tauto.
    - split.
      + intros (tb & l & H & E & L). apply HT in H. exists tb, l. tauto.
      + intros (tb & l & (H1 & H2 & H3 & H4) & L). exists tb, l. split; [apply HT; auto|]. tauto.
    - split.
      + intros (tb & l & H & E & L). apply HT in H. exists tb, l. tauto.
      + intros (tb & l & (H1 & H2 & H3 & H4) & L). exists tb, l. split; [apply HT; auto|]. tauto.
    - split.
      + intros (w & H & L). apply HV in H. eauto.
      + intros (w & H & L). exists w. split; [now apply HV|exact L].
    - split; [|intros []]. intros (f' & H & _). now apply HF in H.
  Qed.
End Sides.

(** ** The structs become the database *)
(** The rows [R] tell what the database [db] has. *)
Definition fit_for_auto numeric dialect rd (m : mode) opts current extensions R0 xs db : Prop :=
  let d := dialect_of dialect in let R := asked d R0 in
  introspectable d /\ reported numeric d current extensions R0 rd /\
  well_formed R /\ well_named d R /\ (current = [] \/ ~ told R (ISchema [])) /\
  Forall only_structs opts /\ NoDup (flat_map item_key (flat_map items_of opts)) /\
  Forall2 (declares numeric d) (flat_map items_of opts) xs /\ Forall (migratable current) xs /\ same_tables R xs /\
  update_existing m = false /\ declarations_fit d current (told R) opts xs /\ rows_fit d extensions R /\ tells d R db.
Lemma auto_fit : forall numeric dialect rd m opts current extensions R0 xs db,
  fit_for_auto numeric dialect rd m opts current extensions R0 xs db ->
  let d := dialect_of dialect in let R := asked d R0 in
  exists b want mg, (forall db, auto_migrate numeric dialect rd db m opts = let (sent, st) := exec_context db mg in (sent, ended st)) /\
    dialect_of (m_dialect mg) = d /\ d_current b = current /\ (forall i, lists b i <-> told R i) /\ (forall i, lists want i <-> wanted xs i) /\
    (forall i v, wanted_definition d want i v <-> declared_definition d xs i v) /\
    fit_for_migration m b want mg db /\ expressible d b want.
Proof.
  intros numeric dialect rd m opts current extensions R0 xs db FA d R. unfold fit_for_auto in FA. cbv zeta in FA. fold d in FA. fold R in FA. destruct FA as (D & Rp & W & V & Cu & O & K & F & M & Sa & U & DF & RF & TL).
  destruct (auto_compared numeric dialect rd m opts current extensions R0 xs D Rp W V Cu O K F M Sa) as (b & want & mg & Au & Mg & Md & Ec & Lb & Lw & Cp & Cr & Eb & Ht & Hv & Hf & Ew). fold d in Lb, Cp, Cr, Eb. fold R in Lb, Cr.
  assert (Dm : dialect_of (m_dialect mg) = d) by (unfold d; now rewrite Md). exists b, want, mg. split; [exact Au|]. split; [exact Dm|]. split; [exact Ec|]. split; [exact Lb|]. split; [exact Lw|].
  split; [exact (definition_declared d xs want Lw Ht Hv Hf)|]. split.
  - unfold fit_for_migration. cbv zeta. rewrite Dm, Ec. split; [exact Mg|]. split; [exact U|]. split; [destruct D as [->|[->| ->]]; cbn; auto|]. split; [exact Cp|].
    split; [eapply declarations_wanted; eassumption|]. split; [eapply rows_present; eassumption|]. intros i SC. rewrite Lb. now apply TL.
  - eapply declarations_expressible; try eassumption. intros N. unfold R, asked. cbn [r_functions]. destruct d; try reflexivity. now destruct N.
Qed.
(** Every statement that AutoMigrate sends is carried out, it succeeds, and then
    the database has
    - what it had, as it was, except, if DropExtraneous is set, for what no
      struct declares (schemas stay);
    - if CreateMissing is set, what was missing, as it is declared. *)
Theorem auto_carried_out : forall numeric dialect rd m opts current extensions R0 xs db,
  fit_for_auto numeric dialect rd m opts current extensions R0 xs db ->
  let d := dialect_of dialect in let R := asked d R0 in
  exists sent db', auto_migrate numeric dialect rd (server d current db) m opts = (sent, LOk tt) /\
    served d current sent db = Some db' /\
    forall i v, in_scope d i ->
      (In (i, v) db' <->
       (In (i, v) db /\ (drop_extraneous m = false \/ wanted xs i \/ exists s, i = ISchema s)) \/
       (create_missing m = true /\ ~ told R i /\ declared_definition d xs i v)).
Proof.
  intros numeric dialect rd m opts current extensions R0 xs db FA d R. destruct (auto_fit _ _ _ _ _ _ _ _ _ _ FA) as (b & want & mg & Au & Dm & Ec & Lb & Lw & Dd & FIT & EXP). fold d in Dm, Dd, EXP. fold d R in Lb.
  rewrite <- Dm in EXP. destruct (migration_carried_out m b want mg db FIT EXP) as (sent & db' & E & SV & RS). rewrite Dm, Ec in *. exists sent, db'.
  split; [rewrite Au, E; reflexivity|]. split; [exact SV|]. intros i v SC. rewrite (RS i v SC), Lw, Lb, Dd. reflexivity.
Qed.
Print Assumptions auto_carried_out.
(** With both flags, the database has what the structs declare (and the schemas
    it had), nothing else. *)
Theorem auto_synchronises : forall numeric dialect rd m opts current extensions R0 xs db,
  fit_for_auto numeric dialect rd m opts current extensions R0 xs db -> create_missing m = true -> drop_extraneous m = true ->
  let d := dialect_of dialect in let R := asked d R0 in
  exists sent db', auto_migrate numeric dialect rd (server d current db) m opts = (sent, LOk tt) /\
    served d current sent db = Some db' /\
    forall i, in_scope d i -> (has db' i = true <-> wanted xs i \/ (told R i /\ exists s, i = ISchema s)).
Proof.
  intros numeric dialect rd m opts current extensions R0 xs db FA CM DE d R. destruct (auto_fit _ _ _ _ _ _ _ _ _ _ FA) as (b & want & mg & Au & Dm & Ec & Lb & Lw & Dd & FIT & EXP). fold d in Dm, Dd, EXP. fold d R in Lb.
  rewrite <- Dm in EXP. destruct (migration_carried_out m b want mg db FIT EXP) as (sent & db' & E & SV & _).
  destruct (migration_text_synchronises m b want mg db _ sent FIT E CM DE) as (db'' & SV' & RS). rewrite Dm, Ec in *. assert (db'' = db') as -> by congruence. exists sent, db'.
  split; [rewrite Au, E; reflexivity|]. split; [exact SV|]. intros i SC. now rewrite (RS i SC), Lw, Lb.
Qed.
Print Assumptions auto_synchronises.

(** ** Examples *)
(** The structs of PropertiesAuto on the Postgres database of PropertiesIntro. *)
Definition nothing_known : metadata := mk_metadata [] [] [] [] cached_new.
Lemma nothing_listed : forall i, ~ lists nothing_known i.
Proof. intros i (sc & I & _). vm_compute in I. destruct I. Qed.
Definition auto_db : contents := map (fun i => (i, FTable)) (ServerCheck.items_of (plain_metadata pg_read)).
Lemma auto_db_tells : tells DPostgres (asked DPostgres pg_rows) auto_db.
Proof.
  destruct pg_database_example as (Rp & W & V & _). destruct (database_read no_numbers pg_raw (mk_dbm (B "postgres") [] [] [] cached_new) (B "public") [B "hstore@1.4"] pg_rows (or_intror (or_introl eq_refl)) Rp) as (b & E & _ & X).
  destruct (X W) as (_ & _ & _ & Y). destruct (Y V) as (L & _). intros i SC. rewrite <- (L i). assert (b = pg_read) as -> by (destruct pg_migrated_example as (Z & _); congruence).
  apply (ServerCheck.database_of DPostgres); [|exact SC]. unfold auto_db. rewrite map_map. apply map_id.
Qed.
Lemma table_fits : forall xs current tb, ServerCheck.wanted_tableb DPostgres current nothing_known tb && ServerCheck.expressible_table DPostgres nothing_known (t_schema tb) tb = true ->
  wanted_table_ok DPostgres current (wanted xs) tb /\ table_expressible DPostgres (told (asked DPostgres pg_rows)) (t_schema tb) tb.
Proof.
  intros xs current tb H. apply andb_true_iff in H. destruct H as [A C]. split.
  - apply (table_ok_ext DPostgres current (lists nothing_known)); [intros i L; now apply nothing_listed in L|]. now apply ServerCheck.wanted_tableb_ok.
  - destruct (ServerCheck.expressible_table_ok _ _ _ _ C) as (B1 & B2 & B3 & B4 & B5). constructor; auto. intros l L. split; [now apply B3|discriminate].
Qed.
Example auto_carried_out_example : forall m, update_existing m = false ->
  fit_for_auto no_numbers (B "postgres") pg_raw m auto_options (B "public") [B "hstore@1.4"] pg_rows auto_declared auto_db.
Proof.
  intros m U. destruct pg_database_example as (Rp & W & V & Cu). destruct auto_migrated_example as (O & K & F & M & Sa).
  unfold fit_for_auto. change (dialect_of (B "postgres")) with DPostgres. cbv zeta.
  split; [right; now left|]. split; [exact Rp|]. split; [exact W|]. split; [exact V|]. split; [now right|]. split; [exact O|]. split; [exact K|]. split; [exact F|]. split; [exact M|]. split; [exact Sa|]. split; [exact U|].
  split; [|split; [|exact auto_db_tells]].
  - constructor.
    + intros x I _. split; [|discriminate]. apply ServerCheck.plain_wordb_ok. repeat (destruct I as [<-|I]; [vm_compute; reflexivity|]). destruct I.
    + intros tb I G. apply table_fits. apply in_declared in I. destruct I as [->|[->| ->]]; [vm_compute; reflexivity|vm_compute; reflexivity|vm_compute in G; discriminate G].
    + intros v I. assert (v = loaded_view DPostgres (list_view (B "public") (B "film_list"))) as ->. { destruct I as [I|[I|[I|[I|[]]]]]; try discriminate I. congruence. }
      split; [apply ServerCheck.good_nameb_ok; vm_compute; reflexivity|]. split; [apply ServerCheck.good_nameb_ok; vm_compute; reflexivity|]. vm_compute. discriminate.
    + intros l e I. destruct I as [I|[I|[]]]; discriminate I.
  - constructor.
    + intros r [<-|[]]. split; [apply ServerCheck.good_nameb_ok; vm_compute; reflexivity|]. split; [apply ServerCheck.not_wordb_ok; vm_compute; reflexivity|apply ServerCheck.good_nameb_ok; vm_compute; reflexivity].
    + intros r [<-|[]]. apply ServerCheck.good_nameb_ok. vm_compute. reflexivity.
    + intros r [<-|[<-|[]]]; apply ServerCheck.good_nameb_ok; vm_compute; reflexivity.
    + intros r [<-|[]]. split; [apply ServerCheck.good_nameb_ok; vm_compute; reflexivity|apply ServerCheck.not_wordb_ok; vm_compute; reflexivity].
    + intros r [<-|[]]. apply ServerCheck.good_nameb_ok. vm_compute. reflexivity.
    + intros r [<-|[]]. split; [apply ServerCheck.good_nameb_ok; vm_compute; reflexivity|]. split; [apply ServerCheck.good_nameb_ok; vm_compute; reflexivity|reflexivity].
    + intros r [<-|[]]. split; [apply ServerCheck.good_nameb_ok; vm_compute; reflexivity|]. split; [apply ServerCheck.good_nameb_ok; vm_compute; reflexivity|apply ServerCheck.plain_sqlb_ok; vm_compute; reflexivity].
    + intros _ e [<-|[]]. exists (B "hstore"), (B "1.4"). split; [|apply ServerCheck.good_nameb_ok; vm_compute; reflexivity]. vm_compute. split; [intuition discriminate|right; reflexivity].
Qed.
(** The whole run, computed. *)
Example auto_carried_out_run :
  let (sent, r) := auto_migrate no_numbers (B "postgres") pg_raw (server DPostgres (B "public") auto_db) (mk_mode true false true false) auto_options in
  (r, length sent, map kind_of auto_db, option_map (map kind_of) (served DPostgres (B "public") sent auto_db)) = (LOk tt, 10, [0; 1; 2; 3; 3; 4; 5; 6; 0; 7], Some [0; 1; 2; 6; 0; 0; 1; 2; 3; 2; 3; 4; 5]).
Proof. vm_compute. reflexivity. Qed.
