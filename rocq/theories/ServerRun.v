(** * ServerRun: the commands of a migration, one after the other, on the database of SpecServer *)
From Coq Require Import Lia Permutation.
From Verif Require Import GoBase GoBaseFacts QuoteModel EffectModel BuildModel SpecText SpecLex SpecIdent SpecSql.
From Verif Require Import CacheModel UpsertModel DdlModel MigrateModel SpecDdl SpecDrop SpecMigrate SpecColumn SpecExec SpecServer
  MigrateFacts MigrateDb MigrateRun MigratePf MigrateExec ServerFacts ServerText ServerStep ServerForm ServerOk.

Lemma rank_order_split : forall l1 c l2, in_rank_order (l1 ++ c :: l2) -> forall c', In c' (l1 ++ c :: l2) -> rank c' < rank c -> In c' l1.
Proof.
  induction l1 as [|a l1 IH]; intros c l2 O c' I L; cbn [app] in O, I; inversion O as [|a' l' H O' E]; subst.
  - destruct I as [->|I]; [lia|]. specialize (H c' I). lia.
  - destruct I as [->|I]; [now left|]. right. now apply (IH c l2).
Qed.

Section Run.
  Variables (m : mode) (got want : metadata) (mg : migration) (db0 : contents).
  Local Notation d := (dialect_of (m_dialect mg)).
  Local Notation cur := (d_current got).
  Local Notation res := (resolve cur).
  Hypothesis MG : migrate m got want = Ok mg.
  Hypothesis UE : update_existing m = false.
  Hypothesis CMP : comparable d got want.
  Hypothesis WO : wanted_ok d cur want.
  Hypothesis PO : present_ok d got.
  Hypothesis KNOWN : d = DSQLite \/ d = DPostgres \/ d = DMySQL.
  Hypothesis SH : shows_catalog d db0 got.

  Local Notation created := (created d cur).
  Lemma CG : catalog d cur got. Proof. apply CMP. Qed.
  Lemma CW : catalog d cur want. Proof. apply CMP. Qed.
  Hint Resolve CG CW : core.
  Lemma NI : nothing_ignored got. Proof. apply CMP. Qed.
  Lemma NA : names_agree got want. Proof. apply CMP. Qed.
  Lemma exec_in : forall c, In c (exec_cmds mg) <-> In c (m_cmds mg).
  Proof.
    intros c. split; intros I.
    - apply (Permutation_in _ (exec_perm mg)) in I. apply filter_In in I. apply I.
    - apply (Permutation_in _ (Permutation_sym (exec_perm mg))). apply filter_In. split; [exact I|]. now rewrite (cmds_not_ignored m got want mg MG c I).
  Qed.
  Lemma exec_pairs : forall R : command -> command -> Prop, (forall a b, R a b -> R b a) -> ForallOrdPairs R (m_cmds mg) -> ForallOrdPairs R (exec_cmds mg).
  Proof.
    intros R SY F. eapply fop_perm; [exact SY| |exact F]. apply Permutation_sym. eapply Permutation_trans; [apply exec_perm|].
    assert (E : filter (fun c => negb (cmd_ignore c)) (m_cmds mg) = m_cmds mg).
    { pose proof (cmds_not_ignored m got want mg MG) as H. clear - H. induction (m_cmds mg) as [|c l IH]; cbn [filter]; [reflexivity|].
      rewrite H by now left. cbn [negb]. f_equal. apply IH. intros x I. apply H. now right. }
    rewrite E. apply Permutation_refl.
  Qed.
  Lemma form : forall c, In c (m_cmds mg) -> (create_missing m = true /\ create_form d got want c) \/ (drop_extraneous m = true /\ drop_form d got want c).
  Proof. intros c I. exact (migration_form m got want mg c MG UE CMP I). Qed.
  Lemma drop_creates_nothing : forall c, drop_form d got want c -> created c = [].
  Proof.
    intros c F. destruct F; try reflexivity; cbn [ServerStep.created]; unfold alter_items; cbv zeta; cbn [a_add_columns a_add_constraints a_create_indexes map app];
      replace (not_sqlite_list d (@nil add_constraint)) with (@nil add_constraint) by (unfold not_sqlite_list; now destruct d); reflexivity.
  Qed.
  Lemma creates : forall c i v, In c (m_cmds mg) -> In (i, v) (created c) ->
    create_missing m = true /\ adds d cur c i /\ in_scope d i /\ wanted_definition d want i v.
  Proof.
    intros c i v I J. destruct (form c I) as [[CM F]|[_ F]].
    - split; [exact CM|]. apply (created_sound d got want); auto.
    - rewrite drop_creates_nothing in J by exact F. destruct J.
  Qed.
  Lemma wanted_listed : forall i v, wanted_definition d want i v -> lists want i.
  Proof.
    intros i v W. unfold wanted_definition in W. destruct i.
    1,2: apply W.
    1,2,3,4: destruct W as (tb & y & HT & <- & Y & <- & _); apply (part_listed want s tb); [exact HT|]; cbn [table_has]; repeat (split; [reflexivity|]); exists y; destruct Y; auto.
    - destruct W as (w & (sc & A & B & C & D) & <- & <- & _). exists sc. split; [exact A|]. split; [exact B|]. destruct (proj2 CW sc A) as (_ & _ & _ & _ & E & _). split; [now apply E|]. exists w. auto.
    - destruct W as (w & (sc & A & B & C & D) & <- & <- & _). exists sc. split; [exact A|]. split; [exact B|]. destruct (proj2 CW sc A) as (_ & _ & _ & _ & _ & _ & E). split; [now apply E|]. exists w. auto.
  Qed.
  Lemma kept : forall c i, In c (m_cmds mg) -> removes d cur c i -> ~ lists want i.
  Proof. intros c i I R. destruct CMP as (A & B & _ & X & N & N' & _). exact (migration_drops_nothing_wanted m got want mg MG A B X N N' c i I R). Qed.
  Lemma added_new : forall c i, create_missing m = true -> in_scope d i -> In c (m_cmds mg) -> adds d cur c i -> lists want i /\ ~ lists got i.
  Proof. intros c i CM SC I A. destruct CMP as (G & W & X & _ & _ & _ & PV & _). apply (migration_adds m got want mg MG CM G W X PV i SC). exists c. auto. Qed.
  Lemma new_added : forall i, create_missing m = true -> in_scope d i -> lists want i -> ~ lists got i -> exists c, In c (m_cmds mg) /\ adds d cur c i.
  Proof. intros i CM SC A B. destruct CMP as (G & W & X & _ & _ & _ & PV & _). apply (migration_adds m got want mg MG CM G W X PV i SC). auto. Qed.

  (** The database after the commands [es]. *)
  Definition inv (es : list command) (db : contents) : Prop :=
    forall i v, In (i, v) db <-> (In (i, v) db0 /\ forall c, In c es -> ~ removes d cur c i) \/ exists c, In c es /\ In (i, v) (created c).
  Section Prefix.
    Variables (es1 es2 : list command) (c : command) (db : contents).
    Hypothesis E : exec_cmds mg = es1 ++ c :: es2.
    Hypothesis INV : inv es1 db.
    Lemma c_in : In c (m_cmds mg).
    Proof. apply exec_in. rewrite E. apply in_or_app. right. now left. Qed.
    Lemma es_in : forall c', In c' es1 -> In c' (m_cmds mg).
    Proof. intros c' I. apply exec_in. rewrite E. apply in_or_app. now left. Qed.
    Lemma earlier : forall c', In c' (m_cmds mg) -> rank c' < rank c -> In c' es1.
    Proof. intros c' I L. destruct (exec_arranged mg) as [O _]. rewrite E in O. apply (rank_order_split es1 c es2 O); [|exact L]. rewrite <- E. now apply exec_in. Qed.
    (** What is wanted and was there is there. *)
    Lemma still_there : forall i, in_scope d i -> lists got i -> lists want i -> has db i = true.
    Proof.
      intros i SC G W. apply (SH i SC) in G. apply has_in in G. destruct G as (v & V). apply has_in. exists v. apply INV. left. split; [exact V|].
      intros c' I R. exact (kept c' i (es_in c' I) R W).
    Qed.
    Lemma now_there : forall i, create_missing m = true -> in_scope d i -> lists want i ->
      (forall c', In c' (m_cmds mg) -> create_form d got want c' -> adds d cur c' i -> rank c' < rank c) -> has db i = true.
    Proof.
      intros i CM SC W R. destruct (lists_dec got i) as [G|G]; [now apply still_there|].
      destruct (new_added i CM SC W G) as (c' & I & A). destruct (form c' I) as [[_ F]|[_ F]].
      - destruct (created_complete d got want CW CG WO PO KNOWN c' i F SC A) as (v & V). apply has_in. exists v. apply INV. right. exists c'. split; [|exact V]. apply earlier; auto.
      - destruct (adds_only_creates m got want mg MG c' i I A) as (_ & K & _). exfalso. destruct F; try discriminate K; cbn [adds] in A; exact A.
    Qed.
    Lemma fresh : forall i v, In (i, v) (created c) -> has db i = false.
    Proof.
      intros i v I. apply has_not. intros v' J. destruct (creates c i v c_in I) as (CM & A & SC & _). destruct (added_new c i CM SC c_in A) as [_ NG].
      apply INV in J. destruct J as [[J _]|(c' & Ic & J)].
      - apply NG. apply (SH i SC). apply has_in. eauto.
      - destruct (creates c' i v' (es_in c' Ic) J) as (_ & A' & _). destruct CMP as (G & W & X & _ & _ & _ & PV & PF & _).
        pose proof (exec_pairs _ (apart_sym d cur) (migration_apart m got want mg MG CM G W PV PF)) as FP.
        exact (fop_split _ _ es1 c es2 FP E c' Ic i SC A' A).
    Qed.
    Lemma schema_is_there : forall s, create_missing m = true -> 0 < rank c -> lists want (ISchema s) -> schema_there cur db s.
    Proof.
      intros s CM R L. unfold schema_there. destruct s as [|b s]; [now left|]. right. cbn [resolve]. apply now_there; [exact CM|cbn; discriminate|exact L|].
      intros c' _ F A. destruct F as [| | | | |s' tb ie e pl pk px c' HT PL PK PX C| | |]; cbn [adds] in A; try discriminate A; try contradiction; try exact R.
      - destruct A as [A _]. destruct A.
      - destruct C as [[-> _]|[-> _]]; destruct A as [A _]; destruct A.
      - destruct A as [A _]. destruct A.
    Qed.
    Lemma table_is_there : forall s t, create_missing m = true -> 3 < rank c -> lists want (ITable s t) -> has db (ITable s t) = true.
    Proof.
      intros s t CM R L. apply now_there; [exact CM|exact I|exact L|].
      intros c' _ F A. destruct F as [| | | | |s' tb ie e pl pk px c' HT PL PK PX C| | |]; cbn [adds] in A; try discriminate A; try contradiction; try exact R.
      - destruct C as [[-> _]|[-> _]]; destruct A as [_ A]; destruct A.
      - destruct A as [_ A]. destruct A.
    Qed.
    Lemma column_is_there : forall s t n, create_missing m = true -> 4 < rank c -> lists want (IColumn s t n) -> has db (IColumn s t n) = true.
    Proof.
      intros s t n CM R L. apply now_there; [exact CM|exact I|exact L|].
      intros c' _ F A. destruct F as [| | | | |s' tb ie e pl pk px c' HT PL PK PX C| | |]; cbn [adds] in A; try discriminate A; try contradiction; cbn [rank]; try lia.
      destruct C as [[-> _]|[-> C]]; [exact R|]. destruct A as [_ (x & X & _)]. cbn [a_add_columns] in X. exfalso.
      rewrite filter_nil in X; [destruct X|]. intros a _. apply C.
    Qed.
    (** Keys refer to columns that are there. *)
    Lemma own_columns : forall s tb k (l : contents), has_table want s tb -> SpecColumn.table_constraint tb k -> d <> DSQLite ->
      (forall x, table_column tb x -> has (db ++ l) (IColumn s (t_name tb) (l_name x)) = true) ->
      (c_type k <> FOREIGN_KEY \/ (create_missing m = true /\ 4 < rank c)) ->
      refers_to_something cur s (t_name tb) (said_def d k) (db ++ l) = true.
    Proof.
      intros s tb k l HT K NS OWN R. destruct (wo_tables _ _ _ WO s tb HT) as [_ _ _ _ _ WK _ _]. destruct (WK k K) as [_ WK']. destruct (WK' NS) as [_ [K1 K2]].
      assert (COLS : In (c_type k) [UNIQUE; PRIMARY_KEY; FOREIGN_KEY] -> columns_there s (t_name tb) (c_columns k) (db ++ l) = true).
      { intros T. unfold columns_there. apply forallb_forall. intros n N. destruct (K1 T n N) as (x & X & <-). now apply OWN. }
      unfold said_def. destruct (beqb (c_type k) CHECK); [reflexivity|].
      destruct (beqb (c_type k) UNIQUE) eqn:U; [apply beqb_eq in U; apply COLS; rewrite U; now left|].
      destruct (beqb (c_type k) PRIMARY_KEY) eqn:P; [apply beqb_eq in P; apply COLS; rewrite P; right; now left|].
      destruct (beqb (c_type k) FOREIGN_KEY) eqn:F; [|reflexivity]. apply beqb_eq in F. destruct R as [R|[CM R]]; [contradiction|].
      destruct (K2 F) as [T1 T2]. cbn [refers_to_something]. apply andb_true_iff. split; [apply andb_true_iff; split|].
      - apply COLS. rewrite F. right. right. now left.
      - rewrite has_app. apply orb_true_iff. left. apply table_is_there; auto. lia.
      - unfold columns_there. apply forallb_forall. intros n N. rewrite has_app. apply orb_true_iff. left. apply column_is_there; auto.
    Qed.
    Lemma places_created : create_missing m = true -> create_form d got want c -> places d cur c db.
    Proof.
      intros CM F. pose proof c_in as IC. pose proof schema_is_there as ST. pose proof table_is_there as TT. pose proof column_is_there as CT. pose proof still_there as STL. pose proof own_columns as OWN. pose proof fresh as FR.
      pose proof es_in as ESI.
      destruct F as [n N L|e Ex|s tb x HT X M|s tb g HT G|s tb p HT P|s tb ie e pl pk px k HT PL PK PX C|s tb ie e l HT L SQ|w r ine V|f Fu SQ]; cbn [places]; try exact I.
      - destruct (table_facts d got want s tb CW HT) as (S1 & R & (_ & _ & _ & _ & GX & _) & LS & LT). destruct (GX x (proj1 X)) as [X1 X2].
        cbn [new_index ci_index]. rewrite X1, X2, R. split; [apply TT; [exact CM|cbn; lia|exact LT]|]. intros t. apply has_not. intros v J.
        assert (LX : lists want (IIndex s (t_name tb) (x_name x))).
        { apply (part_listed want s tb); [exact HT|]. cbn [table_has]. split; [reflexivity|]. split; [reflexivity|]. exists x. destruct X. auto. }
        assert (LI : lists got (IIndex s t (x_name x)) \/ lists want (IIndex s t (x_name x))).
        { apply INV in J. destruct J as [[J _]|(c' & I' & J)]; [left|right].
          - apply (SH (IIndex s t (x_name x)) I). apply has_in. eauto.
          - apply (wanted_listed _ v). apply (creates c' _ v (ESI c' I') J). }
        assert (t = t_name tb) by (apply (proj1 NA s t (t_name tb) (x_name x)); auto). subst t.
        assert (HF : has db (IIndex s (t_name tb) (x_name x)) = false).
        { apply (FR _ (index_definition (said_index d (new_index d x)))). left. unfold index_pair. cbn [new_index ci_index]. rewrite X1, X2, R. reflexivity. }
        rewrite has_not in HF. exact (HF v J).
      - destruct (table_facts d got want s tb CW HT) as (S1 & R & (_ & _ & _ & _ & _ & _ & GG) & LS & LT). destruct (GG g (proj1 G)) as [G1 G2].
        cbn [cg_trigger]. rewrite G1, G2, R. apply TT; [exact CM|cbn; lia|exact LT].
      - destruct (table_facts d got want s tb CW HT) as (S1 & R & GT & LS & LT). cbv zeta. cbn [ct_table]. rewrite S1. split; [apply ST; [exact CM|cbn; lia|exact LS]|]. rewrite R.
        intros NS k K. unfold table_constraints in K. cbn [ct_constraints ct_table] in K. apply filter_In in K. destruct K as [K1 K2].
        apply OWN; auto.
        + split; [exact K1|]. now apply in_table_alive in K2.
        + intros y Y. rewrite has_app. apply orb_true_iff. right. apply has_in. eexists. apply in_map_iff. exists y. split; [reflexivity|].
          unfold table_columns. cbn [ct_table]. destruct Y as [Y1 Y2]. apply filter_In. now rewrite Y2.
        + left. intros FK. pose proof (in_table_alive _ _ K2) as K3. unfold in_table in K2. rewrite K3 in K2. cbn [negb andb] in K2. destruct d; try congruence; rewrite FK in K2; discriminate K2.
      - destruct (table_facts d got want s tb CW HT) as (S1 & R & GT & LS & LT). cbv zeta.
        destruct C as [[-> [NF OC]]|[-> NL]]; cbn [places]; cbv zeta; cbn [a_schema a_table a_add_constraints a_add_columns]; rewrite S1, R; (split; [apply TT; [exact CM|cbn; lia|exact LT]|]); intros NS k K;
          apply in_map_iff in K; destruct K as (y & <- & K); apply filter_In in K; destruct K as [K1 K2]; cbn [added_constraint at_constraint]; destruct (PK y K2) as [K3 _]; apply OWN; auto; try now split.
        + intros x X. rewrite has_app. apply orb_true_iff. destruct (OC NS x X) as [PX'|G]; [right|left].
          * apply has_in. eexists. apply in_map_iff. exists (new_column d e x). split; [reflexivity|]. apply in_map. apply filter_In. split; [apply X|exact PX'].
          * apply STL; [exact I|exact G|]. now apply column_listed.
        + intros x X. rewrite has_app. apply orb_true_iff. left. apply CT; [exact CM|cbn; lia|]. now apply column_listed.
        + right. split; [exact CM|cbn; lia].
      - destruct (table_facts d got want s tb CW HT) as (S1 & R & GT & LS & LT). cbv zeta. cbn [a_schema a_table a_add_constraints]. rewrite S1, R. split; [apply TT; [exact CM|cbn; lia|exact LT]|]. intros _ k [].
      - cbn [cv_view]. destruct V as (sc & V1 & V2 & V3 & V4). apply ST; [exact CM|cbn; lia|]. exists sc. destruct (proj2 CW sc V1) as (_ & _ & _ & _ & VS & _). split; [exact V1|]. split; [exact V2|]. now apply VS.
      - cbn [cf_function]. destruct Fu as (sc & V1 & V2 & V3 & V4). apply ST; [exact CM|cbn; lia|]. exists sc. destruct (proj2 CW sc V1) as (_ & _ & _ & _ & _ & _ & VS). split; [exact V1|]. split; [exact V2|]. now apply VS.
    Qed.
    Lemma alter_drop_place : forall a s tb, c = KAlterTableDrop a -> has_table got s tb -> lists want (ITable s (t_name tb)) -> a_schema a = t_schema tb -> a_table a = t_name tb ->
      (forall i, alter_table_removes cur a i -> in_scope d i /\ lists got i) -> (d <> DMySQL -> a_drop_indexes a = []) -> places d cur c db.
    Proof.
      intros a s tb EC HT LW S T GOT NX. destruct (table_facts d got got s tb CG HT) as (S1 & R & GT & LS & LT).
      pose proof still_there as STL. pose proof es_in as ESI. pose proof c_in as IC.
      pose proof (exec_pairs _ (drops_apart_sym got) (migration_drops_apart m got want mg MG CG NI)) as FP.
      pose proof (fop_split _ _ es1 c es2 FP E) as AP. clear FP. subst c. cbn [places]. rewrite S, S1, T, R. split; [apply STL; auto; exact I|].
      intros i RM. cbn [removes] in RM. destruct (GOT i RM) as [SC G]. apply (SH i SC) in G. apply has_in in G. destruct G as (v & V). apply has_in. exists v. apply INV. left. split; [exact V|].
      intros c' I' R'. pose proof (kept c' i (ESI c' I') R') as NW. pose proof RM as RM'. destruct RM as [PT RM]. rewrite S, S1, T, R in PT.
      destruct (form c' (ESI c' I')) as [[_ F]|[_ F]].
      { destruct (removes_only_drops m got want mg MG c' i (ESI c' I') R') as [_ K]. destruct F as [| | | | |s' tb' ie e pl pk px k' HT' PL PK PX C| | |]; try discriminate K. destruct C as [[-> _]|[-> _]]; discriminate K. }
      destruct F as [s' tb' x HT' X ND|s' tb' g HT' X|f Fu|b ns e N1 N2|ns e N1 N2|s' tb' pl pk px HT' LW' PK PX|s' tb' l HT' L LW' SQ|es e N1 N2]; cbn [removes] in R'.
      - destruct R' as (t' & ->). rewrite NX in RM by exact ND. destruct RM as (z & [] & _).
      - destruct R' as (t' & -> & _). destruct RM.
      - subst i. destruct RM.
      - destruct R' as (a1 & a2 & _ & ->). destruct RM.
      - destruct R' as (s0 & t0 & Q & PT').
        apply (kept _ (ITable s (t_name tb)) (ESI _ I')); [|exact LW]. exists s0, t0. split; [exact Q|].
        destruct i; cbn [part_of] in PT, PT' |- *; try contradiction; destruct PT as [-> ->]; destruct PT'; auto.
      - exact (AP _ I' _ _ eq_refl eq_refl i R' RM').
      - exact (AP _ I' _ _ eq_refl eq_refl i R' RM').
      - destruct R'.
    Qed.
    Lemma places_dropped : drop_form d got want c -> places d cur c db.
    Proof.
      intros F. pose proof alter_drop_place as P. destruct F as [s' tb' x HT' X ND|s' tb' g HT' X|f Fu|b ns e N1 N2|ns e N1 N2|s tb pl pk px HT LW PK PX NSQ|s tb l HT L LW SQ|es e N1 N2]; try exact I.
      - destruct (table_facts d got got s tb CG HT) as (S1 & R & GT & LS & LT). destruct HT as (sc & T1 & T2 & T3 & T4 & T5). destruct (NI sc T1) as (_ & NT & _). destruct (NT tb T4) as (_ & NL & NK & NX & _).
        assert (HT : has_table got s tb) by (exists sc; auto). eapply P; [reflexivity|exact HT|exact LW|reflexivity|reflexivity| |].
        + intros i [PT A]. cbn [a_schema a_table a_drop_columns a_drop_constraints a_drop_indexes] in PT, A. rewrite S1, R in PT.
          destruct i; try contradiction; cbn [part_of] in PT; destruct PT as [-> ->]; destruct A as (y & Y & <-); apply in_map_iff in Y; destruct Y as (z & <- & Y); apply filter_In in Y; destruct Y as [Y1 Y2]; cbn [in_scope].
          * split; [exact I|]. apply (part_listed got s tb); [exact HT|]. cbn [table_has old_column dl_name]. split; [reflexivity|]. split; [reflexivity|]. exists z. auto.
          * split; [now apply (PK z)|]. apply (part_listed got s tb); [exact HT|]. cbn [table_has old_constraint dk_name]. split; [reflexivity|]. split; [reflexivity|]. exists z. auto.
          * split; [exact I|]. apply (part_listed got s tb); [exact HT|]. cbn [table_has old_index dx_name]. split; [reflexivity|]. split; [reflexivity|]. exists z. auto.
        + intros ND. cbn [a_drop_indexes]. rewrite filter_nil; [reflexivity|]. intros x _. destruct (px x) eqn:Q; [|reflexivity]. now apply PX in Q.
      - destruct (table_facts d got got s tb CG HT) as (S1 & R & GT & LS & LT). eapply P; [reflexivity|exact HT|exact LW|reflexivity|reflexivity| |].
        + intros i [PT A]. cbn [a_schema a_table a_drop_columns a_drop_constraints a_drop_indexes] in PT, A. rewrite S1, R in PT.
          destruct i; try contradiction; cbn [part_of] in PT; destruct PT as [-> ->]; destruct A as (y & Y & <-); try destruct Y as [<-|[]]; try destruct Y.
          split; [exact I|]. now apply column_listed.
        + intros ND. reflexivity.
    Qed.
    Lemma ready_here : ready d cur c db.
    Proof.
      destruct (form c c_in) as [[CM F]|[_ F]].
      - split; [now apply places_created|]. split; [now apply (created_nodup d got want CW CG WO PO KNOWN)|]. intros [i v] P. exact (fresh i v P).
      - split; [now apply places_dropped|]. rewrite drop_creates_nothing by exact F. split; [constructor|intros p []].
    Qed.
    Lemma ok_here : writable d c -> command_ok d cur c.
    Proof.
      intros W. destruct (form c c_in) as [[CM F]|[_ F]].
      - now apply (created_ok d got want CW CG WO PO KNOWN).
      - now apply (dropped_ok d got want CW CG NI WO PO KNOWN).
    Qed.
    Lemma inv_next : writable d c -> exists db', serve d cur (text d c) db = Some db' /\ inv (es1 ++ [c]) db'.
    Proof.
      intros W. destruct (step_command d cur c db (cmds_not_ignored m got want mg MG c c_in) (ok_here W) ready_here (text d c) (writable_text d c W)) as (db' & SV & D).
      exists db'. split; [exact SV|]. intros i v. rewrite D, (INV i v). split.
      - intros [[[[A B]|(c' & A & B)] N]|N].
        + left. split; [exact A|]. intros c' I'. apply in_app_or in I'. destruct I' as [I'|[<-|[]]]; auto.
        + right. exists c'. split; [apply in_or_app; now left|exact B].
        + right. exists c. split; [apply in_or_app; right; now left|exact N].
      - intros [[A B]|(c' & A & B)].
        + left. split; [left; split; [exact A|]|]; [intros c' I'; apply B; apply in_or_app; now left|apply B; apply in_or_app; right; now left].
        + apply in_app_or in A. destruct A as [A|[<-|[]]]; [|now right]. left. split; [right; eauto|]. intros R.
          apply (kept c i c_in R). apply (wanted_listed i v). apply (creates c' i v (es_in c' A) B).
    Qed.
  End Prefix.
  (** The texts of the first commands, carried out. *)
  Lemma run_prefix : forall es1 es2, exec_cmds mg = es1 ++ es2 -> Forall (writable d) es1 ->
    exists db', served d cur (map (text d) es1) db0 = Some db' /\ inv es1 db'.
  Proof.
    intros es1. induction es1 as [|c es1 IH] using rev_ind; intros es2 E W.
    - exists db0. split; [reflexivity|]. intros i v. split; [intros A; left; split; [exact A|intros c []]|]. intros [[A _]|(c & [] & _)]; exact A.
    - apply Forall_app in W. destruct W as [W1 W2]. inversion W2; subst. rewrite <- app_assoc in E. cbn [app] in E. destruct (IH _ E W1) as (db & A & B).
      destruct (inv_next es1 es2 c db E B) as (db' & A' & B'); [assumption|]. exists db'. split; [|exact B'].
      unfold served in *. rewrite map_app, each_app, A. cbn [map each]. now rewrite A'.
  Qed.
  (** What is left and what has come. *)
  Lemma removed_iff : forall i, in_scope d i -> lists got i -> ((forall c, In c (exec_cmds mg) -> ~ removes d cur c i) <->
    (drop_extraneous m = false \/ lists want i \/ exists s, i = ISchema s)).
  Proof.
    intros i SC G. split.
    - intros N. destruct (drop_extraneous m) eqn:DE; [|now left]. right. destruct (lists_dec want i) as [L|L]; [now left|]. right.
      destruct CMP as (A & B & _ & X & _ & _ & _ & _ & SV).
      assert (D : (exists s, i = ISchema s) \/ forall s, i <> ISchema s) by (destruct i; [left; eauto|right; discriminate..]).
      destruct D as [D|D]; [exact D|]. destruct (migration_drops_all_else m got want mg MG A B X i SV DE SC D G L) as (c & I' & R). exfalso. apply (N c); [now apply exec_in|exact R].
    - intros H c I' R. apply exec_in in I'. destruct H as [H|[H|(s & ->)]].
      + destruct (removes_only_drops m got want mg MG c i I' R) as [K _]. congruence.
      + exact (kept c i I' R H).
      + destruct c; cbn [removes] in R; try contradiction.
        all: first [discriminate R | solve [destruct R as [R _]; cbn [part_of] in R; destruct R]
          | solve [destruct R as (? & ? & _ & R); discriminate R] | solve [destruct R as (? & ? & _ & R); cbn [part_of] in R; destruct R]
          | solve [destruct R as (? & R & _); discriminate R] | solve [destruct R as (? & R); discriminate R]].
  Qed.
  (** An object has one definition. *)
  Lemma same_schema : forall s s', In s (objects (d_schemas want)) -> In s' (objects (d_schemas want)) -> s_ignore s = false -> s_ignore s' = false -> s_name s = s_name s' -> s = s'.
  Proof. intros s s' A B C D E. destruct (proj1 CW) as (_ & X & _). exact (distinct_inj s_name s_ignore _ s s' X A B C D E). Qed.
  Lemma same_table : forall s tb tb', has_table want s tb -> has_table want s tb' -> t_name tb = t_name tb' -> tb = tb'.
  Proof.
    intros s tb tb' (sc & A & B & C & D & E) (sc' & A' & B' & C' & D' & E') N. assert (sc = sc') by (apply same_schema; congruence). subst sc'.
    destruct (proj2 CW sc A) as (_ & (_ & X & _) & _). exact (distinct_inj t_name t_ignore _ tb tb' X D D' E E' N).
  Qed.
  Lemma wanted_once : forall i v v', in_scope d i -> wanted_definition d want i v -> wanted_definition d want i v' -> v = v'.
  Proof.
    intros i v v' SC W W'. unfold wanted_definition in W, W'. destruct i.
    1,2: destruct W, W'; congruence.
    1,2,3,4: destruct W as (tb & y & HT & T & Y & N & ->), W' as (tb' & y' & HT' & T' & Y' & N' & ->); assert (tb = tb') by (apply (same_table s); congruence); subst tb';
      destruct (table_facts d got want s tb CW HT) as (_ & _ & (_ & (_ & GL & _) & GK & (_ & GX & _) & _ & (_ & GG & _) & _) & _); destruct Y as [Y1 Y2], Y' as [Y1' Y2'].
    - assert (y = y') by (apply (distinct_inj l_name l_ignore (objects (t_columns tb))); congruence). now subst.
    - destruct (GK SC) as (_ & GK' & _). assert (y = y') by (apply (distinct_inj c_name c_ignore (objects (t_constraints tb))); congruence). now subst.
    - assert (y = y') by (apply (distinct_inj x_name x_ignore (objects (t_indexes tb))); congruence). now subst.
    - assert (y = y') by (apply (distinct_inj g_name g_ignore (objects (t_triggers tb))); congruence). now subst.
    - destruct W as (y & (sc & A & B & C & D) & S1 & N & ->), W' as (y' & (sc' & A' & B' & C' & D') & S1' & N' & ->).
      destruct (proj2 CW sc A) as (_ & _ & _ & (_ & GV & _) & VS & _). destruct (proj2 CW sc' A') as (_ & _ & _ & _ & VS' & _). rewrite (VS y C) in S1. rewrite (VS' y' C') in S1'.
      assert (sc = sc') by (apply same_schema; congruence). subst sc'. assert (y = y') by (apply (distinct_inj v_name v_ignore (objects (s_views sc))); congruence). now subst.
    - destruct W as (y & (sc & A & B & C & D) & S1 & N & ->), W' as (y' & (sc' & A' & B' & C' & D') & S1' & N' & ->).
      destruct (proj2 CW sc A) as (_ & _ & _ & _ & _ & _ & VS). destruct (proj2 CW sc' A') as (_ & _ & _ & _ & _ & _ & VS'). rewrite (VS y C) in S1. rewrite (VS' y' C') in S1'.
      assert (sc = sc') by (apply same_schema; congruence). subst sc'. pose proof CMP as (_ & _ & _ & _ & _ & _ & _ & PF & _).
      assert (y = y') by (apply (distinct_inj f_name f_ignore (fobjects (s_functions sc))); [exact (PF sc A)|congruence..]). now subst.
  Qed.
  Lemma created_iff : forall i v, in_scope d i -> ((exists c, In c (exec_cmds mg) /\ In (i, v) (created c)) <->
    create_missing m = true /\ ~ lists got i /\ wanted_definition d want i v).
  Proof.
    intros i v SC. split.
    - intros (c & I' & J). apply exec_in in I'. destruct (creates c i v I' J) as (CM & A & _ & W). split; [exact CM|]. split; [|exact W]. now apply (added_new c i CM SC I' A).
    - intros (CM & NG & W). destruct (new_added i CM SC (wanted_listed i v W) NG) as (c & I' & A). destruct (form c I') as [[_ F]|[_ F]].
      + destruct (created_complete d got want CW CG WO PO KNOWN c i F SC A) as (v' & V). exists c. split; [now apply exec_in|].
        destruct (creates c i v' I' V) as (_ & _ & _ & W'). now rewrite (wanted_once i v v' SC W W').
      + destruct (adds_only_creates m got want mg MG c i I' A) as (_ & K & _). exfalso. destruct F; try discriminate K; cbn [adds] in A; exact A.
  Qed.
  Lemma run_result : forall db', inv (exec_cmds mg) db' -> forall i v, in_scope d i ->
    (In (i, v) db' <->
     (In (i, v) db0 /\ (drop_extraneous m = false \/ lists want i \/ exists s, i = ISchema s)) \/
     (create_missing m = true /\ ~ lists got i /\ wanted_definition d want i v)).
  Proof.
    intros db' IV i v SC. rewrite (IV i v), (created_iff i v SC). split; (intros [[A B]|A]; [left; split; [exact A|]|now right]).
    - apply (removed_iff i SC); [|exact B]. apply (SH i SC). apply has_in. eauto.
    - apply (removed_iff i SC); [|exact B]. apply (SH i SC). apply has_in. eauto.
  Qed.
End Run.
