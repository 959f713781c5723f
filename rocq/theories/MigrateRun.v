(** * MigrateRun: what the commands of a migration do to a database *)
From Coq Require Import Lia Permutation.
From Verif Require Import GoBase GoBaseFacts QuoteModel BuildModel CacheModel SpecCache CacheFacts UpsertModel DdlModel
  MigrateModel SpecMigrate MigrateFacts MigrateDb.

(** ** Ordered pairs *)
Section Pairs.
  Context {A B : Type}.
  Lemma fop_app : forall (R : A -> A -> Prop) l l', ForallOrdPairs R l -> ForallOrdPairs R l' ->
    (forall a b, In a l -> In b l' -> R a b) -> ForallOrdPairs R (l ++ l').
  Proof.
    intros R l l' F F' C. induction F as [|a l FA F IH]; cbn [app]; [exact F'|]. constructor.
    - apply Forall_app. split; [exact FA|]. apply Forall_forall. intros b I. apply C; [now left|exact I].
    - apply IH. intros x y I J. apply C; [now right|exact J].
  Qed.
  Lemma fop_map : forall (f : B -> A) (R : A -> A -> Prop) (S : B -> B -> Prop) l,
    (forall a b, In a l -> In b l -> S a b -> R (f a) (f b)) -> ForallOrdPairs S l -> ForallOrdPairs R (map f l).
  Proof.
    intros f R S l H F. induction F as [|a l FA F IH]; cbn [map]; constructor.
    - apply Forall_map. rewrite Forall_forall in *. intros b I. apply H; [now left|now right|now apply FA].
    - apply IH. intros x y I J. apply H; now right.
  Qed.
  Lemma fop_perm : forall (R : A -> A -> Prop) l l', (forall a b, R a b -> R b a) -> Permutation l l' ->
    ForallOrdPairs R l -> ForallOrdPairs R l'.
  Proof.
    intros R l l' SY P. induction P as [|x l l' P IH|x y l|l l' l'' P IH P' IH']; intros F; auto.
    - inversion F as [|? ? FA F']; subst. constructor; [|auto]. rewrite Forall_forall in *. intros b I. apply FA.
      eapply Permutation_in; [apply Permutation_sym; exact P|exact I].
    - inversion F as [|? ? FA F']; subst. inversion F' as [|? ? FA' F'']; subst. inversion FA as [|? ? H FA2]; subst.
      constructor; [constructor; auto|]. now constructor.
  Qed.
  Lemma fop_split : forall (R : A -> A -> Prop) l l1 a l2, ForallOrdPairs R l -> l = l1 ++ a :: l2 ->
    forall b, In b l1 -> R b a.
  Proof.
    intros R l l1 a l2 F. revert l1. induction F as [|x l FA F IH]; intros l1 E b I.
    - destruct l1; discriminate.
    - destruct l1 as [|y l1]; [destruct I|]. cbn [app] in E. injection E as -> E.
      destruct I as [->|I]; [|now apply (IH l1)]. rewrite Forall_forall in FA. apply FA. rewrite E. apply in_or_app. right. now left.
  Qed.
End Pairs.
Lemma fop_flat_map : forall A B K (f : A -> list B) (R : B -> B -> Prop) (nm : A -> K) (ig : A -> bool) l,
  NoDup (map nm (filter (fun a => negb (ig a)) l)) ->
  (forall a, In a l -> ig a = true -> f a = []) ->
  (forall a, In a l -> ig a = false -> ForallOrdPairs R (f a)) ->
  (forall a b x y, In a l -> In b l -> ig a = false -> ig b = false -> nm a <> nm b -> In x (f a) -> In y (f b) -> R x y) ->
  ForallOrdPairs R (flat_map f l).
Proof.
  intros A B K f R nm ig l. induction l as [|a l IH]; intros ND E O C; cbn [flat_map]; [constructor|].
  destruct (ig a) eqn:IG.
  - rewrite (E a) by (auto; now left). cbn [app filter] in *. rewrite IG in ND. cbn [negb] in ND. apply IH; auto.
    + intros; apply E; auto; now right.
    + intros; apply O; auto; now right.
    + intros b b' x y Ib Ib'. apply C; now right.
  - cbn [filter] in ND. rewrite IG in ND. cbn [negb map] in ND. inversion ND as [|? ? NI ND']; subst. apply fop_app.
    + apply O; [now left|exact IG].
    + apply IH; auto.
      * intros; apply E; auto; now right.
      * intros; apply O; auto; now right.
      * intros b b' x y Ib Ib'. apply C; now right.
    + intros x y Ix Iy. apply in_flat_map in Iy. destruct Iy as (b & Ib & Iy).
      destruct (ig b) eqn:IGb; [rewrite (E b) in Iy by (auto; now right); destruct Iy|].
      apply (C a b); auto; [now left|now right|]. intros X. apply NI. rewrite X. apply in_map. apply filter_In. now rewrite IGb.
Qed.
Lemma distinct_fop : forall A (nm : A -> bytes) ig p l, distinct nm ig l -> (forall a, p a = true -> ig a = false) ->
  ForallOrdPairs (fun a b => nm a <> nm b) (filter p l).
Proof.
  intros A nm ig p l D H. unfold distinct in D. induction l as [|a l IH]; cbn [filter]; [constructor|]. cbn [filter] in D.
  destruct (p a) eqn:PA.
  - rewrite (H _ PA) in D. cbn [negb map] in D. inversion D as [|? ? NI D']; subst. constructor; [|now apply IH].
    apply Forall_forall. intros b I. apply filter_In in I. destruct I as [I PB]. intros E. apply NI. rewrite E.
    apply in_map. apply filter_In. split; [exact I|]. now rewrite (H _ PB).
  - apply IH. destruct (ig a); cbn [negb] in D; [exact D|]. cbn [map] in D. now inversion D.
Qed.

(** ** Nothing is created twice *)
Definition apart (d : dialect) (current : bytes) (c c' : command) : Prop :=
  forall i, in_scope d i -> adds d current c i -> adds d current c' i -> False.
Lemma apart_sym : forall d current c c', apart d current c c' -> apart d current c' c.
Proof. intros d current c c' H i S A B. now apply (H i). Qed.

Section ApartTable.
  Variables (d : dialect) (m : mode) (current : bytes).
  Hypothesis CM : create_missing m = true.
  Variables (gs : schema) (w : table) (s : bytes).
  Hypothesis GW : good_table d s w.
  Hypothesis WI : t_ignore w = false.

  Lemma missing_in : forall g c, In c (missing_constraints d g w) -> In c (objects (t_constraints w)) /\ c_ignore c = false.
  Proof.
    intros g c. unfold missing_constraints. destruct (is_sqlite d); [intros []|]. intros I. apply filter_In in I.
    destruct I as [I H]. apply andb_true_iff in H. destruct H as [H _]. now apply negb_true_iff in H.
  Qed.
  Lemma table_apart : ForallOrdPairs (apart d current) (create_table_cmds d m gs w).
  Proof.
    unfold create_table_cmds. rewrite WI, CM. cbv zeta.
    set (got := find_table (t_name w) (s_tables gs)).
    set (gt := match got with Some t => t | None => empty_table (t_schema w) (t_name w) end).
    destruct GW as (_ & (_ & DL & _) & GK & (_ & DX & _) & _ & (_ & DG & _) & _).
    assert (KX : forall x, In x (missing_constraints d gt w) -> is_foreign_key x = true ->
                 forall y, In y (objects (t_constraints w)) -> c_ignore y = false -> c_name x = c_name y -> c_type y = B "FOREIGN KEY").
    { intros x I FK y Iy IG E.
      assert (ND : d <> DSQLite) by (intros X; rewrite X in I; exact I). destruct (GK ND) as (_ & DK & _).
      apply missing_in in I. destruct I as [I IGx].
      rewrite <- (distinct_inj c_name c_ignore _ _ _ DK I Iy IGx IG E). now apply beqb_eq in FK. }
    apply fop_app; [|apply fop_app; [|apply fop_app; [|apply fop_app|]|]|].
    - destruct (is_mysql d) eqn:MY; [constructor|]. unfold missing_indexes. rewrite map_map.
      apply (fop_map _ _ (fun a b => x_name a <> x_name b)).
      + intros a b Ia Ib N i _ H1 H2. cbn [adds ci_index] in H1, H2. subst i. apply N. congruence.
      + apply (distinct_fop _ x_name x_ignore); [exact DX|]. intros a H. apply andb_true_iff in H. now apply negb_true_iff.
    - unfold missing_triggers.
      apply (fop_map _ _ (fun a b => g_name a <> g_name b)).
      + intros a b Ia Ib N i _ H1 H2. cbn [adds cg_trigger] in H1, H2. subst i. apply N. congruence.
      + apply (distinct_fop _ g_name g_ignore); [exact DG|]. intros a H. apply andb_true_iff in H. now apply negb_true_iff.
    - destruct (negb (missing got)); [constructor|]. constructor; constructor.
    - destruct (is_sqlite d).
      + unfold decompose_alter. cbn [a_add_columns a_drop_columns a_schema a_table map]. rewrite app_nil_r, map_map.
        destruct (negb (missing got)); [|constructor]. unfold added_columns.
        induction (objects (t_columns w)) as [|l ls IH]; cbn [flat_map map]; [constructor|].
        unfold distinct in DL. cbn [filter] in DL. destruct (l_ignore l) eqn:IGl; cbn [negb map] in DL; [now apply IH|].
        inversion DL as [|? ? NI D']; subst. specialize (IH D').
        destruct (find_column (l_name l) (t_columns gt)); [exact IH|]. rewrite CM in IH |- *. cbn [app map]. constructor; [|exact IH].
        apply Forall_forall. intros c I i _ H1 H2. apply in_map_iff in I. destruct I as (y & <- & I).
        apply in_flat_map in I. destruct I as (l' & Il' & I). destruct (l_ignore l') eqn:IG'; [destruct I|].
        destruct (find_column (l_name l') (t_columns gt)); [destruct I|]. destruct I as [<-|[]].
        unfold adds, alter_table_adds in H1, H2.
        cbn [with_add_columns plain_alter a_schema a_table a_add_columns a_add_constraints a_create_indexes] in H1, H2.
        destruct H1 as [_ H1], H2 as [_ H2].
        destruct i; try contradiction; destruct H1 as (y1 & I1 & E1), H2 as (y2 & I2 & E2); try contradiction.
        destruct I1 as [<-|[]], I2 as [<-|[]]. cbn [al_column] in E1, E2. apply NI. rewrite E1, <- E2.
        apply in_map. apply filter_In. now rewrite IG'.
      + match goal with |- ForallOrdPairs _ (if ?b then _ else _) => destruct b end; [constructor|]. constructor; constructor.
    - match goal with |- ForallOrdPairs _ (if ?b then _ else _) => destruct b end; [constructor|]. constructor; constructor.
    - intros c c' I I' i SC H1 H2.
      destruct (is_nil _) in I'; [destruct I'|]. destruct I' as [<-|[]].
      unfold adds, alter_table_adds in H2. cbn [a_schema a_table a_add_columns a_add_constraints a_create_indexes] in H2.
      destruct H2 as [PO H2]. destruct (is_sqlite d) eqn:SQ.
      { destruct i; try contradiction; destruct H2 as (y & J & E); try contradiction. apply is_sqlite_eq in SQ. now apply SC. }
      destruct (is_nil _ && _ && _ && _) in I; [destruct I|]. destruct I as [<-|[]].
      unfold adds, alter_table_adds in H1. cbn [a_schema a_table a_add_columns a_add_constraints a_create_indexes] in H1. destruct H1 as [_ H1].
      destruct i; try contradiction; destruct H1 as (x1 & I1 & E1), H2 as (x2 & I2 & E2); try contradiction.
      destruct (negb (missing got)); [|destruct I1].
      apply in_map_iff in I1, I2. destruct I1 as (k1 & <- & I1), I2 as (k2 & <- & I2). cbn [added_constraint at_constraint] in E1, E2.
      apply filter_In in I1, I2. destruct I1 as [I1 F1], I2 as [I2 F2]. pose proof (missing_in _ _ I1) as [J1 G1].
      assert (X : c_type k1 = B "FOREIGN KEY") by (apply (KX k2 I2 F2 k1 J1 G1); congruence).
      unfold is_foreign_key in F1. rewrite X in F1. discriminate.
    - intros c c' I I' i SC H1 H2.
      destruct (negb (missing got)) eqn:EX; [destruct I|]. destruct I as [<-|[]].
      unfold adds, create_table_adds in H1. cbn [ct_table ct_indexes] in H1. destruct H1 as [_ H1].
      apply in_app_or in I'. destruct I' as [I'|I'].
      + exfalso. cbn [a_add_columns a_alter_columns a_add_constraints a_create_indexes] in I'. rewrite andb_false_r in I'. cbn in I'.
        destruct (is_sqlite d); destruct I'.
      + destruct (is_nil _) in I'; [destruct I'|]. destruct I' as [<-|[]].
        unfold adds, alter_table_adds in H2. cbn [a_schema a_table a_add_columns a_add_constraints a_create_indexes] in H2. destruct H2 as [_ H2].
        destruct i; try contradiction; destruct H1 as (x1 & I1 & E1), H2 as (x2 & I2 & E2); try contradiction.
        apply in_map_iff in I2. destruct I2 as (k2 & <- & I2). cbn [added_constraint at_constraint] in E2.
        apply filter_In in I2. destruct I2 as [I2 F2]. destruct E1 as (G1 & N1 & [X|X]); [now apply SC|]. apply X.
        apply (KX k2 I2 F2 x1 I1 G1). congruence.
    - intros c c' I I' i SC H1 H2.
      unfold missing_triggers in I. apply in_map_iff in I. destruct I as (g & <- & _). cbn [adds] in H1. subst i.
      rewrite !in_app_iff in I'. destruct I' as [I'|[I'|I']].
      + destruct (negb (missing got)); [destruct I'|]. destruct I' as [<-|[]]. destruct H2 as [_ []].
      + destruct (is_sqlite d).
        * apply in_map_iff in I'. destruct I' as (a & <- & _). destruct H2 as [_ []].
        * destruct (is_nil _ && _ && _ && _) in I'; [destruct I'|]. destruct I' as [<-|[]]. destruct H2 as [_ []].
      + destruct (is_nil _) in I'; [destruct I'|]. destruct I' as [<-|[]]. destruct H2 as [_ []].
    - intros c c' I I' i SC H1 H2.
      destruct (is_mysql d) eqn:MY; [destruct I|]. apply in_map_iff in I. destruct I as (x & <- & _). cbn [adds] in H1. subst i.
      rewrite !in_app_iff in I'. destruct I' as [I'|[I'|[I'|I']]].
      + unfold missing_triggers in I'. apply in_map_iff in I'. destruct I' as (g & <- & _). discriminate.
      + destruct (negb (missing got)); [destruct I'|]. destruct I' as [<-|[]]. destruct H2 as [_ (y & [] & _)].
      + destruct (is_sqlite d).
        * apply in_map_iff in I'. destruct I' as (a & <- & J). unfold decompose_alter in J.
          cbn [a_add_columns a_drop_columns a_schema a_table map] in J. rewrite app_nil_r in J. apply in_map_iff in J.
          destruct J as (y & <- & J). destruct H2 as [_ (z & [] & _)].
        * destruct (is_nil _ && _ && _ && _) in I'; [destruct I'|]. destruct I' as [<-|[]].
          destruct H2 as [_ (z & Z & _)]. cbn [a_create_indexes andb] in Z. destruct Z.
      + destruct (is_nil _) in I'; [destruct I'|]. destruct I' as [<-|[]]. destruct H2 as [_ (z & [] & _)].
  Qed.
End ApartTable.

Section ApartSchema.
  Variables (d : dialect) (m : mode) (current : bytes).
  Hypothesis CM : create_missing m = true.
  Variables (got : cached schema) (w : schema).
  Hypothesis GGS : forall g, In g (objects got) -> good_schema d current g.
  Hypothesis GW : good_schema d current w.
  Hypothesis WI : s_ignore w = false.
  Hypothesis WV : forall v, In v (objects (s_views w)) -> v_indexes v = [] /\ v_triggers v = [].
  (** Overloads are created one by one. *)
  Hypothesis WF : NoDup (map f_name (filter (fun f => negb (f_ignore f)) (fobjects (s_functions w)))).

  Lemma schema_apart : ForallOrdPairs (apart d current) (create_schema_cmds d m current got w).
  Proof.
    unfold create_schema_cmds. rewrite WI, (schema_name_here d current got w GW). cbv zeta. rewrite CM.
    pose proof (gs_good d current got w GGS GW) as [GSG GSN]. cbv zeta in GSG, GSN.
    set (gs := match find_schema (s_name w) got with Some s => s | None => empty_schema (s_name w) end) in *.
    destruct GW as (CUR & TS & TG & VS & VN & FS & FN). destruct GSG as (GC & GTS & GTG & GVS & GVN & GFS & GFN).
    assert (TP : forall t, In t (objects (s_tables w)) -> t_ignore t = false ->
              forall c i, In c (create_table_cmds d m gs t) -> in_scope d i -> adds d current c i -> table_has (s_name w) t i).
    { intros t It IG c i I SC AD.
      apply (proj1 (table_adds d m current CM gs t (s_name w) ltac:(rewrite <- GSN; exact GTG) (TG t It) CUR IG i SC)).
      eauto. }
    assert (VW : forall v, In v (objects (s_views w)) -> forall c, In c (create_view_cmds d gs v) -> v_ignore v = false ->
              exists b b', c = KCreateView (mk_create_view b b' v false)).
    { intros v Iv c I IG. unfold create_view_cmds in I. rewrite IG in I. destruct (find_view _ _); [destruct I|].
      destruct (WV _ Iv) as [E1 E2]. rewrite E1, E2 in I. cbn [filter map app] in I.
      destruct (v_materialized v && is_postgres d); (destruct I as [<-|[]]); eexists; eexists; reflexivity. }
    assert (VI : forall v, v_ignore v = true -> create_view_cmds d gs v = []).
    { intros v IG. unfold create_view_cmds. now rewrite IG. }
    assert (FW : forall f c, In c (create_function_cmds d gs f) -> f_ignore f = false /\ c = KCreateFunction (mk_create_function f false)).
    { intros f c I. unfold create_function_cmds in I. destruct (is_sqlite d); [destruct I|].
      destruct (f_ignore f); [destruct I|]. destruct (has_function _ _); [destruct I|]. destruct I as [<-|[]]. auto. }
    assert (TI : forall t, t_ignore t = true -> create_table_cmds d m gs t = []).
    { intros t IG. unfold create_table_cmds. now rewrite IG. }
    assert (TC : forall c, In c (flat_map (create_table_cmds d m gs) (objects (s_tables w))) ->
              exists t, In t (objects (s_tables w)) /\ t_ignore t = false /\ In c (create_table_cmds d m gs t)).
    { intros c I. apply in_flat_map in I. destruct I as (t & It & I). exists t. destruct (t_ignore t) eqn:IG; [rewrite TI in I by exact IG; destruct I|]. auto. }
    assert (VC : forall c, In c (flat_map (create_view_cmds d gs) (objects (s_views w))) ->
              exists v, In v (objects (s_views w)) /\ v_ignore v = false /\ exists b b', c = KCreateView (mk_create_view b b' v false)).
    { intros c I. apply in_flat_map in I. destruct I as (t & It & I). exists t. destruct (v_ignore t) eqn:IG; [rewrite VI in I by exact IG; destruct I|].
      split; [exact It|]. split; [reflexivity|]. now apply VW. }
    apply fop_app; [|apply fop_app; [|apply fop_app|]|].
    - destruct (missing _ && true && negb _); [constructor; constructor|constructor].
    - apply (fop_flat_map _ _ _ _ _ t_name t_ignore); auto.
      + apply TS.
      + intros t It IG. eapply table_apart; eauto.
      + intros a b x y Ia Ib IGa IGb N Ix Iy i SC H1 H2.
        apply N. pose proof (TP _ Ia IGa _ _ Ix SC H1) as X1. pose proof (TP _ Ib IGb _ _ Iy SC H2) as X2.
        destruct i; cbn [table_has] in X1, X2; intuition congruence.
    - apply (fop_flat_map _ _ _ _ _ v_name v_ignore); auto.
      + apply VS.
      + intros v Iv IG. unfold create_view_cmds. rewrite IG. destruct (find_view _ _); [constructor|].
        destruct (WV _ Iv) as [E1 E2]. rewrite E1, E2. cbn [filter map app].
        destruct (v_materialized v && is_postgres d); constructor; constructor.
      + intros a b x y Ia Ib IGa IGb N Ix Iy i SC H1 H2.
        destruct (VW _ Ia _ Ix IGa) as (? & ? & ->). destruct (VW _ Ib _ Iy IGb) as (? & ? & ->). cbn [adds cv_view] in H1, H2. subst i.
        apply N. congruence.
    - apply (fop_flat_map _ _ _ _ _ f_name f_ignore); auto.
      + intros f If IG. unfold create_function_cmds. rewrite IG, orb_true_r. reflexivity.
      + intros f If IG. unfold create_function_cmds. destruct (_ || _); constructor; constructor.
      + intros a b x y Ia Ib IGa IGb N Ix Iy i SC H1 H2.
        apply FW in Ix, Iy. destruct Ix as [_ ->], Iy as [_ ->]. cbn [adds cf_function] in H1, H2. subst i. apply N. congruence.
    - intros c c' I I' i SC H1 H2. apply VC in I. destruct I as (v & _ & _ & b & b' & ->). cbn [adds cv_view] in H1. subst i.
      apply in_flat_map in I'. destruct I' as (f & _ & I'). apply FW in I'. destruct I' as [_ ->]. discriminate.
    - intros c c' I I' i SC H1 H2. apply TC in I. destruct I as (t & It & IG & I). pose proof (TP _ It IG _ _ I SC H1) as X.
      apply in_app_or in I'. destruct I' as [I'|I'].
      + apply VC in I'. destruct I' as (v & _ & _ & b & b' & ->). cbn [adds cv_view] in H2. subst i. exact X.
      + apply in_flat_map in I'. destruct I' as (f & _ & I'). apply FW in I'. destruct I' as [_ ->]. cbn [adds] in H2. subst i. exact X.
    - intros c c' I I' i SC H1 H2. destruct (missing _ && true && negb _) in I; [|destruct I]. destruct I as [<-|[]]. cbn [adds] in H1. subst i.
      rewrite !in_app_iff in I'. destruct I' as [I'|[I'|I']].
      + apply TC in I'. destruct I' as (t & It & IG & I). exact (TP _ It IG _ _ I SC H2).
      + apply VC in I'. destruct I' as (v & _ & _ & b & b' & ->). discriminate.
      + apply in_flat_map in I'. destruct I' as (f & _ & I'). apply FW in I'. destruct I' as [_ ->]. discriminate.
  Qed.
End ApartSchema.
Section ApartAll.
  Variables (d : dialect) (m : mode) (current : bytes) (got want : cached schema).
  Hypothesis CM : create_missing m = true.
  Hypothesis GGS : forall g, In g (objects got) -> good_schema d current g.
  Hypothesis WW : good_slice s_name s_ignore true want.
  Hypothesis WWS : forall w, In w (objects want) -> good_schema d current w.
  Hypothesis PV : forall w v, In w (objects want) -> In v (objects (s_views w)) -> v_indexes v = [] /\ v_triggers v = [].
  Hypothesis PF : forall w, In w (objects want) -> NoDup (map f_name (filter (fun f => negb (f_ignore f)) (fobjects (s_functions w)))).

  Lemma creates_apart : ForallOrdPairs (apart d current) (flat_map (create_schema_cmds d m current got) (objects want)).
  Proof.
    apply (fop_flat_map _ _ _ _ _ s_name s_ignore).
    - apply WW.
    - intros w _ IG. unfold create_schema_cmds. now rewrite IG.
    - intros w Iw IG. apply schema_apart; auto. intros v Iv. now apply (PV w).
    - intros a b x y Ia Ib IGa IGb N Ix Iy i SC H1 H2. apply N.
      assert (X : forall w c, In w (objects want) -> s_ignore w = false -> In c (create_schema_cmds d m current got w) -> adds d current c i -> schema_has w i).
      { intros w c Iw IG I AD. apply (proj1 (schema_adds d m current CM got w GGS (WWS w Iw) IG (fun v Iv => PV w v Iw Iv) i SC)). eauto. }
      rewrite <- (has_schema _ _ (X _ _ Ia IGa Ix H1)). apply has_schema. eauto.
  Qed.
End ApartAll.

(** ** Running commands *)
Lemma acts_ext : forall d current c (st st' : database_state), (forall i, st i <-> st' i) -> acts d current c st -> acts d current c st'.
Proof.
  intros d current c st st' E A. destruct c; cbn [acts] in *; auto.
  - now rewrite <- E.
  - intros N t. rewrite <- E. now apply A.
Qed.
Lemma after_ext : forall d current cs (st st' : database_state), (forall i, st i <-> st' i) ->
  forall i, after d current cs st i <-> after d current cs st' i.
Proof.
  intros d current cs. induction cs as [|c cs IH]; intros st st' E i; [apply E|].
  cbn [after fold_left]. apply IH. intros j. unfold step. split; intros [[H N]|[A H]]; [left|right|left|right]; split; auto; try (now apply E);
    eapply acts_ext; try eassumption; firstorder.
Qed.
Lemma after_app : forall d current cs cs' st, after d current (cs ++ cs') st = after d current cs' (after d current cs st).
Proof. intros. unfold after. apply fold_left_app. Qed.
Lemma run_creates : forall d current cs (st : database_state),
  (forall c i, In c cs -> ~ removes d current c i) ->
  (forall a c b, cs = a ++ c :: b -> acts d current c (fun i => st i \/ exists c', In c' a /\ adds d current c' i)) ->
  forall i, after d current cs st i <-> st i \/ exists c, In c cs /\ adds d current c i.
Proof.
  intros d current cs. induction cs as [|c cs IH]; intros st NR AC i.
  - cbn [after fold_left]. split; [auto|]. intros [H|(c & [] & _)]. exact H.
  - change (after d current (c :: cs) st i) with (after d current cs (step d current st c) i).
    assert (S : forall i, step d current st c i <-> st i \/ adds d current c i).
    { intros j. unfold step. assert (A : acts d current c st).
      { eapply acts_ext; [|apply (AC [] c cs eq_refl)]. intros k. cbn beta. split; [intros [H|(c' & [] & _)]; exact H|auto]. }
      split; [tauto|]. intros [H|H]; [left|tauto]. split; [exact H|]. apply NR. now left. }
    rewrite IH.
    + rewrite S. split.
      * intros [[H|H]|(c' & I & H)]; [auto|right; exists c; split; [now left|exact H]|right; exists c'; split; [now right|exact H]].
      * intros [H|(c' & [<-|I] & H)]; [auto|auto|right; eauto].
    + intros c' j I. apply NR. now right.
    + intros a c' b E. eapply acts_ext; [|apply (AC (c :: a) c' b)]; [|now rewrite E].
      intros j. cbn beta. rewrite S. split.
      * intros [H|(x & [<-|I] & H)]; [auto|auto|right; eauto].
      * intros [[H|H]|(x & I & H)]; [auto|right; exists c; split; [now left|exact H]|right; exists x; split; [now right|exact H]].
Qed.
Lemma run_drops : forall d current cs (st : database_state),
  (forall c i, In c cs -> ~ adds d current c i) ->
  forall i, after d current cs st i <-> st i /\ ~ exists c, In c cs /\ removes d current c i.
Proof.
  intros d current cs. induction cs as [|c cs IH]; intros st NA i.
  - cbn [after fold_left]. split; [|tauto]. intros H. split; [exact H|]. intros (c & [] & _).
  - change (after d current (c :: cs) st i) with (after d current cs (step d current st c) i).
    rewrite IH by (intros c' j I; apply NA; now right). unfold step. split.
    + intros [[[H N]|[_ H]] M]; [|exfalso; revert H; apply NA; now left]. split; [exact H|].
      intros (c' & [<-|I] & R); [auto|]. apply M. eauto.
    + intros [H N]. split; [left; split; [exact H|]; intros R; apply N; exists c; split; [now left|exact R]|].
      intros (c' & I & R). apply N. exists c'. split; [now right|exact R].
Qed.

(** ** The two phases *)
Ltac in_if I := match type of I with In _ (if ?b then _ else _) => destruct b end.
Ltac in_sing I := in_if I; first [solve [destruct I] | destruct I as [<-|[]]].
Lemma creates_remove_nothing : forall d m current got w c i,
  In c (create_schema_cmds d m current got w) -> ~ removes d current c i.
Proof.
  intros d m current got w c i I R. unfold create_schema_cmds in I. destruct (s_ignore w); [destruct I|].
  cbv zeta in I. rewrite !in_app_iff, !in_flat_map in I. destruct I as [I|[(t & _ & I)|[(v & _ & I)|(f & _ & I)]]].
  - in_sing I. exact R.
  - unfold create_table_cmds in I. destruct (t_ignore t); [destruct I|]. cbv zeta in I.
    rewrite !in_app_iff in I. destruct I as [I|[I|[I|[I|I]]]].
    + in_if I; [destruct I|]. apply in_map_iff in I. destruct I as (x & <- & _). exact R.
    + unfold missing_triggers in I. apply in_map_iff in I. destruct I as (x & <- & _). exact R.
    + in_if I; [destruct I|]. destruct I as [<-|[]]. exact R.
    + destruct (is_sqlite d).
      * apply in_map_iff in I. destruct I as (a & <- & I). unfold decompose_alter in I.
        cbn [a_add_columns a_drop_columns a_schema a_table map] in I. rewrite app_nil_r in I. apply in_map_iff in I.
        destruct I as (y & <- & _). destruct R as [_ R]. destruct i; try contradiction; destruct R as (z & [] & _).
      * in_sing I. destruct R as [_ R]. destruct i; try contradiction; destruct R as (z & [] & _).
    + in_sing I. destruct R as [_ R]. destruct i; try contradiction; destruct R as (z & [] & _).
  - unfold create_view_cmds in I. destruct (v_ignore v); [destruct I|]. destruct (find_view _ _); [destruct I|].
    destruct I as [<-|I]; [exact R|]. cbn [app] in I. in_if I; [|destruct I]. apply in_app_or in I. destruct I as [I|I]; apply in_map_iff in I;
      destruct I as (x & <- & _); exact R.
  - unfold create_function_cmds in I. in_sing I. exact R.
Qed.
Lemma drops_add_nothing : forall d m current got want c i,
  In c (drop_cmds d m want got) -> ~ adds d current c i.
Proof.
  intros d m current got want c i I A. unfold drop_cmds in I. cbv zeta in I. apply in_app_or in I. destruct I as [I|I].
  - apply in_flat_map in I. destruct I as ((g, w) & _ & I). apply in_app_or in I. destruct I as [I|I]; apply in_flat_map in I; destruct I as (t & _ & I).
    + unfold drop_parts_cmds in I. destruct (kept_table _ _); [|destruct I]. apply in_app_or in I. destruct I as [I|I].
      * in_if I; [destruct I|]. apply in_map_iff in I. destruct I as (x & <- & _). exact A.
      * unfold dropped_triggers in I. apply in_map_iff in I. destruct I as (x & <- & _). exact A.
    + unfold drop_function_cmds in I. in_sing I. exact A.
  - assert (X : forall a, In a (flat_map (fun p : schema * schema => flat_map (drop_alters d (snd p)) (objects (s_tables (fst p)))) (paired want got)) ->
              a_add_columns a = [] /\ a_add_constraints a = [] /\ a_create_indexes a = []).
    { intros a Ia. apply in_flat_map in Ia. destruct Ia as ((g, w) & _ & Ia). apply in_flat_map in Ia. destruct Ia as (t & _ & Ia).
      unfold drop_alters in Ia. destruct (kept_table _ _); [|destruct Ia]. in_if Ia; [destruct Ia|]. destruct Ia as [<-|[]]. auto. }
    in_if I; rewrite !in_app_iff in I.
    + destruct I as [I|[I|I]]; apply in_map_iff in I; destruct I as (x & <- & I); try exact A.
      apply in_flat_map in I. destruct I as (a & Ia & I). destruct (X a Ia) as (E1 & E2 & E3). unfold decompose_alter in I.
      rewrite E1 in I. cbn [map app] in I. apply in_map_iff in I. destruct I as (y & <- & _).
      destruct A as [_ A]. destruct i; try contradiction; destruct A as (z & [] & _).
    + destruct I as [I|[I|[I|I]]].
      * apply in_map_iff in I. destruct I as (a & <- & Ia). destruct (X a Ia) as (E1 & E2 & E3).
        destruct A as [_ A]. rewrite E1, E2, E3 in A. destruct i; try contradiction; destruct A as (z & [] & _).
      * in_sing I; exact A.
      * in_sing I; exact A.
      * in_sing I; exact A.
Qed.
(** The slices of the two phases. *)
Definition create_slices : list slice :=
  [LCreateSchema; LCreateExtension; LCreateFunction; LCreateTable; LAlterTable; LCreateView; LCreateIndex;
   LCreateTrigger; LAddForeignKey].
Definition drop_slices : list slice :=
  [LDropView; LDropTable; LDropTrigger; LDropIndex; LAlterTableDrop; LDropFunction; LDropExtension].
Definition is_create (c : command) : bool := existsb (fun s => in_slice s c) create_slices.
Lemma creates_kind : forall d m current got w c,
  In c (create_schema_cmds d m current got w) -> is_create c = true /\ cmd_ignore c = false.
Proof.
  intros d m current got w c I. unfold create_schema_cmds in I. destruct (s_ignore w); [destruct I|].
  cbv zeta in I. rewrite !in_app_iff, !in_flat_map in I. destruct I as [I|[(t & _ & I)|[(v & _ & I)|(f & _ & I)]]].
  - in_sing I. split; reflexivity.
  - unfold create_table_cmds in I. destruct (t_ignore t); [destruct I|]. cbv zeta in I.
    rewrite !in_app_iff in I. destruct I as [I|[I|[I|[I|I]]]].
    + in_if I; [destruct I|]. apply in_map_iff in I. destruct I as (x & <- & I). split; [reflexivity|].
      unfold missing_indexes in I. apply in_map_iff in I. destruct I as (y & <- & _). reflexivity.
    + unfold missing_triggers in I. apply in_map_iff in I. destruct I as (x & <- & _). split; reflexivity.
    + in_if I; [destruct I|]. destruct I as [<-|[]]. split; reflexivity.
    + destruct (is_sqlite d).
      * apply in_map_iff in I. destruct I as (a & <- & I). unfold decompose_alter in I.
        cbn [a_add_columns a_drop_columns a_schema a_table map] in I. rewrite app_nil_r in I. apply in_map_iff in I.
        destruct I as (y & <- & _). split; reflexivity.
      * in_sing I. split; reflexivity.
    + in_sing I. split; reflexivity.
  - unfold create_view_cmds in I. destruct (v_ignore v); [destruct I|]. destruct (find_view _ _); [destruct I|].
    destruct I as [<-|I]; [split; reflexivity|]. cbn [app] in I. in_if I; [|destruct I]. apply in_app_or in I. destruct I as [I|I]; apply in_map_iff in I;
      destruct I as (x & <- & _); split; reflexivity.
  - unfold create_function_cmds in I. in_sing I. split; reflexivity.
Qed.
Lemma drops_kind : forall d m got want c,
  In c (drop_cmds d m want got) -> is_create c = false /\ cmd_ignore c = false.
Proof.
  intros d m got want c I. unfold drop_cmds in I. cbv zeta in I. apply in_app_or in I. destruct I as [I|I].
  - apply in_flat_map in I. destruct I as ((g, w) & _ & I). apply in_app_or in I. destruct I as [I|I]; apply in_flat_map in I; destruct I as (t & _ & I).
    + unfold drop_parts_cmds in I. destruct (kept_table _ _); [|destruct I]. apply in_app_or in I. destruct I as [I|I].
      * in_if I; [destruct I|]. apply in_map_iff in I. destruct I as (x & <- & I). split; [reflexivity|].
        unfold dropped_indexes in I. apply in_map_iff in I. destruct I as (y & <- & _). reflexivity.
      * unfold dropped_triggers in I. apply in_map_iff in I. destruct I as (x & <- & _). split; reflexivity.
    + unfold drop_function_cmds in I. in_sing I. split; reflexivity.
  - assert (X : forall a, In a (flat_map (fun p : schema * schema => flat_map (drop_alters d (snd p)) (objects (s_tables (fst p)))) (paired want got)) ->
              a_ignore a = false /\ a_add_columns a = []).
    { intros a Ia. apply in_flat_map in Ia. destruct Ia as ((g, w) & _ & Ia). apply in_flat_map in Ia. destruct Ia as (t & _ & Ia).
      unfold drop_alters in Ia. destruct (kept_table _ _); [|destruct Ia]. in_if Ia; [destruct Ia|]. destruct Ia as [<-|[]]. auto. }
    in_if I; rewrite !in_app_iff in I.
    + destruct I as [I|[I|I]]; apply in_map_iff in I; destruct I as (x & <- & I).
      * unfold decompose_drop_view in I. apply in_map_iff in I. destruct I as (y & <- & _). split; reflexivity.
      * unfold decompose_drop_table in I. apply in_map_iff in I. destruct I as (y & <- & _). split; reflexivity.
      * apply in_flat_map in I. destruct I as (a & Ia & I). destruct (X a Ia) as (E1 & E2). unfold decompose_alter in I.
        rewrite E2 in I. cbn [map app] in I. apply in_map_iff in I. destruct I as (y & <- & _). split; reflexivity.
    + destruct I as [I|[I|[I|I]]].
      * apply in_map_iff in I. destruct I as (a & <- & Ia). split; [reflexivity|]. now apply X.
      * in_sing I; split; reflexivity.
      * in_sing I; split; reflexivity.
      * in_sing I; split; reflexivity.
Qed.

(** ** The order of execution *)
Lemma slice_perm_step : forall (f : slice -> list command) c ss,
  (exists a s b, ss = a ++ s :: b /\ in_slice s c = true /\ (forall s', In s' (a ++ b) -> in_slice s' c = false)) ->
  Permutation (c :: flat_map f ss) (flat_map (fun s => if in_slice s c then c :: f s else f s) ss).
Proof.
  intros f c ss (a & s & b & -> & H & N). rewrite !flat_map_app. cbn [flat_map]. rewrite H.
  assert (E : forall l, (forall s', In s' l -> in_slice s' c = false) -> flat_map (fun s => if in_slice s c then c :: f s else f s) l = flat_map f l).
  { intros l. induction l as [|x l IH]; intros M; cbn [flat_map]; [reflexivity|]. rewrite (M x) by now left. f_equal. apply IH. intros y I. apply M. now right. }
  rewrite (E a), (E b) by (intros s' I; apply N; apply in_or_app; auto). cbn [app]. apply Permutation_middle.
Qed.
Lemma slice_unique : forall c, exists a s b, exec_order = a ++ s :: b /\ in_slice s c = true /\ (forall s', In s' (a ++ b) -> in_slice s' c = false).
Proof.
  assert (X : forall c n, (match nth_error exec_order n with Some s => in_slice s c = true | None => False end) ->
    (forall s', In s' (firstn n exec_order ++ skipn (S n) exec_order) -> in_slice s' c = false) ->
    exists a s b, exec_order = a ++ s :: b /\ in_slice s c = true /\ (forall s', In s' (a ++ b) -> in_slice s' c = false)).
  { intros c n H N. destruct (nth_error exec_order n) as [s|] eqn:E; [|destruct H].
    exists (firstn n exec_order), s, (skipn (S n) exec_order). split; [|auto].
    rewrite <- (firstn_skipn n exec_order) at 1. f_equal. revert E. generalize exec_order. clear. induction n as [|n IH]; intros [|x l] E; try discriminate.
    - cbn in *. congruence.
    - cbn [skipn]. cbn [nth_error] in E. rewrite (IH l E). reflexivity. }
  assert (S : forall c, Forall (fun s' => in_slice s' c = false) [] ) by constructor.
  destruct c;
  [ apply (X _ 0) | apply (X _ 1) | apply (X _ 2) | apply (X _ 3) | apply (X _ 4) | apply (X _ 5) | apply (X _ 6) | apply (X _ 7)
  | apply (X _ 8) | apply (X _ 9) | apply (X _ 10) | apply (X _ 11) | apply (X _ 12) | apply (X _ 13) | apply (X _ 14) | apply (X _ 15) ];
  try reflexivity; cbn; intros s' I; repeat (destruct I as [<-|I]; [reflexivity|]); destruct I.
Qed.
Lemma slices_perm : forall l, Permutation (flat_map (fun s => filter (in_slice s) l) exec_order) l.
Proof.
  induction l as [|c l IH]; [apply Permutation_refl|].
  eapply Permutation_trans; [|apply perm_skip; exact IH]. apply Permutation_sym.
  pose proof (slice_perm_step (fun s => filter (in_slice s) l) c exec_order (slice_unique c)) as P.
  cbn [filter]. exact P.
Qed.
Lemma flat_map_filter : forall A B (p : B -> bool) (f : A -> list B) l,
  flat_map (fun x => filter p (f x)) l = filter p (flat_map f l).
Proof.
  intros A B p f l. induction l as [|x l IH]; cbn [flat_map]; [reflexivity|].
  rewrite filter_app, IH. reflexivity.
Qed.
Lemma exec_perm : forall m, Permutation (exec_cmds m) (filter (fun c => negb (cmd_ignore c)) (m_cmds m)).
Proof.
  intros m. unfold exec_cmds, slice_of. rewrite flat_map_filter.
  assert (F : forall A (p : A -> bool) l l', Permutation l l' -> Permutation (filter p l) (filter p l')).
  { intros A p l l' P. induction P as [|x l l' P IH|x y l|l l' l'' P1 IH1 P2 IH2]; cbn [filter].
    - constructor.
    - destruct (p x); [now apply perm_skip|exact IH].
    - destruct (p x), (p y); try apply Permutation_refl. apply perm_swap.
    - eapply Permutation_trans; eassumption. }
  apply F. apply slices_perm.
Qed.
Lemma exec_phases : forall m, (forall c, In c (m_cmds m) -> cmd_ignore c = false) ->
  exists cs ds, exec_cmds m = cs ++ ds /\
    (forall c, In c cs <-> In c (m_cmds m) /\ is_create c = true) /\
    (forall c, In c ds <-> In c (m_cmds m) /\ is_create c = false).
Proof.
  intros m NI. exists (flat_map (fun s => filter (fun c => negb (cmd_ignore c)) (slice_of s m)) create_slices),
                      (flat_map (fun s => filter (fun c => negb (cmd_ignore c)) (slice_of s m)) drop_slices).
  split; [unfold exec_cmds; rewrite <- flat_map_app; reflexivity|].
  assert (E : forall ss c, In c (flat_map (fun s => filter (fun c => negb (cmd_ignore c)) (slice_of s m)) ss) <->
                           In c (m_cmds m) /\ existsb (fun s => in_slice s c) ss = true).
  { intros ss c. rewrite in_flat_map, existsb_exists. unfold slice_of. split.
    - intros (s & Is & I). apply filter_In in I. destruct I as [I _]. apply filter_In in I. destruct I as [I H]. split; [exact I|eauto].
    - intros [I (s & Is & H)]. exists s. split; [exact Is|]. apply filter_In. rewrite NI by exact I. split; [|reflexivity]. now apply filter_In. }
  split; intros c; rewrite E; [reflexivity|].
  assert (X : existsb (fun s => in_slice s c) drop_slices = negb (is_create c)) by (destruct c; reflexivity).
  rewrite X, negb_true_iff. reflexivity.
Qed.

(** ** Migrate *)
Lemma ext_lookup_positions : forall e s n, ext_name e <> n \/ x_cache s = [] ->
  mget n (x_schema_cache (snd (ext_lookup e s))) = mget n (x_schema_cache s) /\ x_cache (snd (ext_lookup e s)) = x_cache s.
Proof.
  intros e s n H. unfold ext_lookup. destruct (mget (ext_name e) (x_cache s)) as [i|] eqn:M; [|auto].
  destruct H as [H|H]; [|rewrite H in M; discriminate].
  assert (D : mget n (mdel (ext_name e) (x_schema_cache s)) = mget n (x_schema_cache s)).
  { rewrite mget_mdel. destruct (beqb n (ext_name e)) eqn:B; [|reflexivity]. apply beqb_eq in B. congruence. }
  destruct (Nat.leb (x_schemas s) i); [auto|]. destruct (nth_error (x_extensions s) i); [|auto].
  destruct (CacheModel.has_prefix _ _); auto.
Qed.
Lemma missing_extensions_positions : forall es s es' s' n, missing_extensions es s = Some (es', s') ->
  (forall e, In e es -> ext_name e <> n) \/ x_cache s = [] ->
  mget n (x_schema_cache s') = mget n (x_schema_cache s).
Proof.
  induction es as [|e es IH]; intros s es' s' n E H; cbn [missing_extensions] in E.
  - congruence.
  - assert (H1 : ext_name e <> n \/ x_cache s = []) by (destruct H as [H|H]; [left; apply H; now left|now right]).
    pose proof (ext_lookup_positions e s n H1) as [P C].
    destruct (ext_lookup e s) as [o s1]. cbn [snd] in P, C.
    assert (H2 : (forall e, In e es -> ext_name e <> n) \/ x_cache s1 = []).
    { rewrite C. destruct H as [H|H]; [left; intros x I; apply H; now right|now right]. }
    destruct o as [[i|]| |]; try discriminate.
    + rewrite <- P. now apply (IH _ _ _ _ E).
    + destruct (missing_extensions es s1) as [[l s2]|] eqn:E2; [|discriminate]. cbn [option_map fst snd] in E.
      assert (s2 = s') by congruence. subst s2. rewrite <- P. now apply (IH _ _ _ _ E2).
Qed.
Lemma schemas_after_good : forall db es es' s,
  good_slice s_name s_ignore true (d_schemas db) -> extensions_apart db es ->
  missing_extensions es (ext_state_of db) = Some (es', s) ->
  good_slice s_name s_ignore true (schemas_after s db).
Proof.
  intros db es es' s (ST & D & N) XA E. split; [|split; [exact D|exact N]].
  intros n NE PR. destruct (ST n NE PR) as [i L]. exists i. rewrite <- L.
  assert (M : mget n (x_schema_cache s) = mget n (positions (d_schemas db))).
  { apply (missing_extensions_positions _ _ _ _ _ E). destruct XA as [XA|XA]; [now right|left].
    intros e Ie X. destruct PR as (sc & Isc & _ & <-). now apply (XA e sc Ie Isc). }
  unfold lookup, schemas_after. cbn [positions objects]. rewrite M. destruct (is_empty n && negb true); [reflexivity|].
  destruct (mget n (positions (d_schemas db))); [|reflexivity]. destruct (nth_error _ _); [|reflexivity].
  destruct (_ || _); reflexivity.
Qed.

Definition dialect_here (mg : migration) : dialect := dialect_of (m_dialect mg).
Lemma migrate_shape : forall m got want mg, migrate m got want = Ok mg ->
  m_current mg = d_current got /\
  exists es s es' s',
    m_cmds mg =
      ((if create_missing m || update_existing m then
          map (fun e => KCreateExtension (mk_create_extension true e false false)) es
          ++ flat_map (create_schema_cmds (dialect_here mg) m (d_current got) (schemas_after s got)) (objects (d_schemas want))
        else [])
       ++ (if drop_extraneous m then
             (if is_nil es' then [] else [KDropExtension (mk_drop_extension true es' (drop_cascade m) false)])
             ++ drop_cmds (dialect_here mg) m (schemas_after s' want) (d_schemas got)
           else [])) /\
    ((es = [] /\ s = ext_state_of got) \/ missing_extensions (d_extensions want) (ext_state_of got) = Some (es, s)) /\
    ((es' = [] /\ s' = ext_state_of want) \/ missing_extensions (droppable_extensions (d_extensions got)) (ext_state_of want) = Some (es', s')).
Proof.
  intros m got want mg E. unfold migrate in E.
  destruct (is_empty (d_dialect got) && is_empty (d_dialect want)); [discriminate|].
  destruct (negb (is_empty (d_dialect got)) && negb (is_empty (d_dialect want)) && negb (beqb (d_dialect got) (d_dialect want))); [discriminate|].
  cbv zeta in E. set (name := if is_empty (d_dialect got) then d_dialect want else d_dialect got) in *.
  assert (C : exists es s cs, (if create_missing m || update_existing m then
                 match (if is_postgres (dialect_of name) && create_missing m then missing_extensions (d_extensions want) (ext_state_of got)
                        else Some ([], ext_state_of got)) with
                 | None => None
                 | Some (es, s) => Some (map (fun e => KCreateExtension (mk_create_extension true e false false)) es
                     ++ flat_map (create_schema_cmds (dialect_of name) m (d_current got) (schemas_after s got)) (objects (d_schemas want)))
                 end else Some []) = Some cs /\
               cs = (if create_missing m || update_existing m then
                 map (fun e => KCreateExtension (mk_create_extension true e false false)) es
                 ++ flat_map (create_schema_cmds (dialect_of name) m (d_current got) (schemas_after s got)) (objects (d_schemas want)) else []) /\
               ((es = [] /\ s = ext_state_of got) \/ missing_extensions (d_extensions want) (ext_state_of got) = Some (es, s))).
  { destruct (create_missing m || update_existing m).
    - destruct (is_postgres (dialect_of name) && create_missing m).
      + destruct (missing_extensions (d_extensions want) (ext_state_of got)) as [[es s]|]; [|discriminate].
        exists es, s. eexists. split; [reflexivity|]. auto.
      + exists [], (ext_state_of got). eexists. split; [reflexivity|]. auto.
    - exists [], (ext_state_of got). eexists. split; [reflexivity|]. auto. }
  destruct C as (es & s & cs & EC & CE & CX). rewrite EC in E.
  assert (D : exists es s ds, (if drop_extraneous m then
        match missing_extensions (droppable_extensions (d_extensions got)) (ext_state_of want) with
        | None => None
        | Some (es, s) =>
          Some ((if is_nil es then [] else [KDropExtension (mk_drop_extension true es (drop_cascade m) false)])
                ++ drop_cmds (dialect_of name) m (schemas_after s want) (d_schemas got))
        end
      else Some []) = Some ds /\
      ds = (if drop_extraneous m then
          ((if is_nil es then [] else [KDropExtension (mk_drop_extension true es (drop_cascade m) false)])
                ++ drop_cmds (dialect_of name) m (schemas_after s want) (d_schemas got)) else []) /\
      ((es = [] /\ s = ext_state_of want) \/ missing_extensions (droppable_extensions (d_extensions got)) (ext_state_of want) = Some (es, s))).
  { destruct (drop_extraneous m).
    - destruct (missing_extensions (droppable_extensions (d_extensions got)) (ext_state_of want)) as [[es2 s2]|]; [|discriminate].
      exists es2, s2. eexists. split; [reflexivity|]. auto.
    - exists [], (ext_state_of want). eexists. split; [reflexivity|]. auto. }
  destruct D as (es' & s' & ds & ED & DE & DX). rewrite ED in E.
  assert (MG : mk_migration name (d_current got) (cs ++ ds) = mg) by congruence. subst mg.
  split; [reflexivity|]. exists es, s, es', s'. unfold dialect_here. cbn [m_cmds m_dialect]. split; [|auto]. now rewrite CE, DE.
Qed.
