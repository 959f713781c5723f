(** * DbLoad: proofs for the options that read Go values (C56) *)
From Coq Require Import Lia.
From Verif Require Import GoBase GoBaseFacts QuoteModel BuildModel CacheModel SpecCache CacheFacts UpsertModel TokenModel DdlModel MigrateModel LoadModel LoadFacts LoadTable LoadDdl TriggerModel TriggerStore ViewModel DbModel SpecDb SpecDeclare DbPf DbRead.

Section Numeric.
  Context (numeric : bytes -> bool).
  (** ** A loaded table keeps its name *)
  Definition named_same (t t' : table) : Prop := t_schema t' = t_schema t /\ t_name t' = t_name t.
  Lemma named_trans t t' t'' : named_same t t' -> named_same t' t'' -> named_same t t''.
  Proof. intros (A & C) (D & E). split; congruence. Qed.
  Lemma table_modifier_named d t m t' : table_modifier d t m = LOk t' -> named_same t t'.
  Proof.
    unfold table_modifier. destruct (strip_dialect _ _) as [k|]; [|intros H; injection H as <-; split; reflexivity]. destruct (beqb k _).
    - destruct (is_sqlite d); [|intros H; injection H as <-; split; reflexivity]. intros H. apply lbind_ok in H. destruct H as (r & _ & H). injection H as <-. split; reflexivity.
    - destruct (constraint_kind k) as [[ty refs]|].
      + intros H. apply lbind_ok in H. destruct H as (r & _ & H). injection H as <-. split; reflexivity.
      + destruct (beqb k _); [intros H; apply lbind_ok in H; destruct H as (r & _ & H); injection H as <-; split; reflexivity|].
        destruct (beqb k _); [|discriminate]. intros H. injection H as <-. destruct (ignores d _); split; reflexivity.
  Qed.
  Lemma load_fields_named d fs t r : load_fields numeric d fs t = LOk r -> named_same t (fst r).
  Proof.
    revert t. induction fs as [|f fs IH]; intros t H; cbn [load_fields] in H; [injection H as <-; split; reflexivity|]. destruct f as [tag|name kind tag].
    - apply lbind_ok in H. destruct H as (t' & E & H). assert (N : named_same t t').
      { unfold load_table_tag in E. apply lbind_ok in E. destruct E as (ms & _ & E). apply (lfold_inv _ _ _ (named_same t)) with (s := t) (3 := E); [|split; reflexivity].
        intros s m s' Hs X. apply table_modifier_named in X. now apply (named_trans t s). }
      destruct (t_ignore t'); [injection H as <-; exact N|]. apply IH in H. now apply (named_trans t t').
    - destruct (is_empty name); [discriminate|]. apply lbind_ok in H. destruct H as (t' & E & H). assert (N : named_same t t').
      { unfold load_column in E. apply lbind_ok in E. destruct E as (ms & _ & E). apply lbind_ok in E. destruct E as (q & _ & E). injection E as <-. split; reflexivity. }
      apply IH in H. now apply (named_trans t t').
  Qed.
  Lemma t_step_named d st c st' : t_step numeric d st c = Some st' -> named_same (ts_table st) (ts_table st').
  Proof.
    destruct c; cbn [t_step]; intros H.
    - injection H as <-. split; reflexivity.
    - injection H as <-. split; reflexivity.
    - destruct (lookup _ _ _ _ _) as [[i|] cs]; [|discriminate]. injection H as <-. split; reflexivity.
    - destruct (nth_error _ _) as [[i name]|]; [|discriminate]. destruct (t_key c) as [ty|].
      + destruct (put_constraint _ _ _ _ _ _ _) as [[j ks]|]; [|discriminate]. injection H as <-. split; reflexivity.
      + destruct (nth_error _ _) as [l|]; [|discriminate]. injection H as <-. split; reflexivity.
    - destruct (constraint_step _ _ _ _) as [[ks hs]|]; [|discriminate]. injection H as <-. split; reflexivity.
    - destruct (index_step _ _ _) as [[xs hs]|]; [|discriminate]. injection H as <-. split; reflexivity.
    - destruct text as [text|]; [|discriminate]. destruct (t_trigger _ _ _ _) as [t'| | |] eqn:E; try discriminate. injection H as <-. apply t_trigger_same in E. destruct E as (gs & ->). split; reflexivity.
  Qed.
  Lemma t_run_named d calls st st' : t_run numeric d calls st = Some st' -> named_same (ts_table st) (ts_table st').
  Proof.
    revert st. induction calls as [|c calls IH]; intros st H; cbn [t_run] in H; [injection H as <-; split; reflexivity|].
    destruct (t_step numeric d st c) as [s1|] eqn:E; [|discriminate]. apply t_step_named in E. apply IH in H. now apply (named_trans _ (ts_table s1)).
  Qed.
  Lemma load_table_named d schema name fs ddl t0 t : load_table numeric d schema name fs ddl t0 = LOk t -> t_schema t = schema /\ t_name t = name.
  Proof.
    unfold load_table. destruct (is_empty name); [discriminate|]. intros H. apply lbind_ok in H. destruct H as ([t1 stop] & E & H). apply load_fields_named in E. cbn [fst snd] in *.
    destruct stop; [injection H as <-; exact E|]. destruct (t_run numeric d ddl _) as [st|] eqn:Q; [|discriminate]. injection H as <-. apply t_run_named in Q. cbn [ts_table] in Q.
    destruct (named_trans _ _ _ E Q) as (H1 & H2). cbn [t_schema t_name] in *. unfold mark_columns, fts5_args. destruct (equal_fold _ _); split; exact H1 || exact H2.
  Qed.

  (** ** One thing after the other *)
  Definition load_item (d : dialect) (ss : cached db_schema) (i : db_item) : lexres (cached db_schema) :=
    match i with ITb t => load_table_option numeric d ss t | IVw v => load_view_option d ss v | IFn f => load_function_option d ss f end.
  Lemma lbind_assoc {A C D} (r : lexres A) (f : A -> lexres C) (g : C -> lexres D) : lbind (lbind r f) g = lbind r (fun a => lbind (f a) g).
  Proof. now destruct r. Qed.
  Lemma lbind_ext {A C} (r : lexres A) (f g : A -> lexres C) : (forall a, f a = g a) -> lbind r f = lbind r g.
  Proof. intros H. destruct r; cbn; auto. Qed.
  Lemma lfold_app {S X} (f : S -> X -> lexres S) l l' s : lfold f (l ++ l') s = lbind (lfold f l s) (lfold f l').
  Proof. revert s. induction l as [|x l IH]; intros s; cbn [app lfold]; [reflexivity|]. rewrite lbind_assoc. apply lbind_ext. exact IH. Qed.
  Lemma lfold_map {S X Y} (f : S -> X -> lexres S) (g : Y -> X) l s : lfold f (map g l) s = lfold (fun s y => f s (g y)) l s.
  Proof. revert s. induction l as [|x l IH]; intros s; cbn [map lfold]; [reflexivity|]. apply lbind_ext. exact IH. Qed.
  Lemma lfold_ext {S X} (f g : S -> X -> lexres S) l s : (forall s x, f s x = g s x) -> lfold f l s = lfold g l s.
  Proof. intros H. revert s. induction l as [|x l IH]; intros s; cbn [lfold]; [reflexivity|]. rewrite H. apply lbind_ext. exact IH. Qed.
  Lemma options_items opts b : Forall no_db opts ->
    lfold (run_option numeric) opts b =
    lbind (lfold (load_item (dialect_of (b_dialect b))) (flat_map items_of opts) (b_schemas b))
      (fun ss => LOk (mk_dbm (b_dialect b) (b_current b) (fold_left extensions_after opts (b_extensions b)) (b_ext_cache b) ss)).
  Proof.
    revert b. induction opts as [|o opts IH]; intros b N; cbn [lfold flat_map fold_left].
    - cbn [lbind]. now destruct b.
    - inversion N; subst. rewrite lfold_app, lbind_assoc.
      assert (E : run_option numeric b o = lbind (lfold (load_item (dialect_of (b_dialect b))) (items_of o) (b_schemas b))
                   (fun ss => LOk (mk_dbm (b_dialect b) (b_current b) (extensions_after (b_extensions b) o) (b_ext_cache b) ss))).
      { destruct o; cbn [run_option items_of extensions_after]; try (rewrite lfold_map; reflexivity); [reflexivity|contradiction]. }
      rewrite E, lbind_assoc. apply lbind_ext. intros ss. cbn [lbind]. rewrite IH by assumption. reflexivity.
  Qed.

  Definition key_of (x : declared) : list (bool * bytes * bytes) :=
    match x with DTable t => [(true, t_schema t, t_name t)] | DView v => [(false, v_schema v, v_name v)] | DFunction _ => [] end.
  Lemma load_view_named d s n fs ddl v : load_view d s n fs ddl = LOk v -> v_schema v = s /\ v_name v = n.
  Proof. unfold load_view. intros H. apply lbind_ok in H. destruct H as (st & _ & H). injection H as <-. split; reflexivity. Qed.
  Lemma declares_key d i x : declares numeric d i x -> key_of x = item_key i.
  Proof.
    intros [t t' H|v v' H|f f' r H N]; cbn [key_of item_key]; [|destruct (load_view_named _ _ _ _ _ _ H) as (-> & ->); reflexivity|reflexivity].
    apply load_table_named in H. destruct H as (-> & ->). reflexivity.
  Qed.

  (** ** The invariant *)
  Definition holds (xs : list declared) (s : db_schema) : Prop :=
    ds_ignore s = false /\
    objects (ds_tables s) = tables_in (ds_name s) xs /\
    map plain_view (objects (ds_views s)) = views_in (ds_name s) xs /\
    fobjects (ds_functions s) = functions_in (ds_name s) xs /\
    fresh t_name t_ignore (ds_tables s) /\ fresh dv_name dv_ignore (ds_views s) /\
    (forall v, In v (objects (ds_views s)) -> dv_ignore v = false) /\ fpositions (ds_functions s) = [].
  Definition all_hold (xs : list declared) (ss : cached db_schema) : Prop :=
    tidy ds_name ds_ignore ss /\ map ds_name (objects ss) = first_seen [] (map d_schema xs) /\
    forall s, In s (objects ss) -> holds xs s.
  Lemma in_others s xs x : d_schema x <> s ->
    tables_in s (xs ++ [x]) = tables_in s xs /\ views_in s (xs ++ [x]) = views_in s xs /\ functions_in s (xs ++ [x]) = functions_in s xs.
  Proof.
    intros H. unfold tables_in, views_in, functions_in. rewrite !flat_map_app. cbn [flat_map].
    destruct x as [t|v|f]; cbn [d_schema] in H; (destruct (beqb _ s) eqn:E; [apply beqb_eq in E; congruence|]); cbn [app]; rewrite !app_nil_r; auto.
  Qed.
  Lemma holds_other xs x s : d_schema x <> ds_name s -> holds xs s -> holds (xs ++ [x]) s.
  Proof. intros N H. unfold holds. destruct (in_others (ds_name s) xs x N) as (-> & -> & ->). exact H. Qed.
  Lemma holds_empty xs n : ~ In n (map d_schema xs) -> holds xs (empty_ds n).
  Proof.
    intros N. assert (E : tables_in n xs = [] /\ views_in n xs = [] /\ functions_in n xs = []).
    { induction xs as [|x xs IH]; [auto|]. cbn [map] in N. assert (N1 : d_schema x <> n) by (intros E; apply N; now left). destruct (IH (fun I => N (or_intror I))) as (E1 & E2 & E3). unfold tables_in, views_in, functions_in in *. cbn [flat_map]. rewrite E1, E2, E3.
      destruct x as [t|v|f]; cbn [d_schema] in N1; (destruct (beqb _ n) eqn:E; [apply beqb_eq in E; congruence|]); auto. }
    destruct E as (E1 & E2 & E3). unfold holds. cbn [empty_ds ds_ignore ds_name ds_tables ds_views ds_functions cached_new fcached_new objects fobjects fpositions map]. rewrite E1, E2, E3.
    repeat split; auto; [| |intros v []]; intros m i ((y & Y & _) & _); destruct i; discriminate.
  Qed.
  (** A step that adds [x] to its schema. *)
  Lemma on_schema_ok xs ss x f : all_hold xs ss ->
    (forall s, ds_name s = d_schema x -> holds xs s -> exists s', f s = LOk s' /\ ds_name s' = ds_name s /\ holds (xs ++ [x]) s') ->
    exists ss', on_schema (d_schema x) f ss = LOk ss' /\ all_hold (xs ++ [x]) ss'.
  Proof.
    intros (T & N & H) F. unfold on_schema. destruct (tidy_lookup ds_name ds_ignore true (d_schema x) ss T (or_intror eq_refl)) as [(b & s & a & O & X & L)|(X & L)].
    - rewrite L, O, nth_split. destruct (F s X) as (s' & E & Ns & Hs); [apply H; rewrite O; apply in_or_app; right; now left|]. rewrite E. cbn [lbind]. eexists. split; [reflexivity|].
      assert (D : NoDup (map ds_name (b ++ s :: a))) by (rewrite <- O; apply T). rewrite set_split.
      assert (Q : b ++ s' :: a = map (at_name ds_name (ds_name s) (fun _ => s')) (b ++ s :: a)) by (now rewrite at_name_split).
      split; [|split].
      + assert (Hi : ds_ignore s' = ds_ignore s). { destruct Hs as (-> & _). symmetry. apply T. rewrite O. apply in_or_app. right. now left. }
        destruct T as (F1 & F2 & F3). split; [|split].
        * apply edit_fresh; [exact F1|]. rewrite O. apply Forall2_app; [|constructor]; [apply forall2_self; intros y; auto|auto|apply forall2_self; intros y; auto].
        * cbn [edit objects]. rewrite map_app in *. cbn [map] in *. now rewrite Ns.
        * cbn [edit objects]. intros y Y. apply in_app_or in Y. destruct Y as [Y|[<-|Y]]; [apply F3; rewrite O; apply in_or_app; now left|rewrite Hi; apply F3; rewrite O; apply in_or_app; right; now left|apply F3; rewrite O; apply in_or_app; right; now right].
      + cbn [edit objects]. rewrite map_app. cbn [map]. rewrite Ns. rewrite <- (map_cons ds_name s a), <- map_app, <- O, N. rewrite map_app, first_seen_app. cbn [app map first_seen].
        assert (I : In (d_schema x) (first_seen [] (map d_schema xs))). { rewrite <- N, O, map_app. apply in_or_app. right. left. exact X. }
        change (existsb (beqb (d_schema x)) (first_seen [] (map d_schema xs))) with (memb (d_schema x) (first_seen [] (map d_schema xs))). rewrite (proj2 (memb_in _ _) I). now rewrite app_nil_r.
      + cbn [edit objects]. destruct (nodup_split ds_name b s a D) as (D1 & D2). intros y Y. apply in_app_or in Y. destruct Y as [Y|[<-|Y]]; [|exact Hs|].
        * apply holds_other; [rewrite <- X; intros E'; now apply (D1 y Y)|]. apply H. rewrite O. apply in_or_app. now left.
        * apply holds_other; [rewrite <- X; intros E'; now apply (D2 y Y)|]. apply H. rewrite O. apply in_or_app. right. now right.
    - destruct (lookup _ _ _ _ _) as [o ss1] eqn:Q. cbn [fst] in L. subst o. assert (O : objects ss1 = objects ss) by (rewrite <- (lookup_objects ds_name ds_ignore true (d_schema x) ss), Q; reflexivity).
      assert (T1 : tidy ds_name ds_ignore ss1) by (pose proof (tidy_lookup_state ds_name ds_ignore true (d_schema x) ss T) as T1; now rewrite Q in T1).
      assert (NX : ~ In (d_schema x) (map d_schema xs)). { intros I. apply X. rewrite N. apply first_seen_in. auto. }
      destruct (F (empty_ds (d_schema x)) eq_refl (holds_empty xs _ NX)) as (s' & E & Ns & Hs). rewrite E. cbn [lbind]. eexists. split; [reflexivity|]. cbn [ds_name empty_ds] in Ns. split; [|split].
      + apply tidy_append; [exact T1|rewrite Ns, O; exact X|apply Hs].
      + cbn [append snd objects]. rewrite map_app, O, N. cbn [map]. rewrite Ns, map_app, first_seen_app. cbn [app map first_seen].
        change (existsb (beqb (d_schema x)) (first_seen [] (map d_schema xs))) with (memb (d_schema x) (first_seen [] (map d_schema xs))). rewrite (proj2 (memb_not _ _)); [reflexivity|]. rewrite <- N. exact X.
      + cbn [append snd objects]. rewrite O. intros y Y. apply in_app_or in Y. destruct Y as [Y|[<-|[]]]; [|exact Hs]. apply holds_other; [|now apply H]. intros E'. apply X. rewrite E'. now apply in_map.
  Qed.
  Lemma on_schema_inv n f ss ss' : on_schema n f ss = LOk ss' -> exists s s', ds_name s = n /\ f s = LOk s'.
  Proof.
    intros H. unfold on_schema in H. pose proof (lookup_sound_state ds_name ds_ignore true n ss) as S. pose proof (lookup_objects ds_name ds_ignore true n ss) as O.
    destruct (lookup _ _ _ _ _) as [[i|] ss1]; cbn [fst snd] in *.
    - destruct (S i eq_refl) as (s & Es & Ns & _). rewrite O, Es in H. apply lbind_ok in H. destruct H as (s' & E & _). eauto.
    - apply lbind_ok in H. destruct H as (s' & E & _). exists (empty_ds n), s'. auto.
  Qed.
  (** The three steps. *)
  Lemma lookup_none {A} (nm : A -> bytes) ig n c : ~ In n (map nm (objects c)) -> fst (lookup nm ig false n c) = None.
  Proof.
    intros H. destruct (fst (lookup nm ig false n c)) as [i|] eqn:E; [|reflexivity]. apply lookup_sound_state in E. destruct E as (a & Ea & Na & _). destruct H. rewrite <- Na. apply in_map. now apply nth_error_In with i.
  Qed.
  Lemma tables_names s n xs : In n (map t_name (tables_in s xs)) -> In (true, s, n) (flat_map key_of xs).
  Proof.
    intros H. apply in_map_iff in H. destruct H as (t & <- & I). unfold tables_in in I. apply in_flat_map in I. destruct I as (x & X & I). apply in_flat_map. exists x. split; [exact X|].
    destruct x as [t'| |]; [|destruct I|destruct I]. destruct (beqb (t_schema t') s) eqn:E; [|destruct I]. destruct I as [<-|[]]. apply beqb_eq in E. left. cbn. now rewrite E.
  Qed.
  Lemma views_names s n xs : In n (map v_name (views_in s xs)) -> In (false, s, n) (flat_map key_of xs).
  Proof.
    intros H. apply in_map_iff in H. destruct H as (t & <- & I). unfold views_in in I. apply in_flat_map in I. destruct I as (x & X & I). apply in_flat_map. exists x. split; [exact X|].
    destruct x as [|t'|]; [destruct I| |destruct I]. destruct (beqb (v_schema t') s) eqn:E; [|destruct I]. destruct I as [<-|[]]. apply beqb_eq in E. left. cbn. now rewrite E.
  Qed.
  Lemma load_item_ok d xs ss i x : all_hold xs ss -> declares numeric d i x -> (forall k, In k (item_key i) -> ~ In k (flat_map key_of xs)) ->
    exists ss', load_item d ss i = LOk ss' /\ all_hold (xs ++ [x]) ss'.
  Proof.
    intros A De K. destruct De as [t t' L|v v' L|f f' r L N]; cbn [load_item].
    - unfold load_table_option. destruct (load_table_named _ _ _ _ _ _ _ L) as (Es & En). assert (Ne : is_empty (ts_name t) = false) by (unfold load_table in L; destruct (is_empty (ts_name t)); [discriminate|reflexivity]). rewrite Ne.
      replace (ts_schema t) with (d_schema (DTable t')) by exact Es. apply on_schema_ok; [exact A|]. cbn [d_schema]. intros s Ns H. unfold load_table_in. destruct H as (H1 & H2 & H3 & H4 & H5 & H6 & H7 & H8).
      assert (X : ~ In (ts_name t) (map t_name (objects (ds_tables s)))). { rewrite H2. intros I. apply tables_names in I. revert I. apply K. left. now rewrite Ns, Es. }
      pose proof (lookup_none t_name t_ignore _ _ X) as Q. pose proof (lookup_objects t_name t_ignore false (ts_name t) (ds_tables s)) as O. pose proof (lookup_fresh t_name t_ignore false (ts_name t) _ H5) as F.
      destruct (lookup _ _ _ _ (ds_tables s)) as [o ts]. cbn [fst snd] in Q, O, F. subst o. rewrite L. cbn [lbind]. eexists. split; [reflexivity|]. split; [reflexivity|].
      assert (E : tables_in (ds_name s) (xs ++ [DTable t']) = tables_in (ds_name s) xs ++ [t'] /\ views_in (ds_name s) (xs ++ [DTable t']) = views_in (ds_name s) xs /\ functions_in (ds_name s) (xs ++ [DTable t']) = functions_in (ds_name s) xs).
      { unfold tables_in, views_in, functions_in. rewrite !flat_map_app. cbn [flat_map]. rewrite Ns, beqb_refl, !app_nil_r. auto. }
      destruct E as (E1 & E2 & E3). unfold holds, with_tables. cbn [ds_ignore ds_tables ds_views ds_functions ds_name]. rewrite E1, E2, E3. split; [exact H1|]. split; [cbn [append snd objects]; now rewrite O, H2|]. repeat split; auto.
      apply (append_fresh t_name t_ignore t' ts F). right. intros j (y & Y & Ny & _). apply X. rewrite <- O, <- En, <- Ny. apply in_map. now apply nth_error_In with j.
    - unfold load_view_option. destruct (load_view_named _ _ _ _ _ _ L) as (Es & En). unfold load_view in L. apply lbind_ok in L. destruct L as (st & L & Ev). injection Ev as Ev.
      assert (Ne : is_empty (vw_name v) = false). { unfold load_view_state in L. destruct (is_empty (vw_name v)); [|reflexivity]. cbn in L. discriminate. } rewrite Ne.
      replace (vw_schema v) with (d_schema (DView v')) by exact Es. apply on_schema_ok; [exact A|]. cbn [d_schema]. intros s Ns H. unfold load_view_in. destruct H as (H1 & H2 & H3 & H4 & H5 & H6 & H7 & H8).
      assert (X : ~ In (vw_name v) (map dv_name (objects (ds_views s)))).
      { assert (Z : map dv_name (objects (ds_views s)) = map v_name (views_in (ds_name s) xs)) by (rewrite <- H3, map_map; reflexivity). rewrite Z. intros I. apply views_names in I. revert I. apply K. left. now rewrite Ns, Es. }
      pose proof (lookup_none dv_name dv_ignore _ _ X) as Q. pose proof (lookup_objects dv_name dv_ignore false (vw_name v) (ds_views s)) as O. pose proof (lookup_fresh dv_name dv_ignore false (vw_name v) _ H6) as F.
      destruct (lookup _ _ _ _ (ds_views s)) as [o vs]. cbn [fst snd] in Q, O, F. subst o. rewrite L. cbn [lbind]. eexists. split; [reflexivity|]. split; [reflexivity|].
      assert (E : tables_in (ds_name s) (xs ++ [DView v']) = tables_in (ds_name s) xs /\ views_in (ds_name s) (xs ++ [DView v']) = views_in (ds_name s) xs ++ [v'] /\ functions_in (ds_name s) (xs ++ [DView v']) = functions_in (ds_name s) xs).
      { unfold tables_in, views_in, functions_in. rewrite !flat_map_app. cbn [flat_map]. rewrite Ns, beqb_refl, !app_nil_r. auto. }
      destruct E as (E1 & E2 & E3). unfold holds, with_views. cbn [ds_ignore ds_tables ds_views ds_functions ds_name]. rewrite E1, E2, E3. split; [exact H1|]. split; [exact H2|]. split; [cbn [append snd objects]; rewrite O, map_app, H3; cbn [map]; rewrite <- Ev; reflexivity|]. repeat split; auto.
      + apply (append_fresh dv_name dv_ignore _ vs F). left. reflexivity.
      + cbn [append snd objects]. rewrite O. intros y Y. apply in_app_or in Y. destruct Y as [Y|[<-|[]]]; [now apply H7|reflexivity].
    - unfold load_function_option. rewrite L. cbn [lbind fst]. assert (Ne : is_empty (f_name f') = false) by (destruct (f_name f'); [congruence|reflexivity]). rewrite Ne.
      apply (on_schema_ok xs ss (DFunction f')); [exact A|]. cbn [d_schema]. intros s Ns H. unfold load_function_in. destruct H as (H1 & H2 & H3 & H4 & H5 & H6 & H7 & H8).
      eexists. split; [reflexivity|]. split; [reflexivity|].
      assert (E : tables_in (ds_name s) (xs ++ [DFunction f']) = tables_in (ds_name s) xs /\ views_in (ds_name s) (xs ++ [DFunction f']) = views_in (ds_name s) xs /\ functions_in (ds_name s) (xs ++ [DFunction f']) = functions_in (ds_name s) xs ++ [f']).
      { unfold tables_in, views_in, functions_in. rewrite !flat_map_app. cbn [flat_map]. rewrite Ns, beqb_refl, !app_nil_r. auto. }
      destruct E as (E1 & E2 & E3). unfold holds, with_functions. cbn [ds_ignore ds_tables ds_views ds_functions ds_name fobjects fpositions]. rewrite E1, E2, E3, H4. repeat split; auto.
  Qed.
  Lemma load_item_inv d xs ss i ss' : all_hold xs ss -> load_item d ss i = LOk ss' -> (forall k, In k (item_key i) -> ~ In k (flat_map key_of xs)) -> exists x, declares numeric d i x.
  Proof.
    intros A H K. destruct i as [[t|]|[v|]|f]; cbn [load_item] in H.
    - unfold load_table_option in H. destruct (is_empty (ts_name t)) eqn:Ne; [discriminate|].
      destruct (load_table numeric d (ts_schema t) (ts_name t) (ts_fields t) (ts_ddl t) (empty_table (ts_schema t) (ts_name t))) as [t'| | |] eqn:L; [exists (DTable t'); now constructor| | |]; exfalso;
        (assert (Z : forall s, ds_name s = ts_schema t -> ~ In (ts_name t) (map t_name (objects (ds_tables s))) -> forall s', load_table_in numeric d t s <> LOk s');
         [intros s Ns X s'; unfold load_table_in; pose proof (lookup_none t_name t_ignore _ _ X) as Q; destruct (lookup _ _ _ _ (ds_tables s)) as [o ts]; cbn [fst] in Q; subst o; rewrite L; discriminate|]);
        destruct A as (T & N & A); unfold on_schema in H; pose proof (lookup_sound_state ds_name ds_ignore true (ts_schema t) ss) as S; pose proof (lookup_objects ds_name ds_ignore true (ts_schema t) ss) as O;
        (destruct (lookup _ _ _ _ _) as [[i|] ss1]; cbn [fst snd] in *;
         [destruct (S i eq_refl) as (s & Es & Ns & _); rewrite O, Es in H; apply lbind_ok in H; destruct H as (s' & E & _); apply (Z s Ns) in E; [exact E|];
          destruct (A s (nth_error_In _ _ Es)) as (_ & -> & _); intros I; apply tables_names in I; revert I; apply K; left; now rewrite Ns
         |apply lbind_ok in H; destruct H as (s' & E & _); apply (Z (empty_ds (ts_schema t)) eq_refl) in E; [exact E|intros []]]).
    - discriminate.
    - unfold load_view_option in H. destruct (is_empty (vw_name v)) eqn:Ne; [discriminate|].
      destruct (load_view_state d (vw_schema v) (vw_name v) (vw_fields v) (vw_ddl v) v_start) as [st| | |] eqn:L;
        [eexists; apply declares_view; unfold load_view; rewrite L; reflexivity| | |]; exfalso;
        (assert (Z : forall s, ds_name s = vw_schema v -> ~ In (vw_name v) (map dv_name (objects (ds_views s))) -> forall s', load_view_in d v s <> LOk s');
         [intros s Ns X s'; unfold load_view_in; pose proof (lookup_none dv_name dv_ignore _ _ X) as Q; destruct (lookup _ _ _ _ (ds_views s)) as [o ts]; cbn [fst] in Q; subst o; rewrite L; discriminate|]);
        destruct A as (T & N & A); unfold on_schema in H; pose proof (lookup_sound_state ds_name ds_ignore true (vw_schema v) ss) as S; pose proof (lookup_objects ds_name ds_ignore true (vw_schema v) ss) as O;
        (destruct (lookup _ _ _ _ _) as [[i|] ss1]; cbn [fst snd] in *;
         [destruct (S i eq_refl) as (s & Es & Ns & _); rewrite O, Es in H; apply lbind_ok in H; destruct H as (s' & E & _); apply (Z s Ns) in E; [exact E|];
          destruct (A s (nth_error_In _ _ Es)) as (_ & _ & H3 & _);
          (assert (Zm : map dv_name (objects (ds_views s)) = map v_name (views_in (ds_name s) xs)) by (rewrite <- H3, map_map; reflexivity));
          rewrite Zm; intros I; apply views_names in I; revert I; apply K; left; now rewrite Ns
         |apply lbind_ok in H; destruct H as (s' & E & _); apply (Z (empty_ds (vw_schema v)) eq_refl) in E; [exact E|intros []]]).
    - discriminate.
    - unfold load_function_option in H. apply lbind_ok in H. destruct H as ([f' r] & L & H). cbn [fst] in H. exists (DFunction f'). apply (declares_function numeric d f f' r L). destruct (f_name f'); [discriminate|congruence].
  Qed.
  Lemma load_items d l : forall xs ss, all_hold xs ss -> NoDup (flat_map key_of xs ++ flat_map item_key l) ->
    (forall ys, Forall2 (declares numeric d) l ys -> exists ss', lfold (load_item d) l ss = LOk ss' /\ all_hold (xs ++ ys) ss') /\
    (forall ss', lfold (load_item d) l ss = LOk ss' -> exists ys, Forall2 (declares numeric d) l ys).
  Proof.
    induction l as [|i l IH]; intros xs ss A D.
    - split; cbn [lfold]; [intros ys F; inversion F; subst; rewrite app_nil_r; eauto|eauto].
    - assert (K : forall k, In k (item_key i) -> ~ In k (flat_map key_of xs)).
      { intros k I1 I2. cbn [flat_map] in D. apply in_split in I2. destruct I2 as (a & c & E). rewrite E, <- app_assoc in D. cbn [app] in D. apply NoDup_remove_2 in D. apply D. rewrite !in_app_iff. auto. }
      assert (D' : forall x, declares numeric d i x -> NoDup (flat_map key_of (xs ++ [x]) ++ flat_map item_key l)).
      { intros x De. rewrite flat_map_app. cbn [flat_map]. rewrite (declares_key d i x De), app_nil_r, <- app_assoc. exact D. }
      split; cbn [lfold].
      + intros ys F. inversion F as [|i' x l' ys' De F' E1 E2]; subst. destruct (load_item_ok d xs ss i x A De K) as (ss1 & E & A1). rewrite E. cbn [lbind].
        destruct (IH (xs ++ [x]) ss1 A1 (D' x De)) as (H & _). destruct (H ys' F') as (ss' & E' & A'). exists ss'. rewrite <- app_assoc in A'. auto.
      + intros ss' H. apply lbind_ok in H. destruct H as (ss1 & E & H). destruct (load_item_inv d xs ss i ss1 A E K) as (x & De). destruct (load_item_ok d xs ss i x A De K) as (ss2 & E2 & A1).
        assert (ss2 = ss1) by congruence. subst ss2. destruct (IH (xs ++ [x]) ss1 A1 (D' x De)) as (_ & G). destruct (G ss' H) as (ys & F). exists (x :: ys). now constructor.
  Qed.
End Numeric.
