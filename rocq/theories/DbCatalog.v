(** * DbCatalog: the catalog read from a database is good (C56) *)
From Coq Require Import Lia.
From Verif Require Import GoBase GoBaseFacts CacheModel SpecCache CacheFacts CacheFnFacts UpsertModel DdlModel MigrateModel SpecMigrate LoadModel SpecLoad LoadMark TriggerModel TriggerStore ViewModel DbModel SpecDb DbPf DbRows DbRead.

(** ** Tables and views *)
Section Parts.
  Context (R : rows) (n : bytes).
  Lemma tpass_those {Q} (sch tab : Q -> bytes) (g : Q -> table -> table) l m t : t_name t = m ->
    tpass tab g (in_schema_of sch n l) t = fold_left (fun t r => g r t) (those_of sch tab n m l) t.
  Proof. intros <-. unfold tpass. now rewrite those_in_schema. Qed.
  Lemma the_table_parts t :
    let K := those_of c_schema c_table n (t_name t) (r_constraints R) in
    the_table R n t = mk_table (t_schema t) (t_name t)
      (fold_left marking K (appends l_name (those_of l_schema l_table n (t_name t) (r_columns R)) (t_columns t)))
      (appends c_name K (t_constraints t))
      (appends x_name (those_of x_schema x_table n (t_name t) (r_indexes R)) (t_indexes t))
      (appends g_name (those_of g_schema g_table n (t_name t) (r_triggers R)) (t_triggers t)) (t_virtual t) (t_virtual_args t) (t_ignore t).
  Proof.
    intros K. unfold the_table. rewrite (tpass_those l_schema l_table add_column_row _ (t_name t)) by reflexivity. rewrite column_rows_table.
    rewrite (tpass_those c_schema c_table add_constraint_row _ (t_name t)) by reflexivity. rewrite constraint_rows_table. cbn [t_schema t_name t_columns t_constraints t_indexes t_triggers t_virtual t_virtual_args t_ignore].
    rewrite (tpass_those x_schema x_table add_index_row _ (t_name t)) by reflexivity. rewrite index_rows_table. cbn [t_schema t_name t_columns t_constraints t_indexes t_triggers t_virtual t_virtual_args t_ignore].
    rewrite (tpass_those g_schema g_table add_trigger_row _ (t_name t)) by reflexivity. rewrite trigger_rows_table. reflexivity.
  Qed.
  Lemma free_those names m l : filter (fun x => beqb (x_table x) m) (free_indexes names (in_schema_of x_schema n l)) =
    if memb m names then [] else those_of x_schema x_table n m l.
  Proof.
    unfold free_indexes, in_schema_of, those_of. rewrite !filter_filter. induction l as [|x l IH]; cbn [filter]; [now destruct (memb m names)|].
    destruct (beqb (x_schema x) n) eqn:E1; cbn [andb]; [|exact IH]. destruct (beqb (x_table x) m) eqn:E2.
    - apply beqb_eq in E2. rewrite E2. destruct (memb m names); cbn [negb andb]; [exact IH|]. now rewrite IH.
    - rewrite andb_false_r. exact IH.
  Qed.
  Lemma the_view_parts v : plain_view (the_view R n v) =
    mk_view (dv_schema v) (dv_name v) (vs_materialized (dv_state v))
      (objects (fst (vs_indexes (dv_state v))) ++ (if memb (dv_name v) (table_names R n) then [] else those_of x_schema x_table n (dv_name v) (r_indexes R)))
      (vt_list (vs_triggers (dv_state v)) ++ those_of g_schema g_table n (dv_name v) (r_triggers R)) (vs_sql (dv_state v)) (dv_ignore v).
  Proof.
    unfold the_view, vpass, on_state. cbn [dv_schema dv_name dv_ignore dv_state]. rewrite free_those, those_in_schema, index_rows_view, trigger_rows_view.
    unfold plain_view, view_of. cbn [dv_schema dv_name dv_ignore dv_state vs_materialized vs_sql vs_indexes vs_triggers fst]. now rewrite appends_objects, vt_appends_list.
  Qed.
End Parts.
Lemma in_schema_key {Q} (sch : Q -> bytes) n l r : In r (in_schema_of sch n l) -> sch r = n /\ In r l.
Proof. intros I. apply filter_In in I. destruct I as (I & E). apply beqb_eq in E. auto. Qed.
Lemma columns_plain R n m : well_formed R -> let L := those_of l_schema l_table n m (r_columns R) in
  plain_names L /\ NoDup (map l_name L) /\ Forall (fun l => l_name l <> [] /\ l_ignore l = false) L.
Proof.
  intros (_ & _ & _ & _ & D & F) L. assert (D1 : NoDup (map l_name L)) by (unfold L; now apply nodup_those).
  assert (F1 : Forall (fun l => l_name l <> [] /\ l_ignore l = false) L) by (now apply forall_filter). repeat split; auto. revert F1. apply Forall_impl. tauto.
Qed.
Lemma table_read R n t : well_formed R -> In t (in_schema_of t_schema n (r_tables R)) ->
  table_as_read R t (the_table R n t) /\ fresh l_name l_ignore (t_columns (the_table R n t)).
Proof.
  intros W I. destruct (in_schema_key _ _ _ _ I) as (E & I1). assert (Bt : bare_table t) by (destruct W as (_ & W2 & _); rewrite Forall_forall in W2; now apply W2).
  destruct Bt as (N & Et). destruct (columns_plain R n (t_name t) W) as (P1 & P2 & P3). rewrite the_table_parts.
  assert (E1 : t_columns t = cached_new) by now rewrite Et. assert (E2 : t_constraints t = cached_new) by now rewrite Et. assert (E3 : t_indexes t = cached_new) by now rewrite Et.
  assert (E4 : t_triggers t = cached_new) by now rewrite Et. assert (E5 : t_ignore t = false) by now rewrite Et.
  rewrite E1, E2, E3, E4, E5. set (L := those_of l_schema l_table n (t_name t) (r_columns R)) in *.
  assert (F : fresh l_name l_ignore (appends l_name L cached_new)).
  { apply neat_fresh, appends_neat; [apply neat_new|exact P2|exact P3]. }
  assert (P : plain_names (objects (appends l_name L cached_new))) by (rewrite appends_objects; exact P1).
  destruct (markings_ok (those_of c_schema c_table n (t_name t) (r_constraints R)) _ F P) as (O & F2). split; [|exact F2].
  unfold table_as_read. rewrite E. cbn [t_schema t_name t_columns t_constraints t_indexes t_triggers t_virtual t_virtual_args t_ignore]. rewrite O, !appends_objects. repeat split; auto.
Qed.
Lemma view_read R v n : well_formed R -> In v (in_schema_of v_schema n (r_views R)) -> view_as_read R v (plain_view (the_view R n (view_row v))).
Proof.
  intros W I. destruct (in_schema_key _ _ _ _ I) as (E & I1). assert (Bv : bare_view v) by (destruct W as (_ & _ & _ & W2 & _); rewrite Forall_forall in W2; now apply W2).
  destruct Bv as (N & Ev). rewrite the_view_parts. cbn [view_row dv_schema dv_name dv_ignore dv_state vs_materialized vs_sql vs_indexes vs_triggers fst objects vt_list].
  assert (E1 : v_indexes v = []) by now rewrite Ev. assert (E2 : v_triggers v = []) by now rewrite Ev. assert (E3 : v_ignore v = false) by now rewrite Ev.
  unfold view_as_read. rewrite E. cbn [v_schema v_name v_materialized v_indexes v_triggers v_sql v_ignore]. rewrite E1, E2, E3. cbn [app]. repeat split; auto.
  assert (M : memb (v_name v) (table_names R n) = existsb (fun t => beqb (t_schema t) n && beqb (t_name t) (v_name v)) (r_tables R)).
  { unfold table_names, in_schema_of. induction (r_tables R) as [|t l IH]; [reflexivity|]. cbn [filter existsb]. destruct (beqb (t_schema t) n); cbn [andb orb map]; [|exact IH].
    unfold memb in *. cbn [existsb]. now rewrite IH, (beqb_sym (v_name v)). }
  now rewrite M.
Qed.
Lemma schema_read R n : well_formed R -> schema_as_read R (plain_schema (the_schema R n)).
Proof.
  intros W. rewrite (the_schema_spec R W n). unfold schema_as_read, plain_schema. cbn [ds_name ds_tables ds_views ds_functions ds_ignore s_name s_tables s_views s_functions s_ignore].
  split; [reflexivity|]. split; [|split].
  - rewrite objects_mapped. unfold the_tables. rewrite appends_objects. cbn [cached_new objects app].
    assert (H : forall t, In t (in_schema_of t_schema n (r_tables R)) -> table_as_read R t (the_table R n t)) by (intros t I; now apply table_read).
    clear - H. revert H. generalize (in_schema_of t_schema n (r_tables R)). intros l. induction l as [|t l IH]; intros H; cbn [map]; constructor; [apply H; now left|]. apply IH. intros x X. apply H. now right.
  - unfold plain_cached. cbn [objects]. rewrite objects_mapped. unfold the_views. rewrite appends_objects. cbn [cached_new objects app]. rewrite !map_map.
    assert (H : forall v, In v (in_schema_of v_schema n (r_views R)) -> view_as_read R v (plain_view (the_view R n (view_row v)))) by (intros v I; now apply view_read).
    clear - H. revert H. generalize (in_schema_of v_schema n (r_views R)). intros l. induction l as [|t l IH]; intros H; cbn [map]; constructor; [apply H; now left|]. apply IH. intros x X. apply H. now right.
  - now rewrite fappends_objects.
Qed.
Lemma the_schema_name R n : ds_name (the_schema R n) = n.
Proof.
  unfold the_schema. rewrite (proj1 (pass_steady g_schema f_trigger f_trigger_steady _ _)). rewrite (proj1 (pass_steady f_schema f_function (fun f s => conj eq_refl eq_refl) _ _)).
  rewrite (proj1 (pass_steady x_schema index_row index_row_steady _ _)), (proj1 (pass_steady c_schema f_constraint (fun c => in_table_steady _ _) _ _)), (proj1 (pass_steady l_schema f_column (fun c => in_table_steady _ _) _ _)).
  rewrite (proj1 (pass_steady v_schema f_view (fun f s => conj eq_refl eq_refl) _ _)), (proj1 (pass_steady t_schema f_table (fun f s => conj eq_refl eq_refl) _ _)). reflexivity.
Qed.
Lemma rows_read R m : well_formed R -> catalog_as_read R (objects (plain_cached plain_schema (all_rows R (mk_cached [] m)))).
Proof.
  intros W. unfold plain_cached. cbn [objects]. destruct (all_rows_spec R m) as (_ & ->). split.
  - rewrite !map_map. cbn [plain_schema s_name]. rewrite <- (map_id (first_seen _ _)). apply map_ext. exact (the_schema_name R).
  - rewrite map_map, Forall_map. apply Forall_forall. intros n _. now apply schema_read.
Qed.

(** ** Good slices *)
Section Good.
  Context {A : Type} (nm : A -> bytes) (ig : A -> bool) (ae : bool).
  Lemma fresh_in_step c : fresh nm ig c -> in_step nm ig ae c.
  Proof.
    intros F n N (a & I & G & E). destruct (lookup_split nm ig ae n c F N) as [(_ & H)|(b & x & t & _ & L & _)]; [|eauto].
    rewrite (H a I E) in G. discriminate.
  Qed.
  Lemma fresh_good c : fresh nm ig c -> NoDup (map nm (objects c)) -> (ae = false -> forall a, In a (objects c) -> nm a <> []) -> good_slice nm ig ae c.
  Proof.
    intros F D N. split; [now apply fresh_in_step|]. split; [|exact N]. unfold distinct. apply (nodup_filter_map nm nm); auto.
  Qed.
  Lemma neat_good c : neat nm ig c -> good_slice nm ig ae c.
  Proof. intros N. apply fresh_good; [now apply neat_fresh|apply N|]. intros _ a I. now apply N. Qed.
End Good.
Lemma fresh_plain {A C} (nm : A -> bytes) (ig : A -> bool) (nm' : C -> bytes) (ig' : C -> bool) (f : A -> C) c :
  (forall a, nm' (f a) = nm a /\ ig' (f a) = ig a) -> fresh nm ig c -> fresh nm' ig' (plain_cached f c).
Proof.
  intros H F n i ((b & X & Nb & Ib) & L). unfold plain_cached in *. cbn [objects positions] in *. rewrite nth_error_map in X. destruct (nth_error (objects c) i) as [a|] eqn:E; [|discriminate].
  cbn in X. injection X as <-. destruct (H a) as (H1 & H2). apply F. split; [exists a; repeat split; congruence|]. intros j (a' & E' & N' & I'). apply L. exists (f a'). destruct (H a') as (H3 & H4).
  rewrite nth_error_map, E'. cbn. repeat split; congruence.
Qed.
Lemma fappends_fresh fs c : Forall (fun f => f_ignore f = false) fs -> ffresh f_name f_ignore c -> ffresh f_name f_ignore (fappends fs c).
Proof.
  unfold fappends. revert c. induction fs as [|f fs IH]; intros c F H; cbn [fold_left]; [exact H|]. inversion F; subst. apply IH; [assumption|]. now apply fappend_fresh.
Qed.
Lemma fresh_functions c : ffresh f_name f_ignore c -> (forall f, In f (fobjects c) -> f_name f <> []) -> good_functions c.
Proof.
  intros F N. split; [exact N|]. intros n E. destruct (flookup_state f_name f_ignore n c F E) as (-> & _). split.
  - intros H. destruct (hits f_name f_ignore (fobjects c) n) as [|i l] eqn:Q; [congruence|]. assert (I : In i (hits f_name f_ignore (fobjects c) n)) by (rewrite Q; now left).
    apply hits_in in I. destruct I as (f & X & Nf & If). exists f. repeat split; auto. now apply nth_error_In in X.
  - intros (f & I & If & Nf) Q. apply In_nth_error in I. destruct I as (i & X). assert (I : In i (hits f_name f_ignore (fobjects c) n)) by (apply hits_in; exists f; auto). now rewrite Q in I.
Qed.

(** ** The catalog *)
Lemma those_key {Q} (sch tab : Q -> bytes) s t l r : In r (those_of sch tab s t l) <-> In r l /\ sch r = s /\ tab r = t.
Proof.
  unfold those_of. rewrite filter_In, andb_true_iff. split.
  - intros (I & E1 & E2). apply beqb_eq in E1, E2. auto.
  - intros (I & <- & <-). now rewrite !beqb_refl.
Qed.
Lemma forall2_in {A C} (P : A -> C -> Prop) l l' c : Forall2 P l l' -> In c l' -> exists a, In a l /\ P a c.
Proof. induction 1 as [|a b l l' H F IH]; intros I; [destruct I|]. destruct I as [<-|I]; [exists a; split; [now left|exact H]|]. destruct (IH I) as (x & X & Y). exists x. split; [now right|exact Y]. Qed.
Lemma forall2_in_left {A C} (P : A -> C -> Prop) l l' a : Forall2 P l l' -> In a l -> exists c, In c l' /\ P a c.
Proof. induction 1 as [|x b l l' H F IH]; intros I; [destruct I|]. destruct I as [<-|I]; [exists b; split; [now left|exact H]|]. destruct (IH I) as (y & X & Y). exists y. split; [now right|exact Y]. Qed.

Section Catalog.
  Context (d : QuoteModel.dialect) (R : rows) (W : well_formed R) (V : well_named d R).
  Lemma good_read_table n t : In t (in_schema_of t_schema n (r_tables R)) -> good_table d n (the_table R n t).
  Proof.
    intros I. destruct (table_read R n t W I) as (T & F). destruct (in_schema_key _ _ _ _ I) as (E & I1).
    destruct T as (T1 & T2 & _ & _ & _ & T3 & T4 & T5 & T6). rewrite E in *.
    assert (Bt : bare_table t) by (destruct W as (_ & W2 & _); rewrite Forall_forall in W2; now apply W2). destruct Bt as (N & Et).
    assert (E2 : t_constraints t = cached_new) by now rewrite Et. assert (E3 : t_indexes t = cached_new) by now rewrite Et. assert (E4 : t_triggers t = cached_new) by now rewrite Et.
    destruct V as (V1 & V2 & V3 & V4 & V5 & V6 & _). destruct (columns_plain R n (t_name t) W) as (P1 & P2 & P3).
    split; [exact T1|]. split; [|split; [|split; [|split; [|split]]]].
    - apply fresh_good; [exact F| |].
      + rewrite T3, map_map. rewrite (map_ext _ _ (mark_name _)). exact P2.
      + intros _ l X. rewrite T3 in X. apply in_map_iff in X. destruct X as (x & <- & X). rewrite mark_name. rewrite Forall_forall in P3. now apply P3.
    - intros ND. destruct (V1 ND) as (V1' & V1''). rewrite the_table_parts. cbn [t_constraints]. rewrite E2. apply neat_good, appends_neat; [apply neat_new|cbn [cached_new objects app]; now apply nodup_those|].
      apply forall_filter. rewrite Forall_forall in V1'', V2 |- *. auto.
    - rewrite the_table_parts. cbn [t_indexes]. rewrite E3. apply neat_good, appends_neat; [apply neat_new|cbn [cached_new objects app]; now apply nodup_those|now apply forall_filter].
    - intros x X. rewrite T5 in X. apply those_key in X. rewrite T2. tauto.
    - rewrite the_table_parts. cbn [t_triggers]. rewrite E4. apply neat_good, appends_neat; [apply neat_new|cbn [cached_new objects app]; now apply nodup_those|now apply forall_filter].
    - intros x X. rewrite T6 in X. apply those_key in X. rewrite T2. tauto.
  Qed.
  Lemma good_read_schema current n : n <> [] \/ current = [] -> good_schema d current (plain_schema (the_schema R n)).
  Proof.
    intros C. rewrite (the_schema_spec R W n). unfold good_schema, plain_schema. cbn [ds_name ds_tables ds_views ds_functions ds_ignore s_name s_tables s_views s_functions s_ignore].
    assert (NV : neat dv_name dv_ignore (mapped (the_view R n) (the_views R n))) by (apply neat_mapped; [now apply views_neat|auto]).
    split; [exact C|]. split; [|split; [|split; [|split; [|split]]]].
    - apply neat_good, neat_mapped; [now apply tables_neat|]. apply the_table_keeps.
    - intros t X. rewrite objects_mapped in X. apply in_map_iff in X. destruct X as (r & <- & X). unfold the_tables in X. rewrite appends_objects in X. now apply good_read_table.
    - apply fresh_good.
      + apply (fresh_plain dv_name dv_ignore); [auto|]. now apply neat_fresh.
      + unfold plain_cached. cbn [objects]. rewrite map_map. apply NV.
      + intros _ v X. unfold plain_cached in X. cbn [objects] in X. apply in_map_iff in X. destruct X as (r & <- & X). now apply NV in X.
    - intros v X. unfold plain_cached in X. cbn [objects] in X. rewrite objects_mapped, map_map in X. apply in_map_iff in X. destruct X as (r & <- & X). unfold the_views in X. rewrite appends_objects in X.
      cbn [cached_new objects app] in X. apply in_map_iff in X. destruct X as (v & <- & X). apply in_schema_key in X. apply X.
    - apply fresh_functions.
      + apply fappends_fresh; [|intros x; reflexivity]. apply forall_filter. destruct V as (_ & _ & _ & _ & _ & _ & V1). revert V1. apply Forall_impl. tauto.
      + rewrite fappends_objects. cbn [fcached_new fobjects app]. intros f X. apply in_schema_key in X. destruct V as (_ & _ & _ & _ & _ & _ & V1). rewrite Forall_forall in V1. now apply V1.
    - intros f X. rewrite fappends_objects in X. apply in_schema_key in X. apply X.
  Qed.
  Lemma good_read_catalog m dialect current es ec :
    current = [] \/ (Forall (fun t => t_schema t <> []) (r_tables R) /\ Forall (fun v => v_schema v <> []) (r_views R) /\ Forall (fun f => f_schema f <> []) (r_functions R)) ->
    catalog d current (mk_metadata dialect current es ec (plain_cached plain_schema (all_rows R (mk_cached [] m)))).
  Proof.
    intros C. destruct (all_rows_spec R m) as ((F & D & I) & O). split; cbn [d_schemas].
    - apply fresh_good; [|unfold plain_cached; cbn [objects]; now rewrite map_map|discriminate]. apply (fresh_plain ds_name ds_ignore); auto.
    - unfold plain_cached. cbn [objects]. rewrite O, map_map. intros sc X. apply in_map_iff in X. destruct X as (n & <- & X). apply good_read_schema.
      destruct C as [C|(C1 & C2 & C3)]; [now right|]. left. unfold schema_names in X. apply first_seen_in in X. destruct X as (X & _). rewrite Forall_forall in C1, C2, C3.
      rewrite !in_app_iff, !in_map_iff in X. destruct X as [(r & <- & X)|[(r & <- & X)|(r & <- & X)]]; auto.
  Qed.
  Lemma read_not_ignored db : catalog_as_read R (objects (d_schemas db)) -> nothing_ignored db.
  Proof.
    intros (_ & S) sc I. rewrite Forall_forall in S. destruct (S sc I) as (S1 & S2 & S3 & S4). destruct W as (W1 & W2 & W3 & W4 & W5 & W6), V as (V1 & V2 & V3 & V4 & V5 & V6 & V7). rewrite Forall_forall in W6, V2, V4, V6, V7.
    split; [exact S1|]. split; [|split].
    - intros t X. destruct (forall2_in _ _ _ _ S2 X) as (r & _ & T1 & T2 & _ & _ & T5 & T6 & T7 & T8 & T9). split; [exact T5|]. rewrite T6, T7, T8, T9. repeat split.
      + intros l L. apply in_map_iff in L. destruct L as (x & <- & L). rewrite mark_ignore. apply those_key in L. apply W6, L.
      + intros x L. apply those_key in L. now apply V2.
      + intros x L. apply those_key in L. now apply V4.
      + intros x L. apply those_key in L. now apply V6.
    - intros v X. destruct (forall2_in _ _ _ _ S3 X) as (r & _ & T). apply T.
    - intros f X. rewrite S4 in X. apply in_schema_key in X. now apply V7.
  Qed.
  (** *** What it lists *)
  Lemma read_lists db i : catalog_as_read R (objects (d_schemas db)) -> (lists db i <-> told R i).
  Proof.
    intros C. pose proof (read_not_ignored db C) as NI. destruct C as (Nm & S). rewrite Forall_forall in S.
    assert (SC : forall s, (exists sc, In sc (objects (d_schemas db)) /\ s_name sc = s) <-> In s (map t_schema (r_tables R) ++ map v_schema (r_views R) ++ map f_schema (r_functions R))).
    { intros s. pose proof (first_seen_in [] (map t_schema (r_tables R) ++ map v_schema (r_views R) ++ map f_schema (r_functions R)) s) as X. rewrite <- Nm in X. rewrite in_map_iff in X. cbn [In] in X.
      split; [intros (sc & I & E); apply X; eauto|]. intros H. destruct (proj2 X (conj H (fun f => f))) as (sc & E & I). eauto. }
    assert (TB : forall sc t, In sc (objects (d_schemas db)) -> In t (objects (s_tables sc)) -> exists r, In r (r_tables R) /\ t_schema r = s_name sc /\ table_as_read R r t).
    { intros sc t I X. destruct (S sc I) as (_ & S2 & _). destruct (forall2_in _ _ _ _ S2 X) as (r & Y & T). apply in_schema_key in Y. exists r. tauto. }
    assert (BT : forall r, In r (r_tables R) -> exists sc t, In sc (objects (d_schemas db)) /\ s_name sc = t_schema r /\ In t (objects (s_tables sc)) /\ t_ignore t = false /\ table_as_read R r t).
    { intros r X. destruct (proj2 (SC (t_schema r))) as (sc & I & E); [apply in_or_app; left; now apply in_map|]. destruct (S sc I) as (_ & S2 & _).
      destruct (forall2_in_left _ _ _ r S2) as (t & T1 & T2); [apply filter_In; rewrite E, beqb_refl; auto|]. exists sc, t. repeat split; auto; apply T2. }
    assert (PT : forall s tn, (exists sc t, In sc (objects (d_schemas db)) /\ s_name sc = s /\ In t (objects (s_tables sc)) /\ t_name t = tn) <-> (exists r, In r (r_tables R) /\ t_schema r = s /\ t_name r = tn)).
    { intros s tn. split.
      - intros (sc & t & I & <- & X & <-). destruct (TB sc t I X) as (r & Y & E & T). exists r. repeat split; auto. symmetry. apply T.
      - intros (r & X & <- & <-). destruct (BT r X) as (sc & t & I & E & Y & _ & T). exists sc, t. repeat split; auto. apply T. }
    unfold lists. destruct W as (W1 & W2 & W3 & W4 & W5 & W6), V as (V1 & V2 & V3 & V4 & V5 & V6 & V7). rewrite Forall_forall in W6, V2, V4, V6, V7.
    destruct i as [s|s t|s t n|s t n|s t n|s t n|s v|s f]; cbn [schema_has table_has told].
    - split.
      + intros (sc & I & _ & ->). assert (X : exists sc', In sc' (objects (d_schemas db)) /\ s_name sc' = s_name sc) by eauto. apply SC in X. rewrite !in_app_iff, !in_map_iff in X.
        destruct X as [(r & E & X)|[(r & E & X)|(r & E & X)]]; [left|right; left|right; right]; eauto.
      + intros H. destruct (proj2 (SC s)) as (sc & I & E); [rewrite !in_app_iff, !in_map_iff; destruct H as [(r & X & E)|[(r & X & E)|(r & X & E)]]; [left|right; left|right; right]; eauto|].
        exists sc. split; [exact I|]. split; [apply (NI sc I)|]. now symmetry.
    - rewrite <- PT. split.
      + intros (sc & I & _ & x & X & _ & -> & ->). exists sc, x. auto.
      + intros (sc & x & I & <- & X & <-). exists sc. split; [exact I|]. split; [apply (NI sc I)|]. exists x. split; [exact X|]. split; [|auto]. now apply (NI sc I).
    - split.
      + intros (sc & I & _ & x & X & _ & -> & -> & l & L & Li & <-). destruct (TB sc x I X) as (r & Y & E & T). split; [apply PT; exists sc, x; auto|].
        destruct T as (T1 & T2 & _ & _ & _ & T6 & _). rewrite T6 in L. apply in_map_iff in L. destruct L as (y & <- & L). apply those_key in L. exists y. rewrite mark_name, <- E, T2. tauto.
      + intros ((r & X & <- & <-) & l & L & L1 & L2 & <-). destruct (BT r X) as (sc & x & I & E & Y & Z & T). exists sc. split; [exact I|]. split; [apply (NI sc I)|]. exists x. split; [exact Y|]. split; [exact Z|].
        destruct T as (T1 & T2 & _ & _ & _ & T6 & _). split; [now symmetry|]. split; [now symmetry|]. eexists. rewrite T6. split; [apply in_map, those_key; split; [exact L|]; split; [exact L1|exact L2]|]. rewrite mark_name, mark_ignore. split; [now apply W6|reflexivity].
    - split.
      + intros (sc & I & _ & x & X & _ & -> & -> & l & L & Li & <-). destruct (TB sc x I X) as (r & Y & E & T). split; [apply PT; exists sc, x; auto|].
        destruct T as (T1 & T2 & _ & _ & _ & _ & T6 & _). rewrite T6 in L. apply those_key in L. exists l. rewrite <- E, T2. tauto.
      + intros ((r & X & <- & <-) & l & L & L1 & L2 & <-). destruct (BT r X) as (sc & x & I & E & Y & Z & T). exists sc. split; [exact I|]. split; [apply (NI sc I)|]. exists x. split; [exact Y|]. split; [exact Z|].
        destruct T as (T1 & T2 & _ & _ & _ & _ & T6 & _). split; [now symmetry|]. split; [now symmetry|]. exists l. rewrite T6. split; [apply those_key; auto|]. split; [now apply V2|reflexivity].
    - split.
      + intros (sc & I & _ & x & X & _ & -> & -> & l & L & Li & <-). destruct (TB sc x I X) as (r & Y & E & T). split; [apply PT; exists sc, x; auto|].
        destruct T as (T1 & T2 & _ & _ & _ & _ & _ & T6 & _). rewrite T6 in L. apply those_key in L. exists l. rewrite <- E, T2. tauto.
      + intros ((r & X & <- & <-) & l & L & L1 & L2 & <-). destruct (BT r X) as (sc & x & I & E & Y & Z & T). exists sc. split; [exact I|]. split; [apply (NI sc I)|]. exists x. split; [exact Y|]. split; [exact Z|].
        destruct T as (T1 & T2 & _ & _ & _ & _ & _ & T6 & _). split; [now symmetry|]. split; [now symmetry|]. exists l. rewrite T6. split; [apply those_key; auto|]. split; [now apply V4|reflexivity].
    - split.
      + intros (sc & I & _ & x & X & _ & -> & -> & l & L & Li & <-). destruct (TB sc x I X) as (r & Y & E & T). split; [apply PT; exists sc, x; auto|].
        destruct T as (T1 & T2 & _ & _ & _ & _ & _ & _ & T6). rewrite T6 in L. apply those_key in L. exists l. rewrite <- E, T2. tauto.
      + intros ((r & X & <- & <-) & l & L & L1 & L2 & <-). destruct (BT r X) as (sc & x & I & E & Y & Z & T). exists sc. split; [exact I|]. split; [apply (NI sc I)|]. exists x. split; [exact Y|]. split; [exact Z|].
        destruct T as (T1 & T2 & _ & _ & _ & _ & _ & _ & T6). split; [now symmetry|]. split; [now symmetry|]. exists l. rewrite T6. split; [apply those_key; auto|]. split; [now apply V6|reflexivity].
    - split.
      + intros (sc & I & _ & -> & x & X & _ & <-). destruct (S sc I) as (_ & _ & S3 & _). destruct (forall2_in _ _ _ _ S3 X) as (r & Y & T). apply in_schema_key in Y. exists r. split; [apply Y|]. split; [apply Y|]. symmetry. apply T.
      + intros (r & X & <- & <-). destruct (proj2 (SC (v_schema r))) as (sc & I & E); [apply in_or_app; right; apply in_or_app; left; now apply in_map|]. exists sc. split; [exact I|]. split; [apply (NI sc I)|]. split; [now symmetry|].
        destruct (S sc I) as (_ & _ & S3 & _). destruct (forall2_in_left _ _ _ r S3) as (x & T1 & T2); [apply filter_In; rewrite E, beqb_refl; auto|]. exists x. split; [exact T1|]. split; apply T2.
    - split.
      + intros (sc & I & _ & -> & x & X & _ & <-). destruct (S sc I) as (_ & _ & _ & S4). rewrite S4 in X. apply in_schema_key in X. exists x. tauto.
      + intros (r & X & <- & <-). destruct (proj2 (SC (f_schema r))) as (sc & I & E); [apply in_or_app; right; apply in_or_app; right; now apply in_map|]. exists sc. split; [exact I|]. split; [apply (NI sc I)|]. split; [now symmetry|].
        destruct (S sc I) as (_ & _ & _ & S4). exists r. rewrite S4. split; [apply filter_In; rewrite E, beqb_refl; auto|]. split; [now apply V7|reflexivity].
  Qed.
End Catalog.
