(** * DbRead: all rows together (C56) *)
From Coq Require Import Lia.
From Verif Require Import GoBase GoBaseFacts CacheModel SpecCache CacheFacts UpsertModel DdlModel MigrateModel LoadModel SpecLoad LoadMark TriggerModel TriggerStore ViewModel DbModel SpecDb DbPf DbRows.

(** ** Filters *)
Lemma filter_filter {A} (p q : A -> bool) l : filter q (filter p l) = filter (fun x => p x && q x) l.
Proof. induction l as [|x l IH]; [reflexivity|]. cbn [filter]. destruct (p x); cbn [filter andb]; [destruct (q x); now rewrite IH|exact IH]. Qed.
Lemma those_in_schema {R} (sch tab : R -> bytes) s t l : filter (fun r => beqb (tab r) t) (in_schema_of sch s l) = those_of sch tab s t l.
Proof. apply filter_filter. Qed.
Lemma nodup_filter_map {A N M} (f : A -> N) (g : A -> M) p l : (forall x y, p x = true -> p y = true -> g x = g y -> f x = f y) -> NoDup (map f l) -> NoDup (map g (filter p l)).
Proof.
  intros H. induction l as [|x l IH]; intros D; cbn [filter map]; [constructor|]. inversion D as [|? ? D1 D2]; subst. destruct (p x) eqn:E; [|now apply IH]. cbn [map]. constructor; [|now apply IH].
  intros X. apply in_map_iff in X. destruct X as (y & G & Y). apply filter_In in Y. destruct Y as (Y & P). apply D1. rewrite <- (H y x P E G). now apply in_map.
Qed.
Lemma nodup_in_schema {R} (sch nm : R -> bytes) s l : NoDup (map (fun r => (sch r, nm r)) l) -> NoDup (map nm (in_schema_of sch s l)).
Proof. apply nodup_filter_map. intros x y X Y E. apply beqb_eq in X, Y. congruence. Qed.
Lemma nodup_those {R} (sch tab nm : R -> bytes) s t l : NoDup (map (fun r => (sch r, tab r, nm r)) l) -> NoDup (map nm (those_of sch tab s t l)).
Proof. apply nodup_filter_map. intros x y X Y E. apply andb_prop in X, Y. destruct X as (X1 & X2), Y as (Y1 & Y2). apply beqb_eq in X1, X2, Y1, Y2. congruence. Qed.
Lemma forall_filter {A} (P : A -> Prop) p l : Forall P l -> Forall P (filter p l).
Proof. rewrite !Forall_forall. intros H x X. apply filter_In in X. now apply H. Qed.

(** ** The schemas *)
Lemma first_seen_app seen a b : first_seen seen (a ++ b) = first_seen seen a ++ first_seen (seen ++ first_seen seen a) b.
Proof.
  revert seen. induction a as [|k a IH]; intros seen; cbn [first_seen app]; [now rewrite app_nil_r|]. destruct (existsb (beqb k) seen); [apply IH|].
  rewrite IH. cbn [app]. do 2 f_equal. now rewrite <- app_assoc.
Qed.
Lemma first_seen_in seen l k : In k (first_seen seen l) <-> In k l /\ ~ In k seen.
Proof.
  revert seen. induction l as [|x l IH]; intros seen; cbn [first_seen In]; [tauto|]. destruct (existsb (beqb x) seen) eqn:E.
  - change (memb x seen = true) in E. apply memb_in in E. rewrite IH. split; [tauto|]. intros ([<-|H] & N); tauto.
  - change (memb x seen = false) in E. apply memb_not in E. cbn [In]. rewrite IH, in_app_iff. cbn [In]. split.
    + intros [<-|(H & N)]; [tauto|]. tauto.
    + intros ([<-|H] & N); [tauto|]. destruct (list_eq_dec Ascii.ascii_dec x k); [now left|]. right. tauto.
Qed.
Lemma first_seen_nodup seen l : NoDup (first_seen seen l).
Proof.
  revert seen. induction l as [|x l IH]; intros seen; cbn [first_seen]; [constructor|]. destruct (existsb (beqb x) seen); [apply IH|]. constructor; [|apply IH].
  rewrite first_seen_in, in_app_iff. cbn [In]. tauto.
Qed.

Definition f_table (t : table) (s : db_schema) := with_tables (snd (append t_name t (ds_tables s))) s.
Definition f_view (v : view) (s : db_schema) := with_views (snd (append dv_name (view_row v) (ds_views s))) s.
Definition f_function (f : func) (s : db_schema) := with_functions (snd (fappend f_name f (ds_functions s))) s.
Definition f_column (l : column) := in_table (l_table l) (add_column_row l).
Definition f_constraint (c : constraint) := in_table (c_table c) (add_constraint_row c).
Definition f_trigger (g : trigger) (s : db_schema) := in_view (g_table g) (add_view_trigger g) (in_table (g_table g) (add_trigger_row g) s).
Lemma in_table_steady n g : steady (in_table n g).
Proof. intros s. unfold in_table. destruct (lookup _ _ _ _ _) as [[i|] ts]; auto. Qed.
Lemma in_view_steady n g : steady (in_view n g).
Proof. intros s. unfold in_view. destruct (lookup _ _ _ _ _) as [[i|] ts]; auto. Qed.
Lemma index_row_steady x : steady (index_row x).
Proof.
  intros s. unfold index_row. destruct (lookup _ _ _ _ _) as [[i|] ts]; [apply in_table_steady|]. apply (in_view_steady (x_table x) (add_view_index x) (with_tables ts s)).
Qed.
Lemma f_trigger_steady g : steady (f_trigger g).
Proof.
  intros s. unfold f_trigger. destruct (in_view_steady (g_table g) (add_view_trigger g) (in_table (g_table g) (add_trigger_row g) s)) as (-> & ->). apply in_table_steady.
Qed.
Lemma empty_columns ls n : pass l_schema f_column ls (empty_ds n) = empty_ds n.
Proof.
  unfold pass. induction ls as [|l ls IH]; cbn [fold_left]; [reflexivity|]. replace (if beqb (l_schema l) (ds_name (empty_ds n)) then _ else _) with (empty_ds n); [exact IH|].
  destruct (beqb _ _); [|reflexivity]. unfold f_column, in_table, lookup. cbn [ds_tables empty_ds cached_new positions mget]. now destruct (is_empty (l_table l)).
Qed.
Lemma empty_constraints ls n : pass c_schema f_constraint ls (empty_ds n) = empty_ds n.
Proof.
  unfold pass. induction ls as [|l ls IH]; cbn [fold_left]; [reflexivity|]. replace (if beqb (c_schema l) (ds_name (empty_ds n)) then _ else _) with (empty_ds n); [exact IH|].
  destruct (beqb _ _); [|reflexivity]. unfold f_constraint, in_table, lookup. cbn [ds_tables empty_ds cached_new positions mget]. now destruct (is_empty (c_table l)).
Qed.
Lemma empty_indexes ls n : pass x_schema index_row ls (empty_ds n) = empty_ds n.
Proof.
  unfold pass. induction ls as [|l ls IH]; cbn [fold_left]; [reflexivity|]. replace (if beqb (x_schema l) (ds_name (empty_ds n)) then _ else _) with (empty_ds n); [exact IH|].
  destruct (beqb _ _); [|reflexivity]. unfold index_row, in_view, lookup. cbn [ds_tables ds_views with_tables empty_ds cached_new positions mget]. now destruct (is_empty (x_table l)).
Qed.
Lemma pass_none {R} (key : R -> bytes) f rs n : (forall r, steady (f r)) -> ~ In n (map key rs) -> pass key f rs (empty_ds n) = empty_ds n.
Proof.
  intros S H. rewrite (pass_filter key f S). replace (filter _ rs) with (@nil R); [reflexivity|]. symmetry. cbn [ds_name empty_ds]. induction rs as [|r rs IH]; [reflexivity|]. cbn [filter map In] in *.
  destruct (beqb (key r) n) eqn:E; [apply beqb_eq in E; tauto|]. apply IH. tauto.
Qed.
Definition the_schema (R : rows) (n : bytes) : db_schema :=
  pass g_schema f_trigger (r_triggers R) (pass f_schema f_function (r_functions R) (pass x_schema index_row (r_indexes R)
    (pass c_schema f_constraint (r_constraints R) (pass l_schema f_column (r_columns R)
      (pass v_schema f_view (r_views R) (pass t_schema f_table (r_tables R) (empty_ds n))))))).
Definition all_rows (R : rows) (ss : cached db_schema) : cached db_schema :=
  trigger_rows (r_triggers R) (function_rows (r_functions R) (index_rows (r_indexes R) (constraint_rows (r_constraints R)
    (column_rows (r_columns R) (view_rows (r_views R) (table_rows (r_tables R) ss)))))).
Definition schema_names (R : rows) : list bytes := first_seen [] (map t_schema (r_tables R) ++ map v_schema (r_views R) ++ map f_schema (r_functions R)).
Lemma all_rows_spec R m : tidy ds_name ds_ignore (all_rows R (mk_cached [] m)) /\ objects (all_rows R (mk_cached [] m)) = map (the_schema R) (schema_names R).
Proof.
  unfold all_rows.
  assert (ST : forall t, steady (f_table t)) by (intros t s; auto). assert (SV : forall v, steady (f_view v)) by (intros v s; auto).
  assert (SF : forall f, steady (f_function f)) by (intros f s; auto). assert (SC : forall l, steady (f_column l)) by (intros l; apply in_table_steady).
  assert (SK : forall c, steady (f_constraint c)) by (intros c; apply in_table_steady).
  set (tk := map t_schema (r_tables R)). set (vk := map v_schema (r_views R)). set (fk := map f_schema (r_functions R)).
  destruct (rows_spec t_schema f_table ST true (r_tables R) (mk_cached [] m) (tidy_empty _ _ m)) as (T1 & O1).
  fold (table_rows (r_tables R) (mk_cached [] m)) in T1, O1. change (fold_left _ (r_tables R) _) with (table_rows (r_tables R) (mk_cached [] m)) in T1, O1. set (ss1 := table_rows _ _) in *.
  cbn [objects map app] in O1. fold tk in O1.
  destruct (rows_spec v_schema f_view SV true (r_views R) ss1 T1) as (T2 & O2). change (fold_left _ (r_views R) _) with (view_rows (r_views R) ss1) in T2, O2. set (ss2 := view_rows _ _) in *.
  assert (N1 : map ds_name (objects ss1) = first_seen [] tk).
  { rewrite O1, !map_map. rewrite <- map_id. apply map_ext. intros n. destruct (pass_steady t_schema f_table ST (r_tables R) (empty_ds n)) as (-> & _). reflexivity. }
  rewrite N1 in O2. fold vk in O2.
  assert (E2 : objects ss2 = map (fun n => pass v_schema f_view (r_views R) (pass t_schema f_table (r_tables R) (empty_ds n))) (first_seen [] (tk ++ vk))).
  { rewrite O2, O1, first_seen_app, !map_app, !map_map. f_equal. apply map_ext_in. intros n I. apply first_seen_in in I. destruct I as (_ & I). f_equal. symmetry. apply pass_none; [exact ST|].
    intros X. apply I. apply first_seen_in. auto. }
  clear O2.
  destruct (rows_spec l_schema f_column SC false (r_columns R) ss2 T2) as (T3 & O3). change (fold_left _ (r_columns R) _) with (column_rows (r_columns R) ss2) in T3, O3. set (ss3 := column_rows _ _) in *.
  destruct (rows_spec c_schema f_constraint SK false (r_constraints R) ss3 T3) as (T4 & O4). change (fold_left _ (r_constraints R) _) with (constraint_rows (r_constraints R) ss3) in T4, O4. set (ss4 := constraint_rows _ _) in *.
  destruct (rows_spec x_schema index_row index_row_steady false (r_indexes R) ss4 T4) as (T5 & O5). change (fold_left _ (r_indexes R) _) with (index_rows (r_indexes R) ss4) in T5, O5. set (ss5 := index_rows _ _) in *.
  cbn [map] in O3, O4, O5. rewrite app_nil_r in O3, O4, O5. rewrite E2 in O3. rewrite O3 in O4. rewrite O4 in O5. clear O3 O4.
  destruct (rows_spec f_schema f_function SF true (r_functions R) ss5 T5) as (T6 & O6). change (fold_left _ (r_functions R) _) with (function_rows (r_functions R) ss5) in T6, O6. set (ss6 := function_rows _ _) in *.
  assert (N5 : map ds_name (objects ss5) = first_seen [] (tk ++ vk)).
  { rewrite O5, !map_map. rewrite <- map_id. apply map_ext. intros n.
    rewrite (proj1 (pass_steady x_schema index_row index_row_steady (r_indexes R) _)), (proj1 (pass_steady c_schema f_constraint SK (r_constraints R) _)), (proj1 (pass_steady l_schema f_column SC (r_columns R) _)),
      (proj1 (pass_steady v_schema f_view SV (r_views R) _)), (proj1 (pass_steady t_schema f_table ST (r_tables R) _)). reflexivity. }
  rewrite N5 in O6. fold fk in O6.
  destruct (rows_spec g_schema f_trigger f_trigger_steady false (r_triggers R) ss6 T6) as (T7 & O7). change (fold_left _ (r_triggers R) _) with (trigger_rows (r_triggers R) ss6) in T7, O7. set (ss7 := trigger_rows _ _) in *.
  cbn [map] in O7. rewrite app_nil_r in O7. split; [exact T7|]. rewrite O7, O6, O5. unfold schema_names. fold tk vk fk. rewrite app_assoc, (first_seen_app [] (tk ++ vk) fk). cbn [app].
  rewrite !map_app, !map_map. f_equal. apply map_ext_in. intros n I. apply first_seen_in in I. destruct I as (_ & I). unfold the_schema. do 2 f_equal.
  assert (H : ~ In n (tk ++ vk)) by (intros X; apply I, first_seen_in; auto). rewrite in_app_iff in H.
  rewrite (pass_none t_schema f_table (r_tables R) n ST) by tauto. rewrite (pass_none v_schema f_view (r_views R) n SV) by tauto. now rewrite empty_columns, empty_constraints, empty_indexes.
Qed.

(** ** One schema *)
Lemma f_tables rs s : fold_left (fun s t => f_table t s) rs s = with_tables (appends t_name rs (ds_tables s)) s.
Proof. revert s. induction rs as [|t rs IH]; intros s; cbn [fold_left]; [now destruct s|]. rewrite IH. reflexivity. Qed.
Lemma f_views rs s : fold_left (fun s v => f_view v s) rs s = with_views (appends dv_name (map view_row rs) (ds_views s)) s.
Proof. revert s. induction rs as [|v rs IH]; intros s; cbn [fold_left map]; [now destruct s|]. rewrite IH. reflexivity. Qed.
Definition fappends (fs : list func) (c : fcached func) : fcached func := fold_left (fun c f => snd (fappend f_name f c)) fs c.
Lemma f_functions rs s : fold_left (fun s f => f_function f s) rs s = with_functions (fappends rs (ds_functions s)) s.
Proof. revert s. induction rs as [|v rs IH]; intros s; cbn [fold_left]; [now destruct s|]. rewrite IH. reflexivity. Qed.
Lemma fappends_objects fs c : fobjects (fappends fs c) = fobjects c ++ fs.
Proof. unfold fappends. revert c. induction fs as [|f fs IH]; intros c; cbn [fold_left]; [now rewrite app_nil_r|]. rewrite IH. cbn [fappend snd fobjects]. now rewrite <- app_assoc. Qed.

Section Schema.
  Context (R : rows) (W : well_formed R) (n : bytes).
  Definition the_tables : cached table := appends t_name (in_schema_of t_schema n (r_tables R)) cached_new.
  Definition the_views : cached db_view := appends dv_name (map view_row (in_schema_of v_schema n (r_views R))) cached_new.
  Definition the_table (t : table) : table :=
    tpass g_table add_trigger_row (in_schema_of g_schema n (r_triggers R))
      (tpass x_table add_index_row (in_schema_of x_schema n (r_indexes R))
        (tpass c_table add_constraint_row (in_schema_of c_schema n (r_constraints R))
          (tpass l_table add_column_row (in_schema_of l_schema n (r_columns R)) t))).
  Definition table_names : list bytes := map t_name (in_schema_of t_schema n (r_tables R)).
  Definition the_view (v : db_view) : db_view :=
    vpass g_table add_view_trigger (in_schema_of g_schema n (r_triggers R))
      (vpass x_table add_view_index (free_indexes table_names (in_schema_of x_schema n (r_indexes R))) v).
  Lemma tables_neat : neat t_name t_ignore the_tables.
  Proof.
    destruct W as (W1 & W2 & _). apply appends_neat; [apply neat_new|cbn [cached_new objects app]; now apply nodup_in_schema|].
    apply forall_filter. revert W2. apply Forall_impl. intros t (N & E). split; [exact N|]. now rewrite E.
  Qed.
  Lemma views_neat : neat dv_name dv_ignore the_views.
  Proof.
    destruct W as (_ & _ & W1 & W2 & _). apply appends_neat; [apply neat_new| |].
    - cbn [cached_new objects app]. rewrite map_map. cbn [view_row dv_name]. now apply nodup_in_schema.
    - rewrite Forall_map. apply forall_filter. revert W2. apply Forall_impl. intros v (N & E). cbn [view_row dv_name dv_ignore]. split; [exact N|]. now rewrite E.
  Qed.
  Lemma add_column_keeps l : keeps (add_column_row l). Proof. intros t. auto. Qed.
  Lemma add_constraint_keeps c : keeps (add_constraint_row c). Proof. intros t. auto. Qed.
  Lemma the_table_keeps t : t_name (the_table t) = t_name t /\ t_ignore (the_table t) = t_ignore t.
  Proof.
    unfold the_table.
    rewrite (proj1 (tpass_keeps g_table add_trigger_row (in_schema_of g_schema n (r_triggers R)) add_trigger_keeps _)), (proj2 (tpass_keeps g_table add_trigger_row (in_schema_of g_schema n (r_triggers R)) add_trigger_keeps _)),
      (proj1 (tpass_keeps x_table add_index_row (in_schema_of x_schema n (r_indexes R)) add_index_keeps _)), (proj2 (tpass_keeps x_table add_index_row (in_schema_of x_schema n (r_indexes R)) add_index_keeps _)),
      (proj1 (tpass_keeps c_table add_constraint_row (in_schema_of c_schema n (r_constraints R)) add_constraint_keeps _)), (proj2 (tpass_keeps c_table add_constraint_row (in_schema_of c_schema n (r_constraints R)) add_constraint_keeps _)).
    apply tpass_keeps, add_column_keeps.
  Qed.
  Lemma the_schema_spec : the_schema R n =
    mk_ds n (mapped the_table the_tables) (mapped the_view the_views) (fappends (in_schema_of f_schema n (r_functions R)) fcached_new) false.
  Proof.
    unfold the_schema.
    rewrite (pass_filter t_schema f_table) by (intros t s; auto). unfold with_tables, with_views, with_functions, empty_ds; cbn [ds_name ds_tables ds_views ds_functions ds_ignore]. rewrite f_tables. cbn [ds_name ds_tables ds_views ds_functions ds_ignore].
    rewrite (pass_filter v_schema f_view) by (intros t s; auto). unfold with_tables, with_views, with_functions, empty_ds; cbn [ds_name ds_tables ds_views ds_functions ds_ignore]. rewrite f_views.
    unfold with_tables, with_views, with_functions, empty_ds; cbn [ds_name ds_tables ds_views ds_functions ds_ignore].
    fold (in_schema_of t_schema n (r_tables R)). fold the_tables. fold (in_schema_of v_schema n (r_views R)). fold the_views.
    rewrite (pass_filter l_schema f_column) by (intros t; apply in_table_steady). unfold with_tables, with_views, with_functions, empty_ds; cbn [ds_name ds_tables ds_views ds_functions ds_ignore]. unfold f_column. rewrite in_tables_spec; [|exact add_column_keeps|exact tables_neat].
    unfold with_tables, with_views, with_functions, empty_ds; cbn [ds_name ds_tables ds_views ds_functions ds_ignore].
    rewrite (pass_filter c_schema f_constraint) by (intros t; apply in_table_steady). unfold with_tables, with_views, with_functions, empty_ds; cbn [ds_name ds_tables ds_views ds_functions ds_ignore]. unfold f_constraint.
    assert (N1 : neat t_name t_ignore (mapped (tpass l_table add_column_row (filter (fun r => beqb (l_schema r) n) (r_columns R))) the_tables)).
    { apply neat_mapped; [exact tables_neat|]. intros t. apply tpass_keeps, add_column_keeps. }
    rewrite in_tables_spec; [|exact add_constraint_keeps|exact N1]. unfold with_tables, with_views, with_functions, empty_ds; cbn [ds_name ds_tables ds_views ds_functions ds_ignore].
    match goal with |- context [mapped (tpass c_table ?g ?rs) ?c] => assert (N2 : neat t_name t_ignore (mapped (tpass c_table g rs) c)) end.
    { apply neat_mapped; [exact N1|]. intros t. apply tpass_keeps, add_constraint_keeps. }
    rewrite (pass_filter x_schema index_row index_row_steady). unfold with_tables, with_views, with_functions, empty_ds; cbn [ds_name ds_tables ds_views ds_functions ds_ignore]. rewrite index_rows_spec; [|exact N2|exact views_neat]. unfold with_tables, with_views, with_functions, empty_ds; cbn [ds_name ds_tables ds_views ds_functions ds_ignore].
    rewrite (pass_filter f_schema f_function) by (intros t s; auto). unfold with_tables, with_views, with_functions, empty_ds; cbn [ds_name ds_tables ds_views ds_functions ds_ignore]. rewrite f_functions. unfold with_tables, with_views, with_functions, empty_ds; cbn [ds_name ds_tables ds_views ds_functions ds_ignore].
    rewrite (pass_filter g_schema f_trigger f_trigger_steady). unfold with_tables, with_views, with_functions, empty_ds; cbn [ds_name ds_tables ds_views ds_functions ds_ignore]. unfold f_trigger. rewrite trigger_rows_spec; (unfold with_tables, with_views, with_functions, empty_ds; cbn [ds_name ds_tables ds_views ds_functions ds_ignore]).
    - rewrite !mapped_mapped. unfold the_table, the_view.
      match goal with |- context [free_indexes ?N _] => assert (E : N = table_names) end.
      { rewrite objects_mapped, map_map. unfold the_tables. rewrite appends_objects. cbn [cached_new objects app]. unfold table_names. apply map_ext. intros t.
        match goal with |- t_name (tpass c_table ?g ?rs ?x) = _ => rewrite (proj1 (tpass_keeps c_table g rs add_constraint_keeps x)) end. apply tpass_keeps, add_column_keeps. }
      rewrite E. reflexivity.
    - apply neat_mapped; [exact N2|]. intros t. apply tpass_keeps, add_index_keeps.
    - apply neat_mapped; [exact views_neat|]. intros v. apply vpass_keeps.
  Qed.
End Schema.
