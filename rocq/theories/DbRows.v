(** * DbRows: the rows of one schema (C56) *)
From Coq Require Import Lia.
From Verif Require Import GoBase GoBaseFacts CacheModel SpecCache CacheFacts UpsertModel DdlModel MigrateModel LoadModel SpecLoad LoadMark TriggerModel TriggerStore ViewModel DbModel SpecDb DbPf.

(** ** Appending many *)
Section Appends.
  Context {A : Type} (nm : A -> bytes) (ig : A -> bool).
  Definition appends (l : list A) (c : cached A) : cached A := fold_left (fun c a => snd (append nm a c)) l c.
  Lemma appends_objects l c : objects (appends l c) = objects c ++ l.
  Proof. unfold appends. revert c. induction l as [|a l IH]; intros c; cbn [fold_left]; [now rewrite app_nil_r|]. rewrite IH. cbn [append snd objects]. now rewrite <- app_assoc. Qed.
  Lemma appends_neat l c : neat nm ig c -> NoDup (map nm (objects c ++ l)) -> Forall (fun a => nm a <> [] /\ ig a = false) l -> neat nm ig (appends l c).
  Proof.
    unfold appends. revert c. induction l as [|a l IH]; intros c N D F; cbn [fold_left]; [exact N|]. inversion F as [|? ? (F1 & F2) F3]; subst.
    apply IH; [|cbn [append snd objects]; now rewrite <- app_assoc|exact F3].
    destruct (nodup_split nm _ _ _ D) as (D1 & _). apply neat_append; auto. intros X. apply in_map_iff in X. destruct X as (y & E & Y). now apply D1 in Y.
  Qed.
End Appends.

(** ** Changing the tables and views of a schema *)
Definition keeps (g : table -> table) : Prop := forall t, t_name (g t) = t_name t /\ t_ignore (g t) = t_ignore t.
Lemma in_table_neat n g s : neat t_name t_ignore (ds_tables s) -> in_table n g s = with_tables (mapped (at_name t_name n g) (ds_tables s)) s.
Proof.
  intros N. unfold in_table. pose proof (neat_change t_name t_ignore n g (ds_tables s) N) as H. destruct (lookup _ _ _ _ _) as [[i|] ts]; now rewrite H.
Qed.
Definition on_state (f : v_state -> v_state) (v : db_view) : db_view := mk_dv (dv_schema v) (dv_name v) (dv_ignore v) (f (dv_state v)).
Lemma in_view_neat n f s : neat dv_name dv_ignore (ds_views s) -> in_view n f s = with_views (mapped (at_name dv_name n (on_state f)) (ds_views s)) s.
Proof.
  intros N. unfold in_view. pose proof (neat_change dv_name dv_ignore n (on_state f) (ds_views s) N) as H. destruct (lookup _ _ _ _ _) as [[i|] vs]; now rewrite <- H.
Qed.
Lemma at_name_keeps n g : keeps g -> keeps (at_name t_name n g).
Proof. intros K t. unfold at_name. destruct (beqb _ _); [apply K|auto]. Qed.
Lemma at_name_on_state n f v : dv_name (at_name dv_name n (on_state f) v) = dv_name v /\ dv_ignore (at_name dv_name n (on_state f) v) = dv_ignore v.
Proof. unfold at_name. destruct (beqb _ _); auto. Qed.

Lemma objects_mapped {A} (g : A -> A) c : objects (mapped g c) = map g (objects c).
Proof. reflexivity. Qed.
(** What the rows do to one table. *)
Definition tpass {R} (tab : R -> bytes) (g : R -> table -> table) (rs : list R) (t : table) : table :=
  fold_left (fun t r => g r t) (filter (fun r => beqb (tab r) (t_name t)) rs) t.
Lemma tpass_cons {R} (tab : R -> bytes) (g : R -> table -> table) r rs t : keeps (g r) -> tpass tab g rs (at_name t_name (tab r) (g r) t) = tpass tab g (r :: rs) t.
Proof.
  intros K. unfold tpass, at_name. cbn [filter]. rewrite (beqb_sym (tab r)). destruct (beqb (t_name t) (tab r)) eqn:E; [|reflexivity].
  destruct (K t) as (-> & _). reflexivity.
Qed.
Lemma tpass_keeps {R} (tab : R -> bytes) (g : R -> table -> table) rs : (forall r, keeps (g r)) -> keeps (tpass tab g rs).
Proof.
  intros K t. unfold tpass. generalize (filter (fun r => beqb (tab r) (t_name t)) rs). intros l. revert t. induction l as [|r l IH]; intros t; cbn [fold_left]; [auto|].
  destruct (IH (g r t)) as (-> & ->). apply K.
Qed.
Lemma tpass_nil {R} (tab : R -> bytes) (g : R -> table -> table) c : mapped (tpass tab g []) c = c.
Proof. unfold tpass. cbn. apply mapped_id. Qed.
Lemma in_tables_spec {R} (tab : R -> bytes) (g : R -> table -> table) rs s : (forall r, keeps (g r)) -> neat t_name t_ignore (ds_tables s) ->
  fold_left (fun s r => in_table (tab r) (g r) s) rs s = with_tables (mapped (tpass tab g rs) (ds_tables s)) s.
Proof.
  intros K. revert s. induction rs as [|r rs IH]; intros s N; cbn [fold_left].
  - rewrite tpass_nil. now destruct s.
  - rewrite (in_table_neat _ _ _ N). rewrite IH; [|cbn [with_tables ds_tables]; apply neat_mapped; [exact N|]; intros t; now apply at_name_keeps].
    unfold with_tables. cbn [ds_tables ds_name ds_views ds_functions ds_ignore]. rewrite mapped_mapped. f_equal. apply mapped_ext. intros t _. now apply tpass_cons.
Qed.
Definition vpass {R} (tab : R -> bytes) (f : R -> v_state -> v_state) (rs : list R) (v : db_view) : db_view :=
  on_state (fun st => fold_left (fun st r => f r st) (filter (fun r => beqb (tab r) (dv_name v)) rs) st) v.
Lemma vpass_cons {R} (tab : R -> bytes) (f : R -> v_state -> v_state) r rs v : vpass tab f rs (at_name dv_name (tab r) (on_state (f r)) v) = vpass tab f (r :: rs) v.
Proof. unfold vpass, at_name. cbn [filter]. rewrite (beqb_sym (tab r)). destruct (beqb (dv_name v) (tab r)) eqn:E; reflexivity. Qed.
Lemma vpass_nil {R} (tab : R -> bytes) (f : R -> v_state -> v_state) c : mapped (vpass tab f []) c = c.
Proof. rewrite <- (mapped_id c) at 2. apply mapped_ext. intros v _. now destruct v. Qed.
Lemma vpass_keeps {R} (tab : R -> bytes) (f : R -> v_state -> v_state) rs v : dv_name (vpass tab f rs v) = dv_name v /\ dv_ignore (vpass tab f rs v) = dv_ignore v.
Proof. auto. Qed.

(** Indexes: of the tables, or of the views that have no table of their name. *)
Lemma index_row_neat x s : neat t_name t_ignore (ds_tables s) -> neat dv_name dv_ignore (ds_views s) ->
  index_row x s = mk_ds (ds_name s) (mapped (at_name t_name (x_table x) (add_index_row x)) (ds_tables s))
    (if memb (x_table x) (map t_name (objects (ds_tables s))) then ds_views s
     else mapped (at_name dv_name (x_table x) (on_state (add_view_index x))) (ds_views s)) (ds_functions s) (ds_ignore s).
Proof.
  intros NT NV. unfold index_row. destruct (neat_lookup t_name t_ignore (x_table x) (ds_tables s) NT) as [(b & t & a & O & E & L)|(H & L)]; rewrite L.
  - rewrite (in_table_neat _ _ _ NT). assert (M : memb (x_table x) (map t_name (objects (ds_tables s))) = true).
    { apply memb_in. rewrite O, map_app. apply in_or_app. right. now left. } now rewrite M.
  - rewrite (proj2 (memb_not _ _) H). rewrite in_view_neat by exact NV. unfold with_tables, with_views. cbn [ds_name ds_tables ds_views ds_functions ds_ignore].
    f_equal. unfold mapped. rewrite at_name_absent by exact H. now destruct (ds_tables s).
Qed.
Lemma add_index_keeps x : keeps (add_index_row x). Proof. intros t. auto. Qed.
Definition free_indexes (names : list bytes) (xs : list index) : list index := filter (fun x => negb (memb (x_table x) names)) xs.
Lemma index_rows_spec xs s : neat t_name t_ignore (ds_tables s) -> neat dv_name dv_ignore (ds_views s) ->
  fold_left (fun s x => index_row x s) xs s =
  mk_ds (ds_name s) (mapped (tpass x_table add_index_row xs) (ds_tables s))
    (mapped (vpass x_table add_view_index (free_indexes (map t_name (objects (ds_tables s))) xs)) (ds_views s)) (ds_functions s) (ds_ignore s).
Proof.
  revert s. induction xs as [|x xs IH]; intros s NT NV; cbn [fold_left].
  - cbn [free_indexes filter]. rewrite tpass_nil, vpass_nil. now destruct s.
  - rewrite (index_row_neat x s NT NV). rewrite IH; cbn [ds_name ds_tables ds_views ds_functions ds_ignore].
    + f_equal.
      * rewrite mapped_mapped. apply mapped_ext. intros t _. apply tpass_cons, add_index_keeps.
      * rewrite objects_mapped. rewrite at_name_names by (intros t; apply add_index_keeps). unfold free_indexes. cbn [filter].
        destruct (memb (x_table x) (map t_name (objects (ds_tables s)))); cbn [negb]; [reflexivity|].
        rewrite mapped_mapped. apply mapped_ext. intros v _. apply vpass_cons.
    + apply neat_mapped; [exact NT|]. intros t. apply at_name_keeps, add_index_keeps.
    + destruct (memb _ _); [exact NV|]. apply neat_mapped; [exact NV|]. intros v. apply at_name_on_state.
Qed.
Lemma add_trigger_keeps g : keeps (add_trigger_row g). Proof. intros t. auto. Qed.
Lemma trigger_rows_spec gs s : neat t_name t_ignore (ds_tables s) -> neat dv_name dv_ignore (ds_views s) ->
  fold_left (fun s g => in_view (g_table g) (add_view_trigger g) (in_table (g_table g) (add_trigger_row g) s)) gs s =
  mk_ds (ds_name s) (mapped (tpass g_table add_trigger_row gs) (ds_tables s)) (mapped (vpass g_table add_view_trigger gs) (ds_views s)) (ds_functions s) (ds_ignore s).
Proof.
  revert s. induction gs as [|g gs IH]; intros s NT NV; cbn [fold_left].
  - rewrite tpass_nil, vpass_nil. now destruct s.
  - rewrite (in_table_neat _ _ _ NT). rewrite in_view_neat by exact NV. rewrite IH; unfold with_tables, with_views; cbn [ds_name ds_tables ds_views ds_functions ds_ignore].
    + f_equal; rewrite mapped_mapped; apply mapped_ext; intros; [apply tpass_cons, add_trigger_keeps|apply vpass_cons].
    + apply neat_mapped; [exact NT|]. intros t. apply at_name_keeps, add_trigger_keeps.
    + apply neat_mapped; [exact NV|]. intros v. apply at_name_on_state.
Qed.

(** ** What the rows do to the parts of a table *)
Lemma column_rows_table ls t : fold_left (fun t l => add_column_row l t) ls t =
  mk_table (t_schema t) (t_name t) (appends l_name ls (t_columns t)) (t_constraints t) (t_indexes t) (t_triggers t) (t_virtual t) (t_virtual_args t) (t_ignore t).
Proof. revert t. induction ls as [|l ls IH]; intros t; cbn [fold_left]; [now destruct t|]. rewrite IH. reflexivity. Qed.
Definition marking (cs : cached column) (c : constraint) : cached column :=
  if beqb (c_type c) PRIMARY_KEY || beqb (c_type c) UNIQUE then mark_column cs c else cs.
Lemma constraint_rows_table ks t : fold_left (fun t c => add_constraint_row c t) ks t =
  mk_table (t_schema t) (t_name t) (fold_left marking ks (t_columns t)) (appends c_name ks (t_constraints t)) (t_indexes t) (t_triggers t) (t_virtual t) (t_virtual_args t) (t_ignore t).
Proof. revert t. induction ks as [|c ks IH]; intros t; cbn [fold_left]; [now destruct t|]. rewrite IH. reflexivity. Qed.
Lemma index_rows_table xs t : fold_left (fun t x => add_index_row x t) xs t =
  mk_table (t_schema t) (t_name t) (t_columns t) (t_constraints t) (appends x_name xs (t_indexes t)) (t_triggers t) (t_virtual t) (t_virtual_args t) (t_ignore t).
Proof. revert t. induction xs as [|x xs IH]; intros t; cbn [fold_left]; [now destruct t|]. rewrite IH. reflexivity. Qed.
Lemma trigger_rows_table gs t : fold_left (fun t g => add_trigger_row g t) gs t =
  mk_table (t_schema t) (t_name t) (t_columns t) (t_constraints t) (t_indexes t) (appends g_name gs (t_triggers t)) (t_virtual t) (t_virtual_args t) (t_ignore t).
Proof. revert t. induction gs as [|g gs IH]; intros t; cbn [fold_left]; [now destruct t|]. rewrite IH. reflexivity. Qed.
Lemma marking_ok c cs : fresh l_name l_ignore cs -> plain_names (objects cs) ->
  objects (marking cs c) = map (mark [c]) (objects cs) /\ fresh l_name l_ignore (marking cs c).
Proof.
  intros F P. unfold marking. destruct (beqb (c_type c) PRIMARY_KEY || beqb (c_type c) UNIQUE) eqn:E; [now apply mark_column_ok|]. split; [|exact F].
  apply orb_false_iff in E. destruct E as (E1 & E2). symmetry. rewrite <- map_id. apply map_ext. intros l. unfold mark, alone. cbn [existsb]. rewrite E1, E2. cbn [andb orb].
  destruct l as [? ? ? ? ? ? ? u k ? ? ? ? ? []]; cbn; [reflexivity|]. now rewrite !orb_false_r.
Qed.
Lemma markings_ok ks cs : fresh l_name l_ignore cs -> plain_names (objects cs) ->
  objects (fold_left marking ks cs) = map (mark ks) (objects cs) /\ fresh l_name l_ignore (fold_left marking ks cs).
Proof.
  revert cs. induction ks as [|c ks IH]; intros cs F P; cbn [fold_left].
  - split; [|exact F]. symmetry. rewrite <- map_id. apply map_ext. exact mark_nil.
  - destruct (marking_ok c cs F P) as (O & F1). destruct (IH (marking cs c) F1) as (O2 & F2).
    + rewrite O. destruct P as (P1 & P2). split.
      * rewrite map_map. rewrite (map_ext _ _ (mark_name [c])). exact P1.
      * rewrite Forall_map. revert P2. apply Forall_impl. intros l. now rewrite mark_name.
    + split; [|exact F2]. rewrite O2, O, map_map. apply map_ext. intros l. apply mark_cons.
Qed.
(** ... and of a view. *)
Lemma index_rows_view xs st : fold_left (fun st x => add_view_index x st) xs st =
  mk_v (vs_materialized st) (vs_sql st) (appends x_name xs (fst (vs_indexes st)), snd (vs_indexes st)) (vs_triggers st).
Proof. revert st. induction xs as [|x xs IH]; intros st; cbn [fold_left]; [now destruct st as [? ? [? ?] ?]|]. rewrite IH. reflexivity. Qed.
Definition vt_appends (gs : list trigger) (ts : view_triggers) : view_triggers := fold_left (fun ts g => vt_append g ts) gs ts.
Lemma vt_appends_list gs ts : vt_list (vt_appends gs ts) = vt_list ts ++ gs.
Proof. unfold vt_appends. revert ts. induction gs as [|g gs IH]; intros ts; cbn [fold_left]; [now rewrite app_nil_r|]. rewrite IH. cbn [vt_append vt_list]. now rewrite <- app_assoc. Qed.
Lemma trigger_rows_view gs st : fold_left (fun st g => add_view_trigger g st) gs st =
  mk_v (vs_materialized st) (vs_sql st) (vs_indexes st) (vt_appends gs (vs_triggers st)).
Proof. revert st. induction gs as [|g gs IH]; intros st; cbn [fold_left]; [now destruct st|]. rewrite IH. reflexivity. Qed.
