(** * Statements: C57.  See SpecView. *)
From Coq Require Import Permutation Lia.
From Verif Require Import GoBase GoBaseFacts QuoteModel CacheModel UpsertModel SpecUpsert TokenModel DdlModel MigrateModel LoadModel LoadFacts TriggerModel ViewModel SpecView ViewPf PropertiesUpsert.

(** SetQuery accepts a query exactly when its fields are the columns of the struct
    (in any order, each as often). *)
Theorem set_query_columns : forall (d : dialect) (id : table_id) (want : list bytes) (st : v_state) (q : option (option bytes * option (list fetch_field))),
  (exists st', v_step d id want st (VSetQuery q) = LOk st') <-> query_ok want q.
Proof. exact query_step_fine. Qed.
Print Assumptions set_query_columns.

Lemma load_view_inv d schema name fs ddl v : load_view d schema name fs ddl = LOk v ->
  name <> [] /\ Forall good_field fs /\ exists st, lfold (v_step d (mk_table_id schema name) (struct_columns fs)) ddl v_start = LOk st /\
    v = mk_view schema name (vs_materialized st) (objects (fst (vs_indexes st))) (vt_list (vs_triggers st)) (vs_sql st) false.
Proof.
  unfold load_view. intros H. apply lbind_ok in H. destruct H as (st & H & E). injection E as <-. unfold load_view_state in H. rewrite recovered_ok in H.
  destruct name as [|a n]; [discriminate|]. cbn [is_empty] in H. apply lbind_ok in H. destruct H as (want & W & H).
  assert (G : Forall good_field fs) by (apply view_columns_spec; now exists want). rewrite (proj1 (view_columns_spec fs) G) in W. injection W as <-.
  split; [discriminate|]. split; [exact G|]. exists st. auto.
Qed.
(** The struct loads exactly when the view has a name, its fields are exported and
    its columns have names; every query set has the columns of the struct; and in
    Postgres every trigger text declares a trigger, indexes are only defined after
    IsMaterialized and have names. *)
Theorem view_loads : forall (d : dialect) (schema name : bytes) (fs : list view_field) (ddl : list v_call),
  Forall not_blank (trigger_calls ddl) ->
  ((exists v, load_view d schema name fs ddl = LOk v) <->
   name <> [] /\
   Forall (fun f => f = VFOther \/ exists n, f = VFColumn n /\ n <> []) fs /\
   (forall q, In (VSetQuery q) ddl -> query_ok (struct_columns fs) q) /\
   (d = DPostgres -> (forall t, In (VTrigger t) ddl -> exists g, declared t g) /\ materialized_first ddl /\
      run_indexes (mk_table_id schema name) (index_calls ddl) <> None)).
Proof.
  intros d schema name fs ddl Nb. split.
  - intros (v & H). destruct (load_view_inv _ _ _ _ _ _ H) as (N & G & st & R & _). split; [exact N|]. split; [exact G|].
    assert (F : fine (lfold (v_step d (mk_table_id schema name) (struct_columns fs)) ddl v_start)) by (now exists st).
    assert (X : d = DPostgres \/ d <> DPostgres) by (destruct d; auto; right; discriminate). destruct X as [->|D].
    + apply fine_postgres in F; [|exact start_ok|exact Nb]. destruct F as (A & B0 & C & E). split; [exact A|]. intros _. split; [exact B0|]. split; [|exact E].
      destruct C as [C|C]; [discriminate|exact C].
    + pose proof (proj1 (fine_other d (mk_table_id schema name) (struct_columns fs) D ddl v_start) F) as F1. split; [exact F1|]. intros E. congruence.
  - intros (N & G & Q & P). unfold load_view, load_view_state. destruct name as [|a n]; [congruence|]. cbn [is_empty]. rewrite (proj1 (view_columns_spec fs) G). cbn [lbind].
    assert (F : fine (lfold (v_step d (mk_table_id schema (a :: n)) (struct_columns fs)) ddl v_start)).
    { assert (X : d = DPostgres \/ d <> DPostgres) by (destruct d; auto; right; discriminate). destruct X as [->|D].
      - apply fine_postgres; [exact start_ok|exact Nb|]. destruct (P eq_refl) as (A & B0 & C). auto.
      - apply (proj2 (fine_other d (mk_table_id schema (a :: n)) (struct_columns fs) D ddl v_start)). exact Q. }
    change (mk_v (vs_materialized v_start) (vs_sql v_start) (fst (vs_indexes v_start), []) (vs_triggers v_start)) with v_start.
    destruct F as (st & ->). cbn [lbind recovered]. eexists. reflexivity.
Qed.
Print Assumptions view_loads.
(** What a loaded view is: the text of the last query set; materialized if asked
    for; in Postgres the triggers declared, one for each schema, table and name
    with its last text, and the indexes defined (see C38). *)
Theorem view_content : forall (schema name : bytes) (fs : list view_field) (ddl : list v_call) (v : view),
  load_view DPostgres schema name fs ddl = LOk v -> Forall not_blank (trigger_calls ddl) ->
  v_schema v = schema /\ v_name v = name /\ v_ignore v = false /\
  v_sql v = last (query_calls ddl) [] /\
  (v_materialized v = true <-> In VMaterialized ddl) /\
  (exists gs, Forall2 declared (trigger_calls ddl) gs /\ v_triggers v = fold_left put_trigger gs []) /\
  (exists s hs, run_indexes (mk_table_id schema name) (index_calls ddl) = Some (s, hs) /\ v_indexes v = objects s).
Proof.
  intros schema name fs ddl v H Nb. destruct (load_view_inv _ _ _ _ _ _ H) as (N & G & st & R & ->). cbn [v_schema v_name v_ignore v_sql v_materialized v_triggers v_indexes].
  destruct (run_postgres _ _ _ _ _ start_ok Nb R) as (A & B0 & C & D). repeat split; auto.
  - rewrite A. cbn [v_start vs_materialized orb]. intros E. apply existsb_exists in E. destruct E as (c & I & E). destruct c; try discriminate. exact I.
  - rewrite A. intros I. apply orb_true_iff. right. apply existsb_exists. exists VMaterialized. auto.
  - unfold run_indexes. cbn [v_start vs_indexes] in C. destruct (vs_indexes st) as [s hs]. exists s, hs. auto.
Qed.
Print Assumptions view_content.
Theorem view_content_elsewhere : forall (d : dialect) (schema name : bytes) (fs : list view_field) (ddl : list v_call) (v : view),
  d <> DPostgres -> load_view d schema name fs ddl = LOk v -> v = mk_view schema name false [] [] (last (query_calls ddl) []) false.
Proof.
  intros d schema name fs ddl v D H. destruct (load_view_inv _ _ _ _ _ _ H) as (N & G & st & R & ->).
  destruct (run_other d _ _ D _ _ _ R) as (A & B0 & C & T). rewrite A, B0, C, T. reflexivity.
Qed.
Print Assumptions view_content_elsewhere.
(** Hence no two indexes of a view have one name, each belongs to it and is as it
    was last defined. *)
Theorem view_indexes_unique : forall (schema name : bytes) (fs : list view_field) (ddl : list v_call) (v : view),
  load_view DPostgres schema name fs ddl = LOk v -> Forall not_blank (trigger_calls ddl) -> Forall modest_index (index_calls ddl) ->
  NoDup (map x_name (v_indexes v)) /\
  (forall x, In x (v_indexes v) -> x_schema x = schema /\ x_table x = name /\
     exists call, last_index_definition (index_calls ddl) (x_name x) call /\ index_as_called call x).
Proof.
  intros schema name fs ddl v H Nb M. destruct (view_content _ _ _ _ _ H Nb) as (_ & _ & _ & _ & _ & _ & s & hs & R & ->).
  destruct (indexes_unique _ _ _ _ R M) as (A & _ & C). split; [exact A|]. intros x I. destruct (C x I) as (X1 & X2 & _ & X3). auto.
Qed.
Print Assumptions view_indexes_unique.
(** Triggers: no two of one schema, table and name. *)
Theorem view_triggers_unique : forall (gs : list trigger), NoDup (map key_of (fold_left put_trigger gs [])) /\
  (forall k, In k (map key_of (fold_left put_trigger gs [])) <-> In k (map key_of gs)).
Proof.
  assert (P : forall g l, NoDup (map key_of l) -> NoDup (map key_of (put_trigger l g)) /\ (forall k, In k (map key_of (put_trigger l g)) <-> k = key_of g \/ In k (map key_of l))).
  { intros g l. induction l as [|h l IH]; intros D; cbn [put_trigger map].
    - split; [repeat constructor; tauto|]. intros k. cbn. split; intros [E|[]]; auto.
    - inversion D as [|? ? X D']; subst. destruct (IH D') as (I1 & I2). destruct (key_eqb (key_of h) (key_of g)) eqn:E; cbn [map].
      + apply key_eqb_eq in E. change (key_of (mk_trigger (g_schema h) (g_table h) (g_name h) (g_sql g) (g_ignore h))) with (key_of h). split; [now constructor|].
        intros k. cbn [In]. rewrite <- E. split; [tauto|]. intros [->|H]; auto.
      + split.
        * constructor; [|exact I1]. rewrite I2. intros [Y|Y]; [|contradiction]. rewrite Y, key_eqb_refl in E. discriminate.
        * intros k. cbn [In]. rewrite I2. tauto. }
  intros gs. assert (Q : forall gs l, NoDup (map key_of l) -> NoDup (map key_of (fold_left put_trigger gs l)) /\
    (forall k, In k (map key_of (fold_left put_trigger gs l)) <-> In k (map key_of gs) \/ In k (map key_of l))).
  { clear gs. induction gs as [|g gs IH]; intros l D; cbn [fold_left map In]; [tauto|]. destruct (P g l D) as (D1 & K). destruct (IH _ D1) as (D2 & K2). split; [exact D2|].
    intros k. rewrite K2, K. split; [intros [H|[->|H]]; auto|intros [[<-|H]|H]; auto]. }
  destruct (Q gs [] (NoDup_nil _)) as (A & B0). split; [exact A|]. intros k. rewrite B0. cbn. tauto.
Qed.
Print Assumptions view_triggers_unique.

(** ** Concrete cases *)
Definition staff_query : option (option bytes * option (list fetch_field)) :=
  Some (Some (B "SELECT id, first || last AS name FROM staff"), Some [mk_fetch_field [] (B "id"); mk_fetch_field (B "name") []]).
Definition staff_fields : list view_field := [VFOther; VFColumn (B "name"); VFColumn (B "id")].
Definition staff_ddl : list v_call :=
  [VMaterialized; VSetQuery staff_query; VIndex (IDefine (B "staff_idx") [B "id"] [[]]); VIndex (IAttr 0 IUnique);
   VTrigger (Some (B "CREATE TRIGGER t INSTEAD OF INSERT ON staff_list EXECUTE FUNCTION f()"));
   VTrigger (Some (B "CREATE TRIGGER t INSTEAD OF UPDATE ON staff_list EXECUTE FUNCTION f()"))].
Example staff_view : exists v, load_view DPostgres (B "app") (B "staff_list") staff_fields staff_ddl = LOk v /\
  v_materialized v = true /\ v_sql v = B "SELECT id, first || last AS name FROM staff" /\
  map (fun x => (x_schema x, x_name x, x_unique x)) (v_indexes v) = [(B "app", B "staff_idx", true)] /\
  map (fun g => (g_name g, g_sql g)) (v_triggers v) = [(B "t", B "CREATE TRIGGER t INSTEAD OF UPDATE ON staff_list EXECUTE FUNCTION f()")].
Proof. eexists. split; [vm_compute; reflexivity|]. repeat split. Qed.
Example staff_not_blank : Forall not_blank (trigger_calls staff_ddl).
Proof. repeat constructor; intros t E; injection E as <-; vm_compute; discriminate. Qed.
Example staff_elsewhere : load_view DMySQL [] (B "staff_list") staff_fields staff_ddl
  = LOk (mk_view [] (B "staff_list") false [] [] (B "SELECT id, first || last AS name FROM staff") false).
Proof. vm_compute. reflexivity. Qed.
(** A column too many, one too few, one twice; an index before IsMaterialized. *)
Example staff_refused :
  load_view DPostgres [] (B "v") [VFColumn (B "id")] [VSetQuery staff_query] = LErr /\
  load_view DPostgres [] (B "v") (VFColumn (B "email") :: staff_fields) [VSetQuery staff_query] = LErr /\
  load_view DPostgres [] (B "v") (VFColumn (B "id") :: staff_fields) [VSetQuery staff_query] = LErr /\
  load_view DPostgres [] (B "v") staff_fields [VIndex (IDefine (B "i") [B "id"] [[]]); VMaterialized] = LErr.
Proof. repeat split; vm_compute; reflexivity. Qed.

(** ** What is not so *)
(** A view's Trigger call accepts a trigger on any other table, and an empty text. *)
Theorem view_trigger_elsewhere_refuted : exists v, load_view DPostgres [] (B "staff_list") staff_fields
    [VTrigger (Some (B "CREATE TRIGGER t AFTER INSERT ON film EXECUTE FUNCTION f()")); VTrigger (Some (B " ")); VTrigger (Some [])] = LOk v /\
  map g_table (v_triggers v) = [B "film"; []; []].
Proof. eexists. split; vm_compute; reflexivity. Qed.
Print Assumptions view_trigger_elsewhere_refuted.
(** A view struct with an unexported field cannot be loaded (a table struct can). *)
Theorem view_unexported_refuted : forall d schema name fs ddl, In VFUnexported fs -> exists e, load_view d schema name fs ddl = e /\ forall v, e <> LOk v.
Proof.
  intros d schema name fs ddl I. eexists. split; [reflexivity|]. intros v H. destruct (load_view_inv _ _ _ _ _ _ H) as (_ & G & _).
  rewrite Forall_forall in G. destruct (G _ I) as [X|(n & X & _)]; discriminate.
Qed.
Print Assumptions view_unexported_refuted.
(** A view without a query is accepted, with no text: CREATE VIEW ... AS and nothing. *)
Theorem view_without_query_refuted : load_view DSQLite [] (B "v") staff_fields [] = LOk (mk_view [] (B "v") false [] [] [] false).
Proof. reflexivity. Qed.
Print Assumptions view_without_query_refuted.
(** After RefreshIndexCache a view may not find an index that is there: an ignored
    index of the same name hides it. *)
Definition shadowed_indexes : cached index :=
  mk_cached [mk_index [] (B "v") (B "i") [] false [B "a"] [[]] [] [] [] [] false; mk_index [] (B "v") (B "i") [] false [B "b"] [[]] [] [] [] [] true] [].
Theorem view_refresh_refuted :
  fst (lookup x_name x_ignore false (B "i") (view_refresh_indexes false shadowed_indexes)) = None /\
  fst (lookup x_name x_ignore false (B "i") (refresh x_name x_ignore shadowed_indexes)) = Some 0.
Proof. split; vm_compute; reflexivity. Qed.
Print Assumptions view_refresh_refuted.
