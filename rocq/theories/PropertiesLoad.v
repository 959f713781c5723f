(** * Statements: C52-C55, C58.  See SpecLoad, SpecT. *)
From Verif Require Import GoBase GoBaseFacts QuoteModel SpecLex QuoteFacts CacheModel CacheFacts UpsertModel TokenModel NameModel DdlModel LoadModel SpecLoad SpecT LoadFacts LoadPf LoadColumn LoadTable LoadMark LoadDdl LoadDefault.

(** ** C52: the columns of a table *)
(** A table struct that loads has exactly one column per field that is a column,
    in order, each as its tag declares and then as the calls of the DDL method on
    it make it; a column that alone makes up a primary key or unique constraint
    is marked. *)
Theorem table_columns : forall (numeric : bytes -> bool) (d : dialect) (schema name : bytes) (fs : list struct_field)
    (ddl : list t_call) (t : table),
  load_table numeric d schema name fs ddl (empty_table [] []) = LOk t -> table_ignored d fs = false ->
  NoDup (flat_map field_columns fs) -> Forall keeps_ignored ddl ->
  t_schema t = schema /\ t_name t = name /\
  objects (t_columns t) =
    map (fun l => mark (objects (t_constraints t)) (after_calls numeric d (mk_table_id schema name) ddl l))
      (declared_columns numeric d (mk_table_id schema name) fs).
Proof. exact load_table_columns. Qed.
Print Assumptions table_columns.
(** Hence their names, whatever the tags and the DDL method do. *)
Theorem table_column_names : forall (numeric : bytes -> bool) (d : dialect) (schema name : bytes) (fs : list struct_field)
    (ddl : list t_call) (t : table),
  load_table numeric d schema name fs ddl (empty_table [] []) = LOk t -> table_ignored d fs = false ->
  NoDup (flat_map field_columns fs) -> Forall keeps_ignored ddl ->
  map l_name (objects (t_columns t)) = flat_map field_columns fs.
Proof.
  intros numeric d schema name fs ddl t H I N K. destruct (load_table_columns _ _ _ _ _ _ _ H I N K) as (_ & _ & E).
  rewrite E, map_map. rewrite <- (declared_names numeric d (mk_table_id schema name) fs). apply map_ext. intros l. rewrite mark_name. apply fold_calls_name.
Qed.
Print Assumptions table_column_names.

(** ** C53: the constraints and indexes *)
Theorem table_constraints : forall (numeric : bytes -> bool) (d : dialect) (schema name : bytes) (fs : list struct_field) (t : table),
  load_table numeric d schema name fs [] (empty_table [] []) = LOk t -> table_ignored d fs = false ->
  NoDup (flat_map field_columns fs) ->
  NoDup (map c_name (declared_constraints d (mk_table_id schema name) fs)) ->
  objects (t_constraints t) = declared_constraints d (mk_table_id schema name) fs.
Proof. intros numeric d schema name fs t H I N. now destruct (load_table_rest _ _ _ _ _ _ H I N) as (_ & _ & A & _). Qed.
Print Assumptions table_constraints.
Theorem table_indexes : forall (numeric : bytes -> bool) (d : dialect) (schema name : bytes) (fs : list struct_field) (t : table),
  load_table numeric d schema name fs [] (empty_table [] []) = LOk t -> table_ignored d fs = false ->
  NoDup (flat_map field_columns fs) ->
  NoDup (map x_name (declared_indexes d (mk_table_id schema name) fs)) ->
  objects (t_indexes t) = declared_indexes d (mk_table_id schema name) fs.
Proof. intros numeric d schema name fs t H I N. now destruct (load_table_rest _ _ _ _ _ _ H I N) as (_ & _ & _ & A & _). Qed.
Print Assumptions table_indexes.
(** A virtual table: the last module, the arguments of all; in front of them, for
    FTS5, the text columns. *)
Theorem table_virtual : forall (numeric : bytes -> bool) (d : dialect) (schema name : bytes) (fs : list struct_field) (t : table),
  load_table numeric d schema name fs [] (empty_table [] []) = LOk t -> table_ignored d fs = false ->
  NoDup (flat_map field_columns fs) ->
  t_ignore t = false /\
  t_virtual t = (match final (virtuals d fs) with Some v => fst v | None => [] end) /\
  t_virtual_args t = (if equal_fold (t_virtual t) (B "FTS5")
      then map l_name (filter (fun l => negb (l_ignore l) && equal_fold (l_type l) (B "TEXT")) (objects (t_columns t))) else [])
      ++ map virtual_text (flat_map snd (virtuals d fs)).
Proof. intros numeric d schema name fs t H I N. destruct (load_table_rest _ _ _ _ _ _ H I N) as (A & _ & _ & _ & C & D). auto. Qed.
Print Assumptions table_virtual.
(** A constraint declared again under the name of one that is not ignored: it
    stays where it is, with its columns; type and modifiers are the new ones. *)
Theorem redeclared_constraint : forall (d : dialect) (tb : table_id) (ty : bytes) (refs : bool) (columns : list bytes) (config value : bytes)
    (ms : list (bytes * bytes)) (ks ks' : cached constraint) (xs xs' : cached index) (i : nat) (old : constraint),
  load_constraint d tb ty refs (tb_schema tb) (tb_name tb) columns config (ks, xs) = LOk (ks', xs') ->
  config_of config = Some (value, ms) ->
  fresh c_name c_ignore ks -> NoDup (map c_name (objects ks)) ->
  nth_error (objects ks) i = Some old -> c_ignore old = false -> c_name old <> [] ->
  c_name old = config_name ty (tb_name tb) (if refs then columns else config_columns columns value) ms ->
  objects ks' = list_set (objects ks) i
    (extend_constraint d (if refs then columns else config_columns columns value) refs value ms (c_set_type ty old)).
Proof.
  intros d tb ty refs columns config value ms ks ks' xs xs' i old H C F D E I NE NM.
  unfold load_constraint in H. apply lbind_ok in H. destruct H as ([value' ms'] & V & H). apply value_tokens_config in V.
  rewrite C in V. injection V as <- <-.
  assert (W : (if refs || beqb value (B ".") || is_empty value then columns else split_byte "," value)
              = (if refs then columns else config_columns columns value)) by (destruct refs; reflexivity).
  rewrite W in H. clear W. destruct (if refs then columns else config_columns columns value) as [|q cs] eqn:Q; [discriminate|].
  cbv zeta in H. rewrite name_value in H. cbn [fst snd] in H. unfold config_name in NM. rewrite <- NM in H.
  assert (L : fst (lookup c_name c_ignore false (c_name old) ks) = Some i).
  { apply lookup_complete_state; [exact F|now left|]. split; [exists old; auto|].
    intros j [b (Hb & Hn & _)]. assert (j = i); [|subst; reflexivity]. apply (proj1 (NoDup_nth_error _) D j i).
    - rewrite map_length. apply nth_error_Some. congruence.
    - rewrite !nth_error_map, Hb, E. cbn. congruence. }
  pose proof (store_found _ _ _ _ _ _ _ _ _ _ H L) as (b & a & Eb & _ & _ & Ea & O). rewrite E in Eb. injection Eb as <-.
  apply constraint_modifiers_ok in Ea. destruct Ea as (Ea & _). rewrite O, Ea. f_equal. symmetry. apply extend_constraint_start.
Qed.
Print Assumptions redeclared_constraint.

(** ** C54: which structs load *)
Theorem table_loads : forall (numeric : bytes -> bool) (d : dialect) (schema name : bytes) (fs : list struct_field),
  (exists t, load_table numeric d schema name fs [] (empty_table [] []) = LOk t) <->
  name <> [] /\ Forall (field_ok d) (fields_read d fs).
Proof. exact load_table_fine. Qed.
Print Assumptions table_loads.
Theorem ignored_table : forall (numeric : bytes -> bool) (d : dialect) (schema name : bytes) (fs : list struct_field) (ddl : list t_call) (t : table),
  load_table numeric d schema name fs ddl (empty_table [] []) = LOk t -> table_ignored d fs = true ->
  NoDup (flat_map field_columns (fields_read d fs)) -> t_ignore t = true.
Proof. exact load_table_ignored. Qed.
Print Assumptions ignored_table.

(** ** C55: the calls of a DDL method *)
(** From any table whose columns have different names, any calls: the columns
    keep names and order, and each is what the calls on its own TColumns make of
    it. *)
Theorem ddl_columns : forall (numeric : bytes -> bool) (d : dialect) (t : table) (calls : list t_call) (st : t_state),
  t_run numeric d calls (mk_t t [] [] []) = Some st -> NoDup (map l_name (objects (t_columns t))) ->
  objects (t_columns (ts_table st)) = map (after_calls numeric d (mk_table_id (t_schema t) (t_name t)) calls) (objects (t_columns t)) /\
  map l_name (objects (t_columns (ts_table st))) = map l_name (objects (t_columns t)) /\
  t_schema (ts_table st) = t_schema t /\ t_name (ts_table st) = t_name t.
Proof.
  intros numeric d t calls st H N. destruct (t_run_columns numeric d calls (mk_t t [] [] []) st) as (A & _ & _ & E & F); auto.
  - constructor.
  - injection F as F1 F2. auto.
Qed.
Print Assumptions ddl_columns.
(** Column panics exactly if the table has no such column, or it is ignored. *)
Theorem ddl_column_panics : forall (numeric : bytes -> bool) (d : dialect) (t : table) (calls : list t_call) (st : t_state) (n : bytes),
  t_run numeric d calls (mk_t t [] [] []) = Some st -> NoDup (map l_name (objects (t_columns t))) ->
  fresh l_name l_ignore (t_columns t) -> Forall keeps_ignored calls ->
  (t_run numeric d (calls ++ [TColumn n]) (mk_t t [] [] []) = None <->
   n = [] \/ ~ exists l, In l (objects (t_columns (ts_table st))) /\ l_name l = n /\ l_ignore l = false).
Proof.
  intros numeric d t calls st n H N F K.
  assert (HO : handles_ok (mk_t t [] [] [])) by constructor.
  pose proof (t_run_fresh numeric d calls _ _ HO N K F H) as F1. rewrite <- (column_panics numeric d st n F1).
  assert (A : forall calls s, t_run numeric d (calls ++ [TColumn n]) s = match t_run numeric d calls s with Some s' => t_step numeric d s' (TColumn n) | None => None end).
  { clear. induction calls as [|c calls IH]; intros s; cbn [app LoadModel.t_run].
    - now destruct (LoadModel.t_step numeric d s (TColumn n)).
    - destruct (LoadModel.t_step numeric d s c); [apply IH|reflexivity]. }
  rewrite A, H. reflexivity.
Qed.
Print Assumptions ddl_column_panics.
(** Other calls on a TColumn do not panic (outside an unnamed table in a dialect
    that requires constraint names, which LoadTable rejects). *)
Theorem ddl_column_calls : forall (numeric : bytes -> bool) (d : dialect) (t : table) (calls : list t_call) (st : t_state) (h : nat) (c : t_column_call),
  t_run numeric d calls (mk_t t [] [] []) = Some st -> NoDup (map l_name (objects (t_columns t))) ->
  h < length (asked_columns calls) -> t_step numeric d st (TColumnCall h c) <> None.
Proof.
  intros numeric d t calls st h c H N L.
  assert (HO : handles_ok (mk_t t [] [] [])) by constructor.
  destruct (t_run_columns numeric d calls _ _ HO N H) as (_ & A & HO2 & _). cbn [ts_columns map app] in A.
  rewrite <- A, map_length in L. apply nth_error_Some in L. destruct (nth_error (ts_columns st) h) as [[i n]|] eqn:E; [|congruence].
  unfold LoadModel.t_step. rewrite E. unfold handles_ok in HO2. rewrite Forall_forall in HO2. specialize (HO2 (i, n) (nth_error_In _ _ E)). cbn [fst snd] in HO2.
  destruct (t_key c) as [ty|] eqn:T.
  - unfold put_constraint. assert (NE : is_empty (generate_name ty (tb_name (table_of (ts_table st))) [n]) = false).
    { assert (S : name_suffix ty <> []) by (destruct c; try discriminate; injection T as <-; discriminate).
      unfold generate_name. cbv zeta. destruct (Nat.ltb 0 _);
      (destruct (is_empty _) eqn:Z; [|reflexivity]; exfalso; apply S;
       match type of Z with is_empty (?a ++ _) = true => destruct a; [now destruct (name_suffix ty)|discriminate] end). }
    rewrite NE, andb_false_r. destruct (upsert _ _ _ _ _ _); discriminate.
  - rewrite nth_error_map in HO2. destruct (nth_error (objects (t_columns (ts_table st))) i); [discriminate|discriminate].
Qed.
Print Assumptions ddl_column_calls.

(** ** C58: default values *)
(** The tag: a constant, NULL or a bracketed expression is kept as it is,
    anything else put in brackets; Postgres keeps everything. *)
Theorem default_brackets : forall (numeric : bytes -> bool) (d : dialect) (v : bytes),
  (d = DPostgres \/ constant_text numeric v \/ null_text v \/ bracketed v -> tag_default numeric d v = v) /\
  (d <> DPostgres -> ~ (constant_text numeric v \/ null_text v \/ bracketed v) -> tag_default numeric d v = B "(" ++ v ++ B ")").
Proof.
  intros numeric d v. unfold tag_default. rewrite <- needs_spec. destruct (needs_brackets numeric v); split.
  - intros [->|H]; [reflexivity|discriminate].
  - intros D _. destruct d; (reflexivity || congruence).
  - reflexivity.
  - intros _ H. congruence.
Qed.
Print Assumptions default_brackets.
(** Doing it again, or reading the value back from the database, changes nothing. *)
Theorem default_stable : forall (numeric : bytes -> bool) (d : dialect) (v : bytes),
  tag_default numeric d (tag_default numeric d v) = tag_default numeric d v /\
  to_expr numeric d (to_expr numeric d v) = to_expr numeric d v /\
  to_expr numeric d (tag_default numeric d v) = tag_default numeric d v.
Proof.
  intros numeric d v. unfold tag_default, to_expr.
  destruct (needs_brackets numeric v) eqn:N; cbn [andb]; [|rewrite N; repeat split].
  destruct d; cbn [is_postgres negb]; rewrite ?needs_wrapped, ?needs_quoted, ?N; repeat split.
Qed.
Print Assumptions default_stable.
(** A value the database reports: constants, NULL, bracketed expressions and all
    of Postgres are kept; otherwise SQLite's is an expression, put in brackets,
    and MySQL's is text, made a string literal that denotes it. *)
Theorem default_reported : forall (numeric : bytes -> bool) (d : dialect) (v : bytes),
  (d = DPostgres \/ constant_text numeric v \/ null_text v \/ bracketed v -> to_expr numeric d v = v) /\
  (~ (constant_text numeric v \/ null_text v \/ bracketed v) ->
   (d = DSQLite -> to_expr numeric d v = B "(" ++ v ++ B ")") /\
   (d = DMySQL -> ~ has_inner_pair "'" v ->
      exists t, to_expr numeric d v = "'"%char :: t /\ lex_quoted "'" t = Some (v, []))).
Proof.
  intros numeric d v. unfold to_expr. rewrite <- needs_spec. destruct (needs_brackets numeric v); split.
  - intros [->|H]; [reflexivity|discriminate].
  - intros _. split; [now intros ->|]. intros -> P. eexists. split; [reflexivity|].
    change (escape_quote v "'" ++ B "'") with (escape_quote v "'" ++ "'"%char :: []). rewrite lex_quoted_escape by exact I.
    apply collapse_id_iff in P. now rewrite P.
  - reflexivity.
  - intros H. congruence.
Qed.
Print Assumptions default_reported.
(** T.Column(...).Default(v) gives the same as the tag unless v is NULL or in
    brackets (those it puts in brackets, outside Postgres). *)
Theorem default_call : forall (numeric : bytes -> bool) (d : dialect) (v : bytes),
  (constant_text numeric v \/ ~ (null_text v \/ bracketed v) -> t_default numeric d v = tag_default numeric d v) /\
  (~ constant_text numeric v -> d <> DPostgres -> t_default numeric d v = B "(" ++ v ++ B ")").
Proof.
  intros numeric d v. unfold t_default, tag_default. split.
  - intros H. destruct (needs_brackets numeric v) eqn:N.
    + assert (X : ~ constant_text numeric v).
      { intros X. assert (Y : needs_brackets numeric v = false) by (apply needs_spec; now left). congruence. }
      rewrite constant_spec in X. apply not_true_is_false in X. rewrite X. cbn [orb andb]. now destruct (is_postgres d).
    + apply needs_spec in N. assert (X : constant_text numeric v) by (destruct H as [H|H]; [exact H|destruct N as [N|N]; [exact N|contradiction]]).
      apply constant_spec in X. now rewrite X.
  - intros H D. rewrite constant_spec in H. apply not_true_is_false in H. rewrite H. destruct d; (reflexivity || congruence).
Qed.
Print Assumptions default_call.

(** ** Examples *)
Definition ex_numeric (s : bytes) : bool := negb (is_empty s) && forallb (fun c => in_range 48 57 (ord c)) s.
Definition ex_fields : list struct_field :=
  [SOther (B "primarykey={user_id,film_id name=my_pkey} index={score,user_id unique using=gin}");
   SColumn (B "user_id") KNumber (B "notnull references={users.user_id onupdate=cascade ondelete=restrict}");
   SColumn (B "film_id") KNumber (B "mysql:type=BIGINT references={public.film.film_id name=film_fk deferred index}");
   SColumn (B "score") KOther (B "type={NUMERIC(4, 2)} default=now() sqlite:ignore unique")].
Example load_example :
  table_ignored DPostgres ex_fields = false /\ NoDup (flat_map field_columns ex_fields) /\
  exists t, load_table ex_numeric DMySQL [] (B "rating") ex_fields [TColumn (B "score"); TColumnCall 0 TCNotNull] (empty_table [] []) = LOk t /\
  map (fun l => (l_name l, l_type l, l_not_null l, l_unique l, l_default l)) (objects (t_columns t)) =
    [(B "user_id", B "INT", true, false, []); (B "film_id", B "BIGINT", false, false, []); (B "score", B "NUMERIC(4, 2)", true, true, B "(now())")] /\
  map (fun c => (c_name c, c_type c, c_columns c)) (objects (t_constraints t)) =
    [(B "my_pkey", B "PRIMARY KEY", [B "user_id"; B "film_id"]); (B "rating_user_id_fkey", B "FOREIGN KEY", [B "user_id"]);
     (B "film_fk", B "FOREIGN KEY", [B "film_id"]); (B "rating_score_key", B "UNIQUE", [B "score"])] /\
  map (fun c => (c_ref_schema c, c_ref_table c, c_ref_columns c, c_update c, c_delete c, c_deferred c)) (objects (t_constraints t)) =
    [([], [], [], [], [], false); ([], B "users", [B "user_id"], B "CASCADE", B "RESTRICT", false);
     (B "public", B "film", [B "film_id"], [], [], false); ([], [], [], [], [], false)] /\
  map (fun x => (x_name x, x_columns x, x_unique x, x_type x)) (objects (t_indexes t)) =
    [(B "rating_score_user_id_idx", [B "score"; B "user_id"], true, B "GIN"); (B "rating_film_id_idx", [B "film_id"], false, [])].
Proof.
  split; [reflexivity|]. split.
  - cbn. repeat constructor; cbn; intros H; repeat destruct H as [H|H]; try discriminate; contradiction.
  - match goal with |- exists t, ?x = LOk t /\ _ => let r := eval vm_compute in x in match r with LOk ?t => exists t end end.
    split; [vm_compute; reflexivity|]. repeat split; vm_compute; reflexivity.
Qed.
Example load_example_declared :
  map c_name (declared_constraints DMySQL (mk_table_id [] (B "rating")) ex_fields) =
    [B "my_pkey"; B "rating_user_id_fkey"; B "film_fk"; B "rating_score_key"] /\
  map x_name (declared_indexes DMySQL (mk_table_id [] (B "rating")) ex_fields) = [B "rating_score_user_id_idx"; B "rating_film_id_idx"].
Proof. split; vm_compute; reflexivity. Qed.
Example load_example_virtual :
  exists t, load_table ex_numeric DSQLite [] (B "docs")
    [SOther (B "virtual={fts5 tokenize=porter content=''}"); SColumn (B "title") KString []; SColumn (B "size") KNumber []] [] (empty_table [] []) = LOk t /\
  t_virtual t = B "fts5" /\ t_virtual_args t = [B "title"; B "tokenize=porter"; B "content=''"].
Proof.
  match goal with |- exists t, ?x = LOk t /\ _ => let r := eval vm_compute in x in match r with LOk ?t => exists t end end.
  split; [vm_compute; reflexivity|]. split; vm_compute; reflexivity.
Qed.
Example ignored_example :
  load_table ex_numeric DSQLite [] (B "t") [SOther (B "ignore=mysql,sqlite"); SColumn [] KOther (B "nonsense")] [] (empty_table [] []) =
    LOk (mk_table [] (B "t") cached_new cached_new cached_new cached_new [] [] true) /\
  (forall t, load_table ex_numeric DPostgres [] (B "t") [SOther (B "ignore=mysql,sqlite"); SColumn (B "a") KOther (B "nonsense")] [] (empty_table [] []) <> LOk t).
Proof. split; [vm_compute; reflexivity|]. intros t H. vm_compute in H. discriminate. Qed.
Example default_example :
  tag_default ex_numeric DSQLite (B "'x'") = B "'x'" /\ tag_default ex_numeric DSQLite (B "random()") = B "(random())" /\
  tag_default ex_numeric DPostgres (B "now()") = B "now()" /\ to_expr ex_numeric DMySQL (B "it's") = B "'it''s'" /\
  tag_default ex_numeric DMySQL (B "Current_Date") = B "Current_Date".
Proof. vm_compute. repeat split. Qed.

(** ** Findings *)
(** An index cannot be given a name: the modifier is read, then rejected. *)
Theorem index_name_refuted : forall (d : dialect) (columns : list bytes) (config value : bytes) (ms : list (bytes * bytes)),
  config_of config = Some (value, ms) -> says (B "name") ms = true -> ~ index_config_ok columns config.
Proof.
  intros d columns config value ms C S (value' & ms' & C' & _ & F). rewrite C in C'. injection C' as <- <-.
  unfold says in S. apply existsb_exists in S. destruct S as ([k v] & I & E). cbn [fst] in E. apply beqb_eq in E. subst k.
  rewrite Forall_forall in F. specialize (F _ I). cbn [fst] in F. apply existsb_in in F. vm_compute in F. discriminate.
Qed.
Print Assumptions index_name_refuted.
Example index_name_example : config_of (B ". name=my_index") = Some (B ".", [(B "name", B "my_index")]).
Proof. vm_compute. reflexivity. Qed.
(** "references" on the table itself is always an error: there is no way to give
    it columns. *)
Theorem table_references_refuted : forall config : bytes, ~ constraint_config_ok true [] config.
Proof. intros config (value & ms & _ & N & _). congruence. Qed.
Print Assumptions table_references_refuted.
(** Two columns declared unique under one name: the second column is lost. *)
Theorem shared_constraint_name_refuted :
  exists t, load_table ex_numeric DPostgres [] (B "t")
    [SColumn (B "a") KNumber (B "unique={. name=u}"); SColumn (B "b") KNumber (B "unique={. name=u}")] [] (empty_table [] []) = LOk t /\
  map (fun c => (c_name c, c_columns c)) (objects (t_constraints t)) = [(B "u", [B "a"])].
Proof.
  match goal with |- exists t, ?x = LOk t /\ _ => let r := eval vm_compute in x in match r with LOk ?t => exists t end end.
  split; vm_compute; reflexivity.
Qed.
Print Assumptions shared_constraint_name_refuted.
(** A primary key that is ignored in a dialect still marks its column. *)
Theorem ignored_key_marks_refuted :
  exists t, load_table ex_numeric DSQLite [] (B "t") [SColumn (B "a") KNumber (B "primarykey={. ignore=sqlite}")] [] (empty_table [] []) = LOk t /\
  map (fun l => (l_name l, l_primary_key l)) (objects (t_columns t)) = [(B "a", true)] /\
  map c_ignore (objects (t_constraints t)) = [true].
Proof.
  match goal with |- exists t, ?x = LOk t /\ _ => let r := eval vm_compute in x in match r with LOk ?t => exists t end end.
  split; [|split]; vm_compute; reflexivity.
Qed.
Print Assumptions ignored_key_marks_refuted.
(** Only the first and last byte are looked at: these expressions get no brackets. *)
Theorem brackets_missed_refuted :
  needs_brackets ex_numeric (B "(a) + (b)") = false /\ needs_brackets ex_numeric (B "'a' || 'b'") = false.
Proof. vm_compute. split; reflexivity. Qed.
Print Assumptions brackets_missed_refuted.
(** Default("NULL") and Default("(1)") are bracketed (again), the tags are not. *)
Theorem default_call_null_refuted :
  t_default ex_numeric DSQLite (B "NULL") = B "(NULL)" /\ tag_default ex_numeric DSQLite (B "NULL") = B "NULL" /\
  t_default ex_numeric DSQLite (B "(1)") = B "((1))" /\ tag_default ex_numeric DSQLite (B "(1)") = B "(1)".
Proof. vm_compute. repeat split. Qed.
Print Assumptions default_call_null_refuted.
(** An ignored column does not make a second field of the same name an error; it
    gives a second column. *)
Theorem ignored_column_duplicated_refuted :
  exists t, load_table ex_numeric DSQLite [] (B "t") [SColumn (B "a") KNumber (B "ignore"); SColumn (B "a") KString []] [] (empty_table [] []) = LOk t /\
  map (fun l => (l_name l, l_type l, l_ignore l)) (objects (t_columns t)) = [(B "a", B "INT", true); (B "a", B "TEXT", false)].
Proof.
  match goal with |- exists t, ?x = LOk t /\ _ => let r := eval vm_compute in x in match r with LOk ?t => exists t end end.
  split; vm_compute; reflexivity.
Qed.
Print Assumptions ignored_column_duplicated_refuted.
