(** * Statements: C48 to C51.  See SpecSql, SpecDdl and SpecDrop.

    A DDL command is given to the database as text.  [tokens] splits the text as
    the database does, [read_create_table] and so on read the tokens, and
    [said_table] and so on say what the command of the library means; [..._ok]
    are the conditions on the names and on the fragments of SQL in the command,
    [..._supported] the features each dialect has. *)
From Coq Require Import Lia.
From Verif Require Import GoBase GoBaseFacts QuoteModel SpecLex SpecIdent SpecSql EffectModel SpecText QuoteFacts QuotePf SqlFacts
  CacheModel UpsertModel DdlModel SpecDdl SpecDrop DdlToks DdlRead DdlConstraint DdlIndex DdlTable DdlAlter DdlSupported DdlDrop.
Local Open Scope m_scope.

(** ** Examples *)
Ltac good := apply collapse_id_iff; vm_compute; reflexivity.
Ltac plain := eexists; split; vm_compute; reflexivity.
Ltac plain_words := repeat (constructor; [vm_compute; reflexivity|]); constructor.
Ltac con_ok :=
  constructor;
  [good | cbn; tauto | plain | intros X; first [exfalso; apply X; reflexivity | plain_words] | first [left; reflexivity | right; vm_compute; reflexivity]
  |first [discriminate | intros _; vm_compute; reflexivity] | plain_words | split; [plain | exact I] | plain | plain
  |first [left; reflexivity | right; vm_compute; reflexivity]
  |first [discriminate | intros _ [|[|i]] L; [split; plain | split; plain | cbn in L; lia]] | plain].
Definition col (n ty df id ge co : bytes) (au nn st : bool) : column := mk_column [] [] n ty id au nn false false false ge st co df false.
Definition plain_con (n ty : bytes) (cols : list bytes) (check : bytes) (df : bool) : constraint :=
  mk_constraint [] [] n ty cols [] [] [] [] [] [] [] check [] [] [] df df [] false.
Definition ex_exclude : constraint :=
  mk_constraint [] [] (B "no overlap") EXCLUDE [B "room"; []] [[]; B "tstzrange(a, b)"] [] [] [] [] [] [] [] [B "="; B "&&"] (B "gist") (B "room > 0") false false [] false.
Definition ex_fk : constraint :=
  mk_constraint [] [] (B "fk") FOREIGN_KEY [B "a"; B "b"] [] (B "app") (B "other") [B "x"; B "y"] (B "SET NULL") (B "CASCADE") (B "MATCH FULL") [] [] [] [] true true [] false.
Definition ex_pg_table : create_table :=
  mk_create_table true true
    (mk_table (B "app") (B "order items")
       (mk_cached [col (B "id") (B "BIGINT") [] BY_DEFAULT [] [] false true false;
                   col (B "Total") (B "NUMERIC(10, 2)") (B "round((1 + 2) * 3, 2)") [] [] [] false true false;
                   col (B "twice") (B "INT") [] [] (B "id * 2") [] false false true;
                   col (B "note") (B "TEXT") (B "'a, ""b"") CHECK'") [] [] (B "de-x-icu") false false false] [])
       (mk_cached [plain_con (B "pk") PRIMARY_KEY [B "id"] [] false; plain_con (B "u") UNIQUE [B "id"; B "note"] [] true;
                   plain_con (B "positive") CHECK [] (B "id > 0 AND (id < 9)") false; ex_exclude; ex_fk] [])
       cached_new cached_new [] [] false) [] false.
Definition ex_index_of (ty : bytes) (cols exprs incl : list bytes) (pred : bytes) : index :=
  mk_index (B "app") (B "order items") (B "by total") ty true cols exprs incl pred [] [] false.
Definition ex_mysql_table : create_table :=
  mk_create_table false true
    (mk_table [] (B "t")
       (mk_cached [col (B "id") (B "INT UNSIGNED") [] [] [] (B "utf8mb4_bin") true true false; col (B "at") (B "DATETIME") (B "NOW()") [] [] [] false false false] [])
       (mk_cached [plain_con (B "pk") PRIMARY_KEY [B "id"] [] false; ex_fk] [])
       cached_new cached_new [] [] false)
    [mk_create_index false false (ex_index_of (B "FULLTEXT") [B "note"] [] [] []) false;
     mk_create_index false false (ex_index_of (B "HASH") [B "id"; []] [[]; B "(lower(note))"] [] []) false;
     mk_create_index false false (ex_index_of (B "HASH") [] [] [] []) true] false.
Definition text (m : M) : bytes := match text_of m with Some s => s | None => [] end.
Definition toks (d : dialect) (m : M) : list tok := frag d (text m).

(** ** C48: CREATE TABLE and CREATE INDEX *)
(** CREATE TABLE reads as: the columns, the constraints and (in MySQL) the
    indexes that are not ignored, in this order, each with what it says. *)
Theorem create_table_reads_back : forall d c s,
  ct_ignore c = false -> t_virtual (ct_table c) = [] -> create_table_ok d c -> text_of (create_table_sql d c) = Some s ->
  exists ts, tokens d s = Some ts /\ read_create_table ts = Some (said_table d c).
Proof.
  intros d c s IG VI OK T. assert (SU : create_table_supported d c) by (apply create_table_succ; [exact IG|now exists s]).
  exists (create_table_toks d c). split.
  - apply (create_table_starts d c OK IG VI); [|exact T]. intros H. destruct SU as (_ & _ & _ & _ & _ & M0 & _). now rewrite (M0 H).
  - now apply create_table_reads.
Qed.
Print Assumptions create_table_reads_back.
Example create_table_postgres :
  create_table_ok DPostgres ex_pg_table /\ read_create_table (toks DPostgres (create_table_sql DPostgres ex_pg_table)) =
  Some (mk_table_def true (B "app") (B "order items")
    [EColumn (mk_col_def (B "id") [W "BIGINT"] true None false false (GIdentity false) false None [] None);
     EColumn (mk_col_def (B "Total") [W "NUMERIC"; lp; W "10"; comma; W "2"; rp] true
       (Some [W "round"; lp; lp; W "1"; TSym "+"; W "2"; rp; TSym "*"; W "3"; comma; W "2"; rp]) false false GNo false None [] None);
     EColumn (mk_col_def (B "twice") [W "INT"] false None false false (GExpr [W "id"; TSym "*"; W "2"] true) false None [] None);
     EColumn (mk_col_def (B "note") [W "TEXT"] false (Some [TStr (B "a, ""b"") CHECK")]) false false GNo false (Some (B "de-x-icu")) [] None);
     EConstraint (mk_table_con (Some (B "pk")) (KKey true [B "id"]) None);
     EConstraint (mk_table_con (Some (B "u")) (KKey false [B "id"; B "note"]) (Some true));
     EConstraint (mk_table_con (Some (B "positive")) (KCheck [W "id"; TSym ">"; W "0"; W "AND"; lp; W "id"; TSym "<"; W "9"; rp]) None);
     EConstraint (mk_table_con (Some (B "no overlap"))
       (KExclude (B "gist") [([W "room"], [TSym "="]); ([W "tstzrange"; lp; W "a"; comma; W "b"; rp], [TSym "&"; TSym "&"])] [W "room"; TSym ">"; W "0"]) None)]).
Proof.
  split; [|vm_compute; reflexivity]. constructor.
  - good.
  - good.
  - discriminate.
  - intros l H. change (table_columns ex_pg_table) with (objects (t_columns (ct_table ex_pg_table))) in H. cbn [ex_pg_table ct_table t_columns objects In] in H.
    destruct H as [<-|[<-|[<-|[<-|[]]]]]; (split; [constructor; [good|plain|plain|plain|cbn; tauto|unfold collation_ok; cbn [is_postgres]; first [left; reflexivity|right; good]]|vm_compute; first [discriminate|reflexivity]]).
  - intros k H. change (table_constraints DPostgres ex_pg_table) with [plain_con (B "pk") PRIMARY_KEY [B "id"] [] false; plain_con (B "u") UNIQUE [B "id"; B "note"] [] true; plain_con (B "positive") CHECK [] (B "id > 0 AND (id < 9)") false; ex_exclude] in H.
    destruct H as [<-|[<-|[<-|[<-|[]]]]]; con_ok.
  - intros i [].
Qed.
Example create_table_mysql :
  create_table_ok DMySQL ex_mysql_table /\ read_create_table (toks DMySQL (create_table_sql DMySQL ex_mysql_table)) =
  Some (mk_table_def false [] (B "t")
    [EColumn (mk_col_def (B "id") [W "INT"; W "UNSIGNED"] true None false true GNo false (Some (B "utf8mb4_bin")) [] None);
     EColumn (mk_col_def (B "at") [W "DATETIME"] false (Some [W "NOW"; lp; rp]) false false GNo false None [] None);
     EConstraint (mk_table_con None (KKey true [B "id"]) None);
     EIndex (mk_index_def false [W "FULLTEXT"] false false (B "by total") None None [[W "note"]] [] []);
     EIndex (mk_index_def true [] false false (B "by total") None (Some (B "HASH")) [[W "id"]; [lp; W "lower"; lp; W "note"; rp; rp]] [] [])]).
Proof.
  split; [|vm_compute; reflexivity]. constructor.
  - good.
  - good.
  - discriminate.
  - intros l H. change (table_columns ex_mysql_table) with (objects (t_columns (ct_table ex_mysql_table))) in H. cbn [ex_mysql_table ct_table t_columns objects In] in H.
    destruct H as [<-|[<-|[]]]; (split; [constructor; [good|plain|plain|plain|cbn; tauto|unfold collation_ok; cbn [is_postgres]; first [left; reflexivity|right; vm_compute; reflexivity]]|reflexivity]).
  - intros k H. change (table_constraints DMySQL ex_mysql_table) with [plain_con (B "pk") PRIMARY_KEY [B "id"] [] false] in H.
    destruct H as [<-|[]]. con_ok.
  - intros i H. destruct H as [<-|[<-|[]]]; constructor; try good; try plain; try (right; reflexivity); try discriminate; try (repeat constructor).
    + intros [|[|i]] n H; cbn in H; inversion H; subst. good.
    + intros [|[|[|i]]] n H; cbn in H; inversion H; subst; [good|split; [plain|discriminate]].
Qed.
(** A virtual table: the module and its arguments. *)
Theorem create_virtual_table_reads_back : forall c s,
  ct_ignore c = false -> t_virtual (ct_table c) <> [] -> virtual_ok DSQLite c -> text_of (create_table_sql DSQLite c) = Some s ->
  exists ts, tokens DSQLite s = Some ts /\ read_create_virtual ts = Some (said_virtual DSQLite c).
Proof.
  intros c s IG NV OK T. apply (create_virtual_reads c s); auto. apply create_table_succ; [exact IG|now exists s].
Qed.
Print Assumptions create_virtual_table_reads_back.
Example create_virtual_table : let c := mk_create_table false true (mk_table [] (B "docs") cached_new cached_new cached_new cached_new (B "fts5") [B "title"; B "body"; B "tokenize = 'porter, ascii'"] false) [] false in
  virtual_ok DSQLite c /\ read_create_virtual (toks DSQLite (create_table_sql DSQLite c)) =
  Some (mk_virtual_def false [] (B "docs") (B "fts5") [[W "title"]; [W "body"]; [W "tokenize"; TSym "="; TStr (B "porter, ascii")]]).
Proof.
  cbn zeta. split; [|vm_compute; reflexivity]. constructor; try good; try reflexivity. intros a H. cbn in H. destruct H as [<-|[<-|[<-|[]]]]; (split; [plain|vm_compute; discriminate]).
Qed.
(** CREATE INDEX, in the dialects where it is a statement. *)
Theorem create_index_reads_back : forall d c s,
  d <> DMySQL -> ci_ignore c = false -> index_ok d (ci_index c) -> text_of (create_index_sql d c) = Some s ->
  exists ts, tokens d s = Some ts /\ read_create_index ts = Some (said_index d c).
Proof.
  intros d c s NM IG OK T. exists (create_index_toks d c). split; [now apply (create_index_starts d c OK IG)|].
  assert (SU : index_supported d c) by (apply index_succ; [exact IG|now exists s]).
  unfold read_create_index, create_index_toks. assert (M0 : is_mysql d = false) by (destruct d; try reflexivity; congruence). rewrite M0. cbn [negb].
  change (words ["CREATE"]%string ([W "CREATE"] ++ ?x)) with (Some x). cbn match. now apply index_reads.
Qed.
Print Assumptions create_index_reads_back.
Example create_index_example : let c := mk_create_index true true (ex_index_of (B "gin") [B "Total"; []] [[]; B "lower(note)"] [B "id"] (B "id > 0")) false in
  index_ok DPostgres (ci_index c) /\ read_create_index (toks DPostgres (create_index_sql DPostgres c)) =
  Some (mk_index_def true [] true true (B "by total") (Some (B "app", B "order items")) (Some (B "gin")) [[TName (B "Total")]; [W "lower"; lp; W "note"; rp]] [B "id"] [W "id"; TSym ">"; W "0"]).
Proof.
  cbn zeta. split; [|vm_compute; reflexivity]. constructor; try good; try plain; try (right; reflexivity); try discriminate.
  - intros [|[|[|i]]] n H; cbn in H; inversion H; subst; [good|split; [plain|discriminate]].
  - repeat constructor. good.
Qed.

(** ** C49: ALTER TABLE *)
Theorem alter_table_reads_back : forall d a s,
  a_ignore a = false -> alter_table_ok d a -> text_of (alter_table_sql d a) = Some s ->
  exists ts, tokens d s = Some ts /\ read_alter_table ts = Some (said_alter d a).
Proof.
  intros d a s IG OK T. apply alter_table_reads; auto. apply alter_table_succ; [exact IG|now exists s].
Qed.
Print Assumptions alter_table_reads_back.
Definition ex_alter : alter_table :=
  mk_alter_table true (B "app") (B "order items")
    [mk_add_column true (col (B "b") (B "INT") (B "1") [] [] [] false true false) [] [] [] false]
    [mk_alter_column (col (B "Total") (B "BIGINT") (B "0") [] [] [] false false false) false true false false true true (B "floor(x)") false;
     mk_alter_column (col (B "id") [] [] ALWAYS [] [] false false false) true false false false false false [] false]
    [mk_drop_column true (B "old one") true false]
    [mk_add_constraint ex_fk [] true false; mk_add_constraint (plain_con (B "u") UNIQUE [] [] true) (B "by total") false false]
    [mk_alter_constraint (B "k") true true false false; mk_alter_constraint (B "k2") true false true false]
    [mk_drop_constraint false (B "gone") false false] [] [] false.
Example alter_table_postgres :
  alter_table_ok DPostgres ex_alter /\ read_alter_table (toks DPostgres (alter_table_sql DPostgres ex_alter)) =
  Some (mk_alter_def true (B "app") (B "order items")
    [AAddColumn true (mk_col_def (B "b") [W "INT"] true (Some [W "1"]) false false GNo false None [] None);
     AAlterColumn (B "Total") (ASetType [W "BIGINT"] None [W "floor"; lp; W "x"; rp]);
     AAlterColumn (B "Total") ADropNotNull;
     AAlterColumn (B "Total") (ASetDefault [W "0"]);
     AAlterColumn (B "Total") (ADropIdentity true);
     AAlterColumn (B "id") ADropDefault;
     AAlterColumn (B "id") (AAddGenerated (GIdentity true));
     ADropColumn true (B "old one") true;
     ADropConstraint false (B "gone") false;
     AAddConstraint (mk_table_con (Some (B "fk"))
       (KForeign [B "a"; B "b"] (B "app") (B "other") [B "x"; B "y"] [W "MATCH"; W "FULL"] [W "SET"; W "NULL"] [W "CASCADE"]) (Some true)) true false;
     AAddKeyUsing (B "u") false (B "by total") (Some true);
     AAlterConstraint (B "k") (Some false);
     AAlterConstraint (B "k2") None]).
Proof.
  split; [|vm_compute; reflexivity]. constructor; try good.
  - intros c H. destruct H as [<-|[]]. split; [reflexivity|]. constructor; try good; [|constructor]. constructor; try good; try plain; [cbn; tauto|now left].
  - intros c H. destruct H as [<-|[<-|[]]]; (split; [reflexivity|]; split; [constructor; try good; try plain; try discriminate; cbn; tauto|discriminate]).
  - intros c H. destruct H as [<-|[]]. split; [reflexivity|good].
  - intros c H. destruct H as [<-|[]]. split; [reflexivity|good].
  - intros c H. destruct H as [<-|[<-|[]]]; (split; [reflexivity|]; constructor; [con_ok|good]).
  - intros c H. destruct H as [<-|[<-|[]]]; (split; [reflexivity|]; split; [reflexivity|good]).
  - intros c [].
  - intros c [].
Qed.

(** ** C50: DROP, CREATE VIEW, CREATE SCHEMA, CREATE EXTENSION *)
Theorem drop_table_reads_back : forall d c s,
  dt_ignore c = false -> names_ok d (dt_names c) -> text_of (drop_table_sql d c) = Some s ->
  exists ts, tokens d s = Some ts /\ read_drop_table ts = Some (mk_drop_def (dt_if_exists c) (dt_names c) (dt_cascade c)).
Proof. exact drop_table_reads. Qed.
Print Assumptions drop_table_reads_back.
Theorem drop_view_reads_back : forall d c s,
  dv_ignore c = false -> names_ok d (dv_names c) -> text_of (drop_view_sql d c) = Some s ->
  exists ts, tokens d s = Some ts /\ read_drop_view ts = Some (dv_materialized c, mk_drop_def (dv_if_exists c) (dv_names c) (dv_cascade c)).
Proof. exact drop_view_reads. Qed.
Print Assumptions drop_view_reads_back.
Theorem drop_index_reads_back : forall d c s,
  dx_ignore c = false -> drop_index_ok d c -> text_of (drop_index_sql d c) = Some s ->
  exists ts, tokens d s = Some ts /\ read_drop_index ts = Some (said_drop_index d c).
Proof. exact drop_index_reads. Qed.
Print Assumptions drop_index_reads_back.
Theorem drop_trigger_reads_back : forall d c s,
  dg_ignore c = false -> drop_trigger_ok d c -> text_of (drop_trigger_sql d c) = Some s ->
  exists ts, tokens d s = Some ts /\ read_drop_trigger ts = Some (said_drop_trigger d c).
Proof. exact drop_trigger_reads. Qed.
Print Assumptions drop_trigger_reads_back.
Theorem drop_function_reads_back : forall d c s,
  df_ignore c = false -> drop_function_ok d c -> text_of (drop_function_sql d c) = Some s ->
  exists ts, tokens d s = Some ts /\ read_drop_function ts = Some (said_drop_function d c).
Proof. exact drop_function_reads. Qed.
Print Assumptions drop_function_reads_back.
Theorem create_view_reads_back : forall d c s,
  cv_ignore c = false -> create_view_ok d c -> text_of (create_view_sql d c) = Some s ->
  exists ts, tokens d s = Some ts /\ read_create_view ts = Some (said_create_view d c).
Proof. exact create_view_reads. Qed.
Print Assumptions create_view_reads_back.
Theorem create_schema_reads_back : forall d c s,
  cs_ignore c = false -> plain_word d (cs_name c) -> text_of (create_schema_sql d c) = Some s ->
  exists ts, tokens d s = Some ts /\ read_create_schema ts = Some (cs_if_not_exists c, cs_name c).
Proof. exact create_schema_reads. Qed.
Print Assumptions create_schema_reads_back.
Theorem create_extension_reads_back : forall c n v s,
  ce_ignore c = false -> extension_parts (ce_extension c) n v -> good_name DPostgres n -> ~ has_inner_pair "'" v ->
  text_of (create_extension_sql DPostgres c) = Some s ->
  exists ts, tokens DPostgres s = Some ts /\ read_create_extension ts = Some (said_extension c n v).
Proof. exact create_extension_reads. Qed.
Print Assumptions create_extension_reads_back.
Theorem drop_extension_reads_back : forall c ns s,
  de_ignore c = false -> ns <> [] -> Forall2 (fun e n => exists v, extension_parts e n v) (de_extensions c) ns -> Forall (good_name DPostgres) ns ->
  text_of (drop_extension_sql DPostgres c) = Some s ->
  exists ts, tokens DPostgres s = Some ts /\ read_drop_extension ts = Some (mk_drop_def (de_if_exists c) (map (pair []) ns) (de_cascade c)).
Proof. exact drop_extension_reads. Qed.
Print Assumptions drop_extension_reads_back.
Example drop_tables : let c := mk_drop_table true [(B "app", B "order items"); ([], B "t")] true false in
  names_ok DPostgres (dt_names c) /\ text_of (drop_table_sql DPostgres c) = Some (B "DROP TABLE IF EXISTS
    app.""order items""
    ,t
CASCADE") /\ read_drop_table (toks DPostgres (drop_table_sql DPostgres c)) = Some (mk_drop_def true [(B "app", B "order items"); ([], B "t")] true).
Proof. split; [split; [discriminate|repeat constructor; good]|]. split; vm_compute; reflexivity. Qed.
Example drop_views : let c := mk_drop_view true true [([], B "v")] false false in
  names_ok DPostgres (dv_names c) /\ read_drop_view (toks DPostgres (drop_view_sql DPostgres c)) = Some (true, mk_drop_def true [([], B "v")] false).
Proof. split; [split; [discriminate|repeat constructor; good]|]. vm_compute; reflexivity. Qed.
Example drop_indexes : let c := mk_drop_index true true (B "app") (B "t") (B "by total") true false in
  drop_index_ok DPostgres c /\ read_drop_index (toks DPostgres (drop_index_sql DPostgres c)) = Some (true, mk_drop_def true [(B "app", B "by total")] true).
Proof. split; [constructor; try good; try discriminate; intros _; discriminate|]. vm_compute; reflexivity. Qed.
Example drop_triggers : let c := mk_drop_trigger true (B "app") (B "order items") (B "on") true false in
  drop_trigger_ok DPostgres c /\ drop_trigger_ok DMySQL c /\
  read_drop_trigger (toks DPostgres (drop_trigger_sql DPostgres c)) = Some (mk_trigger_drop true ([], B "on") (Some (B "app", B "order items")) true) /\
  read_drop_trigger (toks DMySQL (drop_trigger_sql DMySQL c)) = Some (mk_trigger_drop true (B "app", B "on") None false).
Proof. split; [constructor; good|]. split; [constructor; good|]. split; vm_compute; reflexivity. Qed.
Example drop_functions : let c := mk_drop_function true (mk_func (B "app") (B "Do it") (B "a INT, b NUMERIC(1, 2)") [] false) true false in
  drop_function_ok DPostgres c /\ read_drop_function (toks DPostgres (drop_function_sql DPostgres c)) =
  Some (mk_function_drop true (B "app", B "Do it") (Some [W "a"; W "INT"; comma; W "b"; W "NUMERIC"; lp; W "1"; comma; W "2"; rp]) true).
Proof. split; [constructor; try good; plain|]. vm_compute; reflexivity. Qed.
Example create_views : let c := mk_create_view false true (mk_view (B "app") (B "v w") true [] [] (B "SELECT 1 AS x, 'IF'") false) false in
  create_view_ok DPostgres c /\ read_create_view (toks DPostgres (create_view_sql DPostgres c)) =
  Some (mk_view_def false true true (B "app") (B "v w") [W "SELECT"; W "1"; W "AS"; W "x"; comma; TStr (B "IF")]).
Proof. split; [constructor; try good; vm_compute; discriminate|]. vm_compute; reflexivity. Qed.
Example create_schemas : let c := mk_create_schema true (B "app") false in
  plain_word DPostgres (cs_name c) /\ read_create_schema (toks DPostgres (create_schema_sql DPostgres c)) = Some (true, B "app").
Proof. split; vm_compute; reflexivity. Qed.
Example create_extensions : let c := mk_create_extension true (B "uuid-ossp@1.1'x") true false in
  extension_parts (ce_extension c) (B "uuid-ossp") (B "1.1'x") /\ ~ has_inner_pair "'" (B "1.1'x") /\ good_name DPostgres (B "uuid-ossp") /\
  read_create_extension (toks DPostgres (create_extension_sql DPostgres c)) = Some (mk_extension_def true (B "uuid-ossp") (Some (B "1.1'x")) true) /\
  read_drop_extension (toks DPostgres (drop_extension_sql DPostgres (mk_drop_extension true [ce_extension c; B "citext"] true false))) =
  Some (mk_drop_def true [([], B "uuid-ossp"); ([], B "citext")] true).
Proof.
  cbn zeta. split; [split; [intros H; cbn in H; repeat (destruct H as [H|H]; [discriminate|]); exact H|right; reflexivity]|]. split; [good|]. split; [good|]. split; vm_compute; reflexivity.
Qed.

(** ** C51: a command reports an error exactly when the dialect lacks a feature *)
Definition has_text (m : M) : Prop := exists s, text_of m = Some s.
Theorem create_table_errors : forall d c, ct_ignore c = false -> (has_text (create_table_sql d c) <-> create_table_supported d c).
Proof. exact create_table_succ. Qed.
Print Assumptions create_table_errors.
Theorem create_index_errors : forall d c, ci_ignore c = false -> (has_text (create_index_sql d c) <-> index_supported d c).
Proof. exact index_succ. Qed.
Print Assumptions create_index_errors.
Theorem alter_table_errors : forall d a, a_ignore a = false -> (has_text (alter_table_sql d a) <-> alter_table_supported d a).
Proof. exact alter_table_succ. Qed.
Print Assumptions alter_table_errors.
Theorem drop_errors : forall d,
  (forall c, dt_ignore c = false -> (has_text (drop_table_sql d c) <-> drop_table_supported d c)) /\
  (forall c, dv_ignore c = false -> (has_text (drop_view_sql d c) <-> drop_view_supported d c)) /\
  (forall c, dx_ignore c = false -> (has_text (drop_index_sql d c) <-> drop_index_supported d c)) /\
  (forall c, has_text (drop_trigger_sql d c)) /\
  (forall c, df_ignore c = false -> (has_text (drop_function_sql d c) <-> d <> DSQLite)) /\
  (forall c, de_ignore c = false -> (has_text (drop_extension_sql d c) <-> d = DPostgres)).
Proof.
  intros d. split; [exact (drop_table_succ d)|]. split; [exact (drop_view_succ d)|]. split.
  - intros c IG. pose proof (drop_index_succ d c) as H. rewrite IG in H. unfold has_text. fold (succ (drop_index_sql d c)). rewrite H. intuition congruence.
  - split; [exact (drop_trigger_succ d)|]. split; [exact (drop_function_succ d)|exact (drop_extension_succ d)].
Qed.
Print Assumptions drop_errors.
Theorem create_errors : forall d,
  (forall c, cv_ignore c = false -> (has_text (create_view_sql d c) <-> create_view_supported d c)) /\
  (forall c, cs_ignore c = false -> (has_text (create_schema_sql d c) <-> d <> DSQLite)) /\
  (forall c, ce_ignore c = false -> (has_text (create_extension_sql d c) <-> d = DPostgres)).
Proof. intros d. split; [exact (create_view_succ d)|]. split; [exact (create_schema_succ d)|exact (create_extension_succ d)]. Qed.
Print Assumptions create_errors.
Example supported_examples :
  create_table_supported DPostgres ex_pg_table /\ ~ create_table_supported DMySQL ex_pg_table /\ ~ create_table_supported DSQLite ex_mysql_table /\
  alter_table_supported DPostgres ex_alter /\ ~ alter_table_supported DMySQL ex_alter.
Proof.
  split; [apply create_table_errors; [reflexivity|eexists; vm_compute; reflexivity]|].
  split; [intros H; apply create_table_errors in H; [destruct H as [s H]; vm_compute in H; discriminate|reflexivity]|].
  split; [intros H; apply create_table_errors in H; [destruct H as [s H]; vm_compute in H; discriminate|reflexivity]|].
  split; [apply alter_table_errors; [reflexivity|eexists; vm_compute; reflexivity]|].
  intros H; apply alter_table_errors in H; [destruct H as [s H]; vm_compute in H; discriminate|reflexivity].
Qed.

(** ** What does not hold *)
Definition unreadable {A} (d : dialect) (m : M) (read : list tok -> option A) : Prop :=
  exists s, text_of m = Some s /\ match tokens d s with Some ts => read ts = None | None => True end.
Ltac unread := match goal with |- unreadable ?d ?m ?r => exists (text m); split; vm_compute; reflexivity end.
(** CREATE SCHEMA does not quote the name, although it could be quoted. *)
Theorem create_schema_unquoted_refuted : exists c, cs_ignore c = false /\ good_name DPostgres (cs_name c) /\ unreadable DPostgres (create_schema_sql DPostgres c) read_create_schema.
Proof. exists (mk_create_schema false (B "my app") false). split; [reflexivity|]. split; [good|]. unread. Qed.
Print Assumptions create_schema_unquoted_refuted.
Definition one_column (n : bytes) (ks : list constraint) : create_table :=
  mk_create_table false true (mk_table [] (B "t") (mk_cached [col n (B "TEXT") [] [] [] [] false false false] []) (mk_cached ks []) cached_new cached_new [] [] false) [] false.
(** Nor are the columns of a constraint quoted: the table has a column of that name. *)
Theorem constraint_columns_unquoted_refuted : exists c, ct_ignore c = false /\ good_name DPostgres (B "first name") /\
  map l_name (table_columns c) = [B "first name"] /\ map c_columns (table_constraints DPostgres c) = [[B "first name"]] /\
  unreadable DPostgres (create_table_sql DPostgres c) read_create_table.
Proof.
  exists (one_column (B "first name") [plain_con (B "u") UNIQUE [B "first name"] [] false]). split; [reflexivity|]. split; [good|]. split; [reflexivity|]. split; [reflexivity|].
  unread.
Qed.
Print Assumptions constraint_columns_unquoted_refuted.
(** A column whose name is a reserved word is not quoted either. *)
Theorem reserved_column_refuted : exists c, ct_ignore c = false /\ map l_name (table_columns c) = [B "check"] /\ unreadable DPostgres (create_table_sql DPostgres c) read_create_table.
Proof. exists (one_column (B "check") []). split; [reflexivity|]. split; [reflexivity|]. unread. Qed.
Print Assumptions reserved_column_refuted.
(** Without columns the first constraint starts with a comma. *)
Theorem no_columns_table_refuted : exists c, ct_ignore c = false /\ table_columns c = [] /\ unreadable DPostgres (create_table_sql DPostgres c) read_create_table.
Proof.
  exists (mk_create_table false true (mk_table [] (B "t") cached_new (mk_cached [plain_con (B "positive") CHECK [] (B "1 > 0") false] []) cached_new cached_new [] [] false) [] false).
  split; [reflexivity|]. split; [reflexivity|]. unread.
Qed.
Print Assumptions no_columns_table_refuted.
(** An ignored part of ALTER TABLE leaves its comma behind; so does a column with
    nothing to change. *)
Theorem ignored_part_refuted : exists a, a_ignore a = false /\ map dl_ignore (a_drop_columns a) = [true; false] /\ unreadable DPostgres (alter_table_sql DPostgres a) read_alter_table.
Proof.
  exists (with_drop_columns [mk_drop_column false (B "a") false true; mk_drop_column false (B "b") false false] (plain_alter [] (B "t"))).
  split; [reflexivity|]. split; [reflexivity|]. unread.
Qed.
Print Assumptions ignored_part_refuted.
Theorem unchanged_column_refuted : exists a, a_ignore a = false /\ map (said_alter_column DPostgres) (a_alter_columns a) = [[]] /\ a_drop_columns a <> [] /\
  unreadable DPostgres (alter_table_sql DPostgres a) read_alter_table.
Proof.
  exists (mk_alter_table false [] (B "t") [] [mk_alter_column (col (B "a") [] [] [] [] [] false false false) false false false false false false [] false]
    [mk_drop_column false (B "b") false false] [] [] [] [] [] false).
  split; [reflexivity|]. split; [reflexivity|]. split; [discriminate|]. unread.
Qed.
Print Assumptions unchanged_column_refuted.
(** In MySQL CreateIndexCommand is not a statement: it can only be part of
    CREATE TABLE or ALTER TABLE. *)
Theorem mysql_create_index_refuted : forall c s, ci_ignore c = false -> index_ok DMySQL (ci_index c) -> text_of (create_index_sql DMySQL c) = Some s ->
  exists ts, tokens DMySQL s = Some ts /\ read_create_index ts = None.
Proof.
  intros c s IG OK T. exists (create_index_toks DMySQL c). split; [now apply (create_index_starts DMySQL c OK IG)|].
  unfold create_index_toks, index_toks. cbn [is_mysql negb app]. destruct (special_type (x_type (ci_index c))) eqn:S; cbn [andb app].
  - unfold read_create_index. cbn [words kw]. unfold special_type in S. apply orb_true_iff in S. destruct S as [S|S]; apply beqb_eq in S; now rewrite S.
  - destruct (x_unique (ci_index c)); reflexivity.
Qed.
Print Assumptions mysql_create_index_refuted.
