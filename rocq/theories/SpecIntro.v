(** * SpecIntro: how a database reports its objects (C59, C60)

    The form of the rows of introspection_scripts/*.sql, as a relation between
    an object and its row. *)
From Verif Require Import GoBase QuoteModel CacheModel SpecSprintf SpecToken UpsertModel DdlModel LoadModel SpecLoad SpecT SpecTrigger SpecDb IntroModel.

(** ** Texts *)
(** No white space at either end. *)
Definition bare (e : bytes) : Prop := trimmed e e.
(** Names that can be told apart when they are joined by commas. *)
Definition plain_list (l : list bytes) : Prop := Forall (fun n => n <> [] /\ ~ In ","%char n) l.
(** MySQL writes a backslash before every quote. *)
Definition escaped (s : bytes) : bytes := flat_map (fun c => if Ascii.eqb c "'" then ["\"%char; "'"%char] else [c]) s.
(** What an index is made of: columns and expressions. *)
Inductive part := Col (n : bytes) | Expr (e : bytes).
Definition part_ok (p : part) : Prop :=
  match p with Col n => n <> [] /\ ~ In ","%char n | Expr e => arg e /\ bare e end.
Definition part_column (p : part) : bytes := match p with Col n => n | Expr _ => [] end.
Definition part_expr (p : part) : bytes := match p with Col _ => [] | Expr e => e end.
Definition part_bracketed (p : part) : bytes := match p with Col _ => [] | Expr e => B "(" ++ e ++ B ")" end.
Definition exprs_of (ps : list part) : list bytes := flat_map (fun p => match p with Col _ => [] | Expr e => [e] end) ps.
(** Not a single expression (whose list of columns would look empty). *)
Definition visible (ps : list part) (includes : list bytes) : Prop := includes <> [] \/ forall e, ps <> [Expr e].

(** ** Tables, columns *)
Definition table_row (d : dialect) (t : table) (r : table_raw) : Prop :=
  t = empty_table (t_schema t) (t_name t) /\ tr_name r = t_name t /\ t_schema t = match d with DSQLite => [] | _ => tr_schema r end.
(** SQLite's defaults: constants, NULL and bracketed expressions as they are,
    anything else in brackets. *)
Definition default_row (numeric : bytes -> bool) (written stored : bytes) : Prop :=
  written = [] /\ stored = [] \/
  written <> [] /\ (constant_text numeric written \/ null_text written \/ bracketed written) /\ stored = written \/
  written <> [] /\ ~ (constant_text numeric written \/ null_text written \/ bracketed written) /\ stored = B "(" ++ written ++ B ")".
Definition column_row (numeric : bytes -> bool) (d : dialect) (l : column) (r : column_raw) : Prop :=
  lr_table r = l_table l /\ lr_name r = l_name l /\ lr_not_null r = l_not_null l /\
  l_unique l = false /\ l_primary_key l = false /\ l_ignore l = false /\
  match d with
  | DSQLite =>
    l_schema l = [] /\ l_identity l = [] /\ l_autoincrement l = false /\ l_on_update l = false /\ l_generated l = [] /\ l_stored l = false /\ l_collation l = [] /\
    (lr_type r = l_type l ++ B " GENERATED ALWAYS" \/ lr_type r = l_type l /\ forall t, l_type l <> t ++ B " GENERATED ALWAYS") /\
    default_row numeric (lr_default r) (l_default l)
  | DPostgres =>
    lr_schema r = l_schema l /\ lr_type r = l_type l /\ lr_identity r = l_identity l /\ l_autoincrement l = false /\ l_on_update l = false /\
    lr_generated r = l_generated l /\ lr_stored r = l_stored l /\ lr_collation r = l_collation l /\ lr_default r = l_default l
  | _ =>
    lr_schema r = l_schema l /\ lr_type r = l_type l /\ l_identity l = [] /\ lr_autoincrement r = l_autoincrement l /\ lr_on_update r = l_on_update l /\
    lr_generated r = escaped (l_generated l) /\ lr_stored r = l_stored l /\ lr_collation r = l_collation l /\ lr_default r = l_default l
  end.

(** ** Constraints *)
(** The condition of a CHECK, in brackets after some text. *)
Definition check_row (prefix : bytes) (written check : bytes) : Prop :=
  written = [] /\ check = [] \/ check <> [] /\ written = prefix ++ B "(" ++ check ++ B ")".
Definition nothing {A} (l : list A) : list bytes := map (fun _ => []) l.
Definition constraint_row (d : dialect) (c : constraint) (r : constraint_raw) : Prop :=
  cr_table r = c_table c /\ cr_type r = c_type c /\ cr_ref_table r = c_ref_table c /\
  plain_list (c_ref_columns c) /\ cr_ref_columns r = join_commas (c_ref_columns c) /\
  cr_update r = c_update c /\ cr_delete r = c_delete c /\ c_comment c = [] /\ c_ignore c = false /\
  match d with
  | DSQLite =>
    plain_list (c_columns c) /\ cr_columns r = join_commas (c_columns c) /\ c_exprs c = nothing (c_columns c) /\
    c_schema c = [] /\ c_name c = [] /\ c_ref_schema c = [] /\ c_match c = [] /\ c_check c = [] /\ c_operators c = [] /\ c_index_type c = [] /\
    c_predicate c = [] /\ c_deferrable c = false /\ c_deferred c = false
  | DPostgres =>
    (exists ps, Forall part_ok ps /\ visible ps [] /\ c_columns c = map part_column ps /\ c_exprs c = map part_expr ps /\
       cr_columns r = join_commas (map part_column ps) /\ cr_exprs r = join (B ", ") (exprs_of ps)) /\
    cr_schema r = c_schema c /\ cr_name r = c_name c /\ cr_ref_schema r = c_ref_schema c /\ cr_match r = c_match c /\
    check_row (B "CHECK ") (cr_check r) (c_check c) /\ plain_list (c_operators c) /\ cr_operators r = join_commas (c_operators c) /\
    cr_index_type r = c_index_type c /\ cr_predicate r = c_predicate c /\ cr_deferrable r = c_deferrable c /\ cr_deferred r = c_deferred c
  | _ =>
    plain_list (c_columns c) /\ cr_columns r = join_commas (c_columns c) /\ c_exprs c = nothing (c_columns c) /\
    cr_schema r = c_schema c /\ cr_name r = c_name c /\ cr_ref_schema r = c_ref_schema c /\ cr_match r = c_match c /\
    check_row [] (cr_check r) (c_check c) /\ c_operators c = [] /\ c_index_type c = [] /\
    c_predicate c = [] /\ c_deferrable c = false /\ c_deferred c = false
  end.

(** ** Indexes *)
(** The statement of SQLite: text, the parts in brackets, perhaps WHERE and the
    predicate. *)
Definition index_statement (ps : list part) (predicate sql : bytes) : Prop :=
  exists pre args tail,
    sql = pre ++ B "(" ++ join_commas args ++ B ")" ++ tail /\ ~ In "("%char pre /\ ~ In ")"%char tail /\
    Forall2 (fun p a => arg a /\ trimmed a (match p with Col n => n | Expr e => e end)) ps args /\
    (blanks tail /\ predicate = [] \/
     exists w rest, keyword (B "WHERE") w /\ words_text DSQLite [w] rest tail /\ trimmed rest predicate).
Definition index_row (d : dialect) (x : index) (r : index_raw) : Prop :=
  xr_table r = x_table x /\ xr_name r = x_name x /\ xr_unique r = x_unique x /\ x_comment x = [] /\ x_ignore x = false /\
  exists ps includes, ps <> [] /\ Forall part_ok ps /\ visible ps includes /\ plain_list includes /\
    x_columns x = map part_column ps /\ x_include x = includes /\ xr_columns r = join_commas (map part_column ps ++ includes) /\
    match d with
    | DSQLite =>
      includes = [] /\ x_schema x = [] /\ x_type x = [] /\ x_exprs x = map part_expr ps /\ x_sql x = xr_sql r /\
      index_statement ps (x_predicate x) (xr_sql r)
    | DPostgres =>
      xr_schema r = x_schema x /\ xr_type r = x_type x /\ xr_keys r = length ps /\ x_exprs x = map part_bracketed ps ++ nothing includes /\
      xr_exprs r = join (B ", ") (exprs_of ps) /\ xr_predicate r = x_predicate x /\ x_sql x = []
    | _ =>
      includes = [] /\ xr_schema r = x_schema x /\ xr_type r = x_type x /\ x_exprs x = map part_bracketed ps /\
      xr_exprs r = escaped (join_commas (map part_expr ps)) /\ x_predicate x = [] /\ x_sql x = []
    end.

(** ** Triggers, views, functions *)
Definition trigger_row (d : dialect) (g : trigger) (r : trigger_raw) : Prop :=
  gr_table r = g_table g /\ gr_name r = g_name g /\ g_ignore g = false /\
  match d with
  | DSQLite => g_schema g = [] /\ g_sql g = gr_sql r
  | DPostgres => gr_schema r = g_schema g /\ g_sql g = gr_sql r
  | _ => gr_schema r = g_schema g /\
         g_sql g = B "CREATE TRIGGER " ++ quote_identifier d (g_name g) ++ B " " ++ gr_timing r ++ B " " ++ gr_event r ++ B " ON "
           ++ match g_schema g with [] => [] | _ => quote_identifier d (g_schema g) ++ B "." end
           ++ quote_identifier d (g_table g) ++ B " FOR EACH ROW " ++ gr_sql r
  end.
Definition view_row (d : dialect) (v : view) (r : view_raw) : Prop :=
  bare_view v /\ vr_name r = v_name v /\
  match d with
  | DSQLite => v_schema v = [] /\ v_materialized v = false /\
      ((forall a b, vr_sql r <> a ++ B " AS " ++ b) /\ v_sql v = vr_sql r \/
       exists pre, vr_sql r = pre ++ B " AS " ++ v_sql v /\ forall a b, vr_sql r = a ++ B " AS " ++ b -> length pre <= length a)
  | DPostgres => vr_schema r = v_schema v /\ vr_materialized r = v_materialized v /\ v_sql v = vr_sql r
  | _ => vr_schema r = v_schema v /\ v_materialized v = false /\ v_sql v = vr_sql r
  end.
Definition function_row (f : func) (r : function_raw) : Prop :=
  fr_schema r = f_schema f /\ fr_name r = f_name f /\ fr_args r = f_args f /\ fr_sql r = f_sql f /\ f_ignore f = false.

(** ** Versions *)
(** Numbers separated by dots; in Postgres perhaps a blank and more. *)
Definition version_text (d : dialect) (nums : list nat) (s : bytes) : Prop :=
  nums <> [] /\ Forall (fun n => (Z.of_nat n <= max_int64)%Z) nums /\ let v := join (B ".") (map itoa nums) in
  s = v \/ d = DPostgres /\ exists more, s = v ++ B " " ++ more.

(** ** A whole database *)
(** All rows arrive, one for each object, in order. *)
Definition listed {A R} (row : A -> R -> Prop) (l : list A) (res : result R) : Prop :=
  exists rs, res = Result (map Some rs) true /\ Forall2 row l rs.
Definition says (s : bytes) (res : result bytes) : Prop := exists more, res = Result (Some s :: more) true.
Definition reported (numeric : bytes -> bool) (d : dialect) (current : bytes) (extensions : list bytes) (R : rows) (rd : raw_db) : Prop :=
  rd_alive rd = true /\ (exists s nums, says s (rd_version rd) /\ version_text d nums s) /\ (exists s, says s (rd_database rd)) /\
  match d with DSQLite => current = [] | _ => says current (rd_current rd) end /\
  (d = DPostgres -> listed (fun e r => e = fst r ++ B "@" ++ snd r) extensions (rd_extensions rd)) /\
  listed (table_row d) (r_tables R) (rd_tables rd) /\ listed (view_row d) (r_views R) (rd_views rd) /\
  listed (column_row numeric d) (r_columns R) (rd_columns rd) /\ listed (constraint_row d) (r_constraints R) (rd_constraints rd) /\
  listed (index_row d) (r_indexes R) (rd_indexes rd) /\ (d = DPostgres -> listed function_row (r_functions R) (rd_functions rd)) /\
  listed (trigger_row d) (r_triggers R) (rd_triggers rd).
