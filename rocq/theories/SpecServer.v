(** * SpecServer: a database that is sent the text of DDL statements (C83, C84)

    A database is the list of its objects, each with its definition.  A statement
    is read from its text with the readers of SpecDdl and SpecDrop and carried
    out.  It is refused if it cannot be read, if it creates what there is
    already (and has neither IF NOT EXISTS nor OR REPLACE), drops what there is
    not (without IF EXISTS), is about a table or a schema that is not there, or
    makes a key of columns, or a reference to a table or columns, that are not
    there.

    The first part does not refer to the library, except for the names of the
    dialects.  Not represented: what CASCADE removes beyond the object itself and
    the parts of a dropped table, whether the columns and tables named inside
    expressions, indexes and views exist, the rows, extensions, the
    constraints of SQLite (which reports no names for them), virtual tables, and
    ADD CONSTRAINT ... USING INDEX. *)
From Verif Require Import GoBase QuoteModel SpecLex SpecIdent SpecSql.
From Verif Require Import CacheModel UpsertModel DdlModel MigrateModel SpecDdl SpecDrop SpecMigrate SpecColumn.
Local Open Scope opt_scope.

(** ** Statements *)
Record trigger_def := mk_trigger_def { tg_name : bytes * bytes; tg_table : bytes * bytes }.
Inductive statement :=
| SCreateSchema (if_not_exists : bool) (name : bytes)
| SCreateExtension (x : extension_def)
| SCreateTable (t : table_def)
| SCreateIndex (x : index_def)
| SCreateView (v : view_def)
| SCreateTrigger (g : trigger_def) (body : list tok)
| SCreateFunction (or_replace : bool) (s f : bytes) (body : list tok)
| SAlterTable (a : alter_def)
| SDropTable (o : drop_def)
| SDropView (materialized : bool) (o : drop_def)
| SDropIndex (o : drop_def)
| SDropTrigger (g : trigger_drop)
| SDropFunction (f : function_drop)
| SDropExtension (o : drop_def).
(** CREATE [OR REPLACE] [CONSTRAINT|TEMP|TEMPORARY] TRIGGER [IF NOT EXISTS] name ... ON table ... *)
Definition read_create_trigger (ts : list tok) : option trigger_def :=
  r <- words ["CREATE"]%string ts ;; let (_, r) := option_words ["OR"; "REPLACE"]%string r in
  let r := match r with t :: r' => if kw "CONSTRAINT" t || kw "TEMP" t || kw "TEMPORARY" t then r' else r | [] => r end in
  r <- words ["TRIGGER"]%string r ;; let (_, r) := option_words ["IF"; "NOT"; "EXISTS"]%string r in
  '(s, n, r) <- read_qualified r ;;
  let (_, r) := until (kw "ON") 0 r in
  r <- words ["ON"]%string r ;; '(s', t, _) <- read_qualified r ;; Some (mk_trigger_def (s, n) (s', t)).
(** CREATE [OR REPLACE] FUNCTION name ... *)
Definition read_create_function (ts : list tok) : option (bool * bytes * bytes) :=
  r <- words ["CREATE"]%string ts ;; let (rp, r) := option_words ["OR"; "REPLACE"]%string r in
  r <- words ["FUNCTION"]%string r ;; '(s, n, _) <- read_qualified r ;; Some (rp, s, n).
(** The first that succeeds. *)
Fixpoint first_of {A} (l : list (option A)) : option A :=
  match l with [] => None | Some a :: _ => Some a | None :: l' => first_of l' end.
Definition read_statement (ts : list tok) : option statement :=
  first_of [option_map SCreateTable (read_create_table ts);
            option_map SCreateIndex (read_create_index ts);
            option_map SCreateView (read_create_view ts);
            option_map (fun p => SCreateSchema (fst p) (snd p)) (read_create_schema ts);
            option_map SCreateExtension (read_create_extension ts);
            option_map (fun g => SCreateTrigger g ts) (read_create_trigger ts);
            option_map (fun '(rp, s, f) => SCreateFunction rp s f ts) (read_create_function ts);
            option_map SAlterTable (read_alter_table ts);
            option_map SDropTable (read_drop_table ts);
            option_map (fun p => SDropView (fst p) (snd p)) (read_drop_view ts);
            option_map (fun p => SDropIndex (snd p)) (read_drop_index ts);
            option_map SDropTrigger (read_drop_trigger ts);
            option_map SDropFunction (read_drop_function ts);
            option_map SDropExtension (read_drop_extension ts)].

(** ** Databases *)
Inductive definition :=
| FSchema
| FTable
| FColumn (c : col_def)
| FConstraint (k : con_def) (deferrable : option bool) (not_valid not_enforced : bool)
| FIndex (unique : bool) (kind : list tok) (method : option bytes) (elements : list (list tok)) (include : list bytes) (where_ : list tok)
| FView (materialized : bool) (query : list tok)
| FTrigger (body : list tok)
| FFunction (body : list tok).
Definition contents := list (item * definition).
Definition same_item (i j : item) : bool :=
  match i, j with
  | ISchema s, ISchema s' => beqb s s'
  | ITable s t, ITable s' t' | IView s t, IView s' t' | IFunction s t, IFunction s' t' => beqb s s' && beqb t t'
  | IColumn s t c, IColumn s' t' c' | IConstraint s t c, IConstraint s' t' c'
  | IIndex s t c, IIndex s' t' c' | ITrigger s t c, ITrigger s' t' c' => beqb s s' && beqb t t' && beqb c c'
  | _, _ => false
  end.
Definition has (db : contents) (i : item) : bool := existsb (fun p => same_item (fst p) i) db.
Definition add (i : item) (v : definition) (db : contents) : option contents := if has db i then None else Some (db ++ [(i, v)]).
Definition remove_all (p : item -> bool) (db : contents) : contents := filter (fun q => negb (p (fst q))) db.
Definition remove (if_exists : bool) (i : item) (db : contents) : option contents :=
  if has db i then Some (remove_all (same_item i) db) else if if_exists then Some db else None.
Definition demand (b : bool) (db : contents) : option contents := if b then Some db else None.
(** One after the other, as long as none is refused. *)
Fixpoint each {A} (f : A -> contents -> option contents) (l : list A) (db : contents) : option contents :=
  match l with [] => Some db | a :: l' => db <- f a db ;; each f l' db end.

(** A trigger is in the schema of its table, given with the name of the trigger
    or with the name of the table. *)
Definition trigger_schema (current s s' : bytes) : bytes := match s with [] => resolve current s' | _ => s end.
Section Server.
  Variable d : dialect.
  Variable current : bytes.

  Definition has_schema (db : contents) (s : bytes) : bool := beqb (resolve current s) current || has db (ISchema (resolve current s)).
  Definition index_definition (x : index_def) : definition :=
    FIndex (id_unique x) (id_kind x) (id_using x) (id_elements x) (id_include x) (id_where x).
  (** The primary key of MySQL is always called PRIMARY. *)
  Definition constraint_called (k : table_con) : option bytes :=
    match d, tc_def k with
    | DSQLite, _ => None
    | DMySQL, KKey true _ => Some (B "PRIMARY")
    | _, _ => tc_name k
    end.
  (** The columns of a key, and what a foreign key refers to, must be there. *)
  Definition columns_there (s t : bytes) (cols : list bytes) (db : contents) : bool := forallb (fun c => has db (IColumn s t c)) cols.
  Definition refers_to_something (s t : bytes) (k : con_def) (db : contents) : bool :=
    match k with
    | KKey _ cols => columns_there s t cols db
    | KForeign cols s' t' cols' _ _ _ =>
      columns_there s t cols db && has db (ITable (resolve current s') t') && columns_there (resolve current s') t' cols' db
    | _ => true
    end.
  Definition add_table_constraint (s t : bytes) (k : table_con) (nv ne : bool) (db : contents) : option contents :=
    match constraint_called k with
    | Some n =>
      db <- demand (refers_to_something s t (tc_def k) db) db ;;
      add (IConstraint s t n) (FConstraint (tc_def k) (tc_deferrable k) nv ne) db
    | None => Some db
    end.
  Definition add_element (s t : bytes) (e : element) (db : contents) : option contents :=
    match e with
    | EColumn c => add (IColumn s t (cd_name c)) (FColumn c) db
    | EConstraint k => add_table_constraint s t k false false db
    | EIndex x => add (IIndex s t (id_name x)) (index_definition x) db
    end.
  (** What ALTER COLUMN changes. *)
  Definition altered (a : col_action) (c : col_def) : col_def :=
    let '(mk_col_def n ty nn df pk au ge ou co ch re) := c in
    match a with
    | ASetType ty co' _ => mk_col_def n ty nn df pk au ge ou co' ch re
    | ASetNotNull => mk_col_def n ty true df pk au ge ou co ch re
    | ADropNotNull => mk_col_def n ty false df pk au ge ou co ch re
    | ASetDefault e => mk_col_def n ty nn (Some e) pk au ge ou co ch re
    | ADropDefault => mk_col_def n ty nn None pk au ge ou co ch re
    | AAddGenerated g => mk_col_def n ty nn df pk au g ou co ch re
    | ADropIdentity _ | ADropExpression _ => mk_col_def n ty nn df pk au GNo ou co ch re
    end.
  Definition change (i : item) (f : definition -> definition) (db : contents) : option contents :=
    if has db i then Some (map (fun p => if same_item i (fst p) then (fst p, f (snd p)) else p) db) else None.
  Definition do_action (s t : bytes) (a : action) (db : contents) : option contents :=
    match a with
    | AAddColumn ine c =>
      if has db (IColumn s t (cd_name c)) && ine then Some db else add (IColumn s t (cd_name c)) (FColumn c) db
    | AModifyColumn c => change (IColumn s t (cd_name c)) (fun _ => FColumn c) db
    | AAlterColumn n a => change (IColumn s t n) (fun v => match v with FColumn c => FColumn (altered a c) | _ => v end) db
    | ADropColumn ie n _ => remove ie (IColumn s t n) db
    | ADropConstraint ie n _ => remove ie (IConstraint s t n) db
    | AAddConstraint k nv ne => add_table_constraint s t k nv ne db
    | AAddKeyUsing _ _ _ _ => None
    | AAlterConstraint n df =>
      change (IConstraint s t n) (fun v => match v with FConstraint k _ nv ne => FConstraint k df nv ne | _ => v end) db
    | AAddIndex x => add (IIndex s t (id_name x)) (index_definition x) db
    | ADropIndex n => remove false (IIndex s t n) db
    end.
  Definition part_ofb (s t : bytes) (i : item) : bool :=
    match i with
    | ITable s' t' | IColumn s' t' _ | IConstraint s' t' _ | IIndex s' t' _ | ITrigger s' t' _ => beqb s' s && beqb t' t
    | _ => false
    end.
  (** The index (trigger) of this name of any table of the schema. *)
  Definition index_called (s n : bytes) (i : item) : bool :=
    match i with IIndex s' _ n' => beqb s' s && beqb n' n | _ => false end.
  Definition trigger_called (s : bytes) (t : option bytes) (n : bytes) (i : item) : bool :=
    match i with
    | ITrigger s' t' n' => beqb s' s && beqb n' n && match t with Some t => beqb t' t | None => true end
    | _ => false
    end.
  Definition remove_some (if_exists : bool) (p : item -> bool) (db : contents) : option contents :=
    if existsb (fun q => p (fst q)) db then Some (remove_all p db) else if if_exists then Some db else None.
  Definition does (x : statement) (db : contents) : option contents :=
    match x with
    | SCreateSchema ine n => if has db (ISchema n) && ine then Some db else add (ISchema n) FSchema db
    | SCreateExtension _ | SDropExtension _ => Some db
    | SCreateTable t =>
      let s := resolve current (td_schema t) in
      if has db (ITable s (td_name t)) && td_if_not_exists t then Some db
      else
        db <- demand (has_schema db (td_schema t)) db ;;
        db <- add (ITable s (td_name t)) FTable db ;; each (add_element s (td_name t)) (td_elements t) db
    | SCreateIndex x =>
      '(s, t) <- id_table x ;;
      let s := resolve current s in
      if existsb (fun p => index_called s (id_name x) (fst p)) db
      then (if id_if_not_exists x then Some db else None)
      else db <- demand (has db (ITable s t)) db ;; add (IIndex s t (id_name x)) (index_definition x) db
    | SCreateView v =>
      let i := IView (resolve current (vw_schema v)) (vw_name v) in
      if has db i && vw_if_not_exists v then Some db
      else
        db <- demand (has_schema db (vw_schema v)) db ;;
        add i (FView (vw_materialized v) (vw_query v)) (if vw_or_replace v then remove_all (same_item i) db else db)
    | SCreateTrigger g body =>
      let s := trigger_schema current (fst (tg_name g)) (fst (tg_table g)) in
      db <- demand (has db (ITable s (snd (tg_table g)))) db ;;
      add (ITrigger s (snd (tg_table g)) (snd (tg_name g))) (FTrigger body) db
    | SCreateFunction rp s f body =>
      let i := IFunction (resolve current s) f in
      db <- demand (has_schema db s) db ;; add i (FFunction body) (if rp then remove_all (same_item i) db else db)
    | SAlterTable a =>
      let s := resolve current (ad_schema a) in
      if has db (ITable s (ad_table a)) then each (do_action s (ad_table a)) (ad_actions a) db
      else if ad_if_exists a then Some db else None
    | SDropTable o =>
      each (fun '(s, t) => remove_some (pd_if_exists o) (part_ofb (resolve current s) t)) (pd_names o) db
    | SDropView _ o => each (fun '(s, v) => remove (pd_if_exists o) (IView (resolve current s) v)) (pd_names o) db
    | SDropIndex o => each (fun '(s, x) => remove_some (pd_if_exists o) (index_called (resolve current s) x)) (pd_names o) db
    | SDropTrigger g =>
      match gd_table g with
      | Some (s, t) => remove_some (gd_if_exists g) (trigger_called (resolve current s) (Some t) (snd (gd_name g))) db
      | None => remove_some (gd_if_exists g) (trigger_called (resolve current (fst (gd_name g))) None (snd (gd_name g))) db
      end
    | SDropFunction f => remove (fd_if_exists f) (IFunction (resolve current (fst (fd_name f))) (snd (fd_name f))) db
    end.
  (** One statement, given as text; and a list of them. *)
  Definition serve (q : bytes) (db : contents) : option contents :=
    ts <- tokens d q ;; x <- read_statement ts ;; does x db.
  Definition served (qs : list bytes) (db : contents) : option contents := each serve qs db.
End Server.

(** ** The wanted objects *)
(** [i] is an object of the wanted catalog and [v] is its definition. *)
Definition wanted_definition (d : dialect) (want : metadata) (i : item) (v : definition) : Prop :=
  match i with
  | ISchema s => lists want i /\ v = FSchema
  | ITable s t => lists want i /\ v = FTable
  | IColumn s t n => exists tb l, has_table want s tb /\ t_name tb = t /\ table_column tb l /\ l_name l = n /\
      v = FColumn (said_column d l [] None)
  | IConstraint s t n => exists tb k, has_table want s tb /\ t_name tb = t /\ table_constraint tb k /\ c_name k = n /\
      v = FConstraint (said_def d k) (said_deferrable k) false false
  | IIndex s t n => exists tb x, has_table want s tb /\ t_name tb = t /\ table_index tb x /\ x_name x = n /\
      v = index_definition (said_index d (mk_create_index false false x false))
  | ITrigger s t n => exists tb g, has_table want s tb /\ t_name tb = t /\ table_trigger tb g /\ g_name g = n /\
      v = FTrigger (frag d (g_sql g))
  | IView s n => exists w, has_view want w /\ v_schema w = s /\ v_name w = n /\ v = FView (v_materialized w) (frag d (v_sql w))
  | IFunction s n => exists f, has_function_def want f /\ f_schema f = s /\ f_name f = n /\ v = FFunction (frag d (f_sql f))
  end.
(** The database has exactly the objects of the catalog (with some definitions). *)
Definition shows_catalog (d : dialect) (db : contents) (got : metadata) : Prop :=
  forall i, in_scope d i -> (has db i = true <-> lists got i).

(** ** When the commands can be read *)
(** The SQL of a trigger or a function is written by the user: it says what the
    catalog says. *)
Definition trigger_readable (d : dialect) (current : bytes) (g : trigger) : Prop :=
  exists ts s s', tokens d (g_sql g) = Some ts /\
    read_create_trigger ts = Some (mk_trigger_def (s, g_name g) (s', g_table g)) /\
    trigger_schema current s s' = resolve current (g_schema g).
Definition function_readable (d : dialect) (current : bytes) (f : func) : Prop :=
  exists ts rp s, tokens d (f_sql f) = Some ts /\ read_create_function ts = Some (rp, s, f_name f) /\
    resolve current s = resolve current (f_schema f).
Definition named_constraint (d : dialect) (k : constraint) : Prop :=
  c_name k <> [] /\ (d = DMySQL -> c_type k = PRIMARY_KEY -> c_name k = B "PRIMARY").
(** The wanted catalog ([listed] are its objects).  The columns of the keys are
    columns of the table; what a foreign key refers to is wanted too. *)
Definition key_of_columns (listed : item -> Prop) (current : bytes) (tb : table) (k : constraint) : Prop :=
  (In (c_type k) [UNIQUE; PRIMARY_KEY; FOREIGN_KEY] -> forall c, In c (c_columns k) -> exists l, table_column tb l /\ l_name l = c) /\
  (c_type k = FOREIGN_KEY ->
     let s := resolve current (c_ref_schema k) in
     listed (ITable s (c_ref_table k)) /\ forall c, In c (c_ref_columns k) -> listed (IColumn s (c_ref_table k) c)).
Record wanted_table_ok (d : dialect) (current : bytes) (listed : item -> Prop) (tb : table) : Prop := {
  wt_schema : good_name d (t_schema tb);
  wt_name : good_name d (t_name tb);
  wt_plain : t_virtual tb = [];
  wt_some : exists l, table_column tb l;
  wt_columns : forall l, table_column tb l -> column_ok d l /\ (is_bare (l_name l) = true -> element_word (TWord (l_name l)) = false);
  wt_constraints : forall k, table_constraint tb k ->
    constraint_ok d k /\ (d <> DSQLite -> named_constraint d k /\ key_of_columns listed current tb k);
  wt_indexes : forall x, table_index tb x -> index_ok d x;
  wt_triggers : forall g, table_trigger tb g -> trigger_readable d current g }.
Record wanted_ok (d : dialect) (current : bytes) (want : metadata) : Prop := {
  wo_schemas : forall s, s <> [] -> lists want (ISchema s) -> plain_word d s;
  wo_tables : forall s tb, has_table want s tb -> wanted_table_ok d current (lists want) tb;
  wo_views : forall v, has_view want v -> good_name d (v_schema v) /\ good_name d (v_name v) /\ tokens d (v_sql v) <> None;
  wo_functions : forall f, has_function_def want f -> function_readable d current f;
  wo_extensions : forall e, In e (d_extensions want) -> exists n v, extension_parts e n v /\ good_name DPostgres n /\ ~ has_inner_pair "'" v }.
(** The names in the present catalog can be written; no index is called CONCURRENTLY. *)
Record present_table_ok (d : dialect) (tb : table) : Prop := {
  pt_schema : good_name d (t_schema tb) /\ is_not_word "CONCURRENTLY" (t_schema tb);
  pt_name : good_name d (t_name tb);
  pt_columns : forall l, table_column tb l -> good_name d (l_name l);
  pt_constraints : forall k, table_constraint tb k -> good_name d (c_name k);
  pt_indexes : forall x, table_index tb x -> good_name d (x_name x) /\ is_not_word "CONCURRENTLY" (x_name x);
  pt_triggers : forall g, table_trigger tb g -> good_name d (g_name g) }.
Record present_ok (d : dialect) (got : metadata) : Prop := {
  po_tables : forall s tb, has_table got s tb -> present_table_ok d tb;
  po_views : forall v, has_view got v -> good_name d (v_schema v) /\ good_name d (v_name v);
  po_functions : forall f, has_function_def got f -> good_name d (f_schema f) /\ good_name d (f_name f) /\ plain_sql d no_stop (f_args f);
  po_extensions : forall e, In e (d_extensions got) -> exists n v, extension_parts e n v /\ good_name DPostgres n }.

(** ** When every command has SQL *)
(** SQLite refuses ALTER TABLE ... ADD COLUMN for some columns. *)
Definition addable (l : column) : Prop :=
  l_primary_key l = false /\ l_unique l = false /\
  (l_not_null l = true -> ~ null_default (l_default l) /\ ~ (hd "0"%char (l_default l) = "("%char /\ last (l_default l) "0"%char = ")"%char)) /\
  (l_stored l = true -> l_generated l = []).
(** The dialect has what is wanted, and what there is to be dropped. *)
Record table_expressible (d : dialect) (present : item -> Prop) (s : bytes) (tb : table) : Prop := {
  te_name : t_name tb <> [];
  te_args : t_virtual_args tb = [];
  te_columns : forall l, table_column tb l ->
    column_supported d l /\
    (d = DSQLite -> present (ITable s (t_name tb)) -> ~ present (IColumn s (t_name tb) (l_name l)) -> addable l);
  te_constraints : forall k, table_constraint tb k -> constraint_supported d k;
  te_indexes : forall x, table_index tb x ->
    (x_include x <> [] -> d = DPostgres) /\ (x_predicate x <> [] -> d = DPostgres \/ d = DSQLite) /\
    (forall i, nth_error (x_columns x) i = Some [] -> i < length (x_exprs x)) }.
Record expressible (d : dialect) (got want : metadata) : Prop := {
  ex_schemas : d = DSQLite -> forall s, s <> [] -> lists want (ISchema s) -> lists got (ISchema s);
  ex_tables : forall s tb, has_table want s tb -> table_expressible d (lists got) s tb;
  ex_views : forall v, has_view got v -> v_materialized v = true -> d = DPostgres;
  ex_functions : d = DSQLite -> forall f, ~ has_function_def got f;
  ex_extensions : d <> DPostgres -> d_extensions got = [] }.
