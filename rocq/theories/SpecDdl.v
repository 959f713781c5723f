(** * SpecDdl: how a database reads CREATE TABLE, ALTER TABLE and CREATE INDEX

    The first part does not refer to the library. *)
From Verif Require Import GoBase QuoteModel SpecLex SpecIdent SpecSql.
From Verif Require Import CacheModel UpsertModel DdlModel.

Declare Scope opt_scope.
Notation "x <- e ;; k" := (match e with Some x => k | None => None end) (at level 61, e at next level, right associativity) : opt_scope.
Notation "' p <- e ;; k" := (match e with Some p => k | None => None end)
  (at level 61, p pattern, e at next level, right associativity) : opt_scope.
Delimit Scope opt_scope with opt.
Local Open Scope opt_scope.

(** ** Column definitions *)
Inductive generated := GNo | GIdentity (always : bool) | GExpr (e : list tok) (stored : bool).
Record col_def := mk_col_def {
  cd_name : bytes; cd_type : list tok; cd_not_null : bool; cd_default : option (list tok);
  cd_primary : bool; cd_auto : bool; cd_generated : generated; cd_on_update : bool;
  cd_collate : option bytes; cd_checks : list (list tok); cd_references : option (bytes * bytes) }.
(** The words that start a clause of a column definition. *)
Definition clause_word (t : tok) : bool :=
  kw "NOT" t || kw "DEFAULT" t || kw "PRIMARY" t || kw "AUTO_INCREMENT" t || kw "AUTOINCREMENT" t ||
  kw "GENERATED" t || kw "ON" t || kw "COLLATE" t || kw "CHECK" t || kw "REFERENCES" t.
Definition read_generated (ts : list tok) : option (generated * list tok) :=
  match words ["BY"; "DEFAULT"; "AS"; "IDENTITY"]%string ts with
  | Some r => Some (GIdentity false, r)
  | None =>
    match words ["ALWAYS"; "AS"; "IDENTITY"]%string ts with
    | Some r => Some (GIdentity true, r)
    | None =>
      r <- words ["ALWAYS"; "AS"]%string ts ;; '(e, r) <- read_group r ;;
      match words ["STORED"]%string r with
      | Some r => Some (GExpr e true, r)
      | None => r <- words ["VIRTUAL"]%string r ;; Some (GExpr e false, r)
      end
    end
  end.
(** One clause more; [f] reads the others. *)
Definition read_clause (f : col_def -> list tok -> option col_def) (c : col_def) (ts : list tok) : option col_def :=
  let '(mk_col_def n ty nn df pk au ge ou co ch re) := c in
  match ts with
  | [] => None
  | t :: r =>
    if kw "NOT" t then r <- words ["NULL"]%string r ;; f (mk_col_def n ty true df pk au ge ou co ch re) r
    else if kw "DEFAULT" t then
      let (e, r) := until clause_word 0 r in f (mk_col_def n ty nn (Some e) pk au ge ou co ch re) r
    else if kw "PRIMARY" t then r <- words ["KEY"]%string r ;; f (mk_col_def n ty nn df true au ge ou co ch re) r
    else if kw "AUTO_INCREMENT" t || kw "AUTOINCREMENT" t then f (mk_col_def n ty nn df pk true ge ou co ch re) r
    else if kw "GENERATED" t then '(g, r) <- read_generated r ;; f (mk_col_def n ty nn df pk au g ou co ch re) r
    else if kw "ON" t then
      r <- words ["UPDATE"; "CURRENT_TIMESTAMP"]%string r ;; f (mk_col_def n ty nn df pk au ge true co ch re) r
    else if kw "COLLATE" t then '(x, r) <- read_name r ;; f (mk_col_def n ty nn df pk au ge ou (Some x) ch re) r
    else if kw "CHECK" t then '(e, r) <- read_group r ;; f (mk_col_def n ty nn df pk au ge ou co (ch ++ [e]) re) r
    else if kw "REFERENCES" t then
      '(x, r) <- read_name r ;; '(y, r) <- read_group r ;; y <- read_names y ;;
      match y with [y] => f (mk_col_def n ty nn df pk au ge ou co ch (Some (x, y))) r | _ => None end
    else None
  end.
Fixpoint read_clauses (fuel : nat) (c : col_def) (ts : list tok) : option col_def :=
  match ts, fuel with
  | [], _ => Some c
  | _, 0 => None
  | _, S k => read_clause (read_clauses k) c ts
  end.
Definition plain_column (n : bytes) (ty : list tok) : col_def := mk_col_def n ty false None false false GNo false None [] None.
(** name type clause ... clause *)
Definition read_column (ts : list tok) : option col_def :=
  '(n, r) <- read_name ts ;; let (ty, r) := until clause_word 0 r in read_clauses (length r) (plain_column n ty) r.

(** ** Table constraints *)
Inductive con_def :=
| KCheck (e : list tok)
| KKey (primary : bool) (cols : list bytes)
| KForeign (cols : list bytes) (schema table : bytes) (ref_cols : list bytes) (match_ update delete : list tok)
| KExclude (method : bytes) (elems : list (list tok * list tok)) (where_ : list tok).
Record table_con := mk_table_con {
  tc_name : option bytes; tc_def : con_def; tc_deferrable : option bool (* Some true: INITIALLY DEFERRED *) }.
Definition rule_word (t : tok) : bool := kw "ON" t || kw "DEFERRABLE" t || kw "NOT" t.
Definition read_deferrable (ts : list tok) : option (option bool * list tok) :=
  match words ["DEFERRABLE"; "INITIALLY"]%string ts with
  | None => Some (None, ts)
  | Some r =>
    match words ["DEFERRED"]%string r with
    | Some r => Some (Some true, r)
    | None => r <- words ["IMMEDIATE"]%string r ;; Some (Some false, r)
    end
  end.
(** "ON UPDATE action", "ON DELETE action": nothing if it is not there. *)
Definition read_rule (w : string) (ts : list tok) : list tok * list tok :=
  match words ["ON"; w]%string ts with Some r => until rule_word 0 r | None => ([], ts) end.
Definition read_optional_names (ts : list tok) : option (list bytes * list tok) :=
  match read_group ts with
  | Some (g, r) => ns <- read_names g ;; Some (ns, r)
  | None => Some ([], ts)
  end.
Definition read_exclusion (e : list tok) : option (list tok * list tok) :=
  let (a, r) := until (kw "WITH") 0 e in b <- words ["WITH"]%string r ;; Some (a, b).
Definition read_constraint_def (ts : list tok) : option (con_def * list tok) :=
  match words ["CHECK"]%string ts with
  | Some r => '(e, r) <- read_group r ;; Some (KCheck e, r)
  | None =>
  match words ["UNIQUE"]%string ts with
  | Some r => '(g, r) <- read_group r ;; ns <- read_names g ;; Some (KKey false ns, r)
  | None =>
  match words ["PRIMARY"; "KEY"]%string ts with
  | Some r => '(g, r) <- read_group r ;; ns <- read_names g ;; Some (KKey true ns, r)
  | None =>
  match words ["FOREIGN"; "KEY"]%string ts with
  | Some r =>
    '(g, r) <- read_group r ;; ns <- read_names g ;;
    r <- words ["REFERENCES"]%string r ;; '(s, t, r) <- read_qualified r ;; '(rs, r) <- read_optional_names r ;;
    let (m, r) := until rule_word 0 r in let (u, r) := read_rule "UPDATE" r in let (dl, r) := read_rule "DELETE" r in
    Some (KForeign ns s t rs m u dl, r)
  | None =>
    r <- words ["EXCLUDE"; "USING"]%string ts ;; '(m, r) <- read_name r ;; '(g, r) <- read_group r ;;
    es <- read_all read_exclusion (elements g) ;;
    match words ["WHERE"]%string r with
    | Some r => '(p, r) <- read_group r ;; Some (KExclude m es p, r)
    | None => Some (KExclude m es [], r)
    end
  end end end end.
(** [CONSTRAINT name] definition [DEFERRABLE ...]; and what follows. *)
Definition read_constraint_prefix (ts : list tok) : option (table_con * list tok) :=
  match words ["CONSTRAINT"]%string ts with
  | Some r => '(n, r) <- read_name r ;; '(k, r) <- read_constraint_def r ;; '(df, r) <- read_deferrable r ;;
              Some (mk_table_con (Some n) k df, r)
  | None => '(k, r) <- read_constraint_def ts ;; '(df, r) <- read_deferrable r ;; Some (mk_table_con None k df, r)
  end.
Definition read_constraint (ts : list tok) : option table_con :=
  match read_constraint_prefix ts with Some (c, []) => Some c | _ => None end.

(** ** Indexes *)
Record index_def := mk_index_def {
  id_unique : bool; id_kind : list tok (* FULLTEXT or SPATIAL *); id_concurrently : bool; id_if_not_exists : bool;
  id_name : bytes; id_table : option (bytes * bytes); id_using : option bytes; id_elements : list (list tok);
  id_include : list bytes; id_where : list tok }.
Definition read_using (ts : list tok) : option (option bytes * list tok) :=
  match words ["USING"]%string ts with
  | Some r => '(m, r) <- read_name r ;; Some (Some m, r)
  | None => Some (None, ts)
  end.
(** [UNIQUE|FULLTEXT|SPATIAL] INDEX [CONCURRENTLY] [IF NOT EXISTS] name [ON table] [USING method]
    (element, ...) [INCLUDE (name, ...)] [WHERE condition] *)
Definition read_index (ts : list tok) : option index_def :=
  let (un, r) := option_words ["UNIQUE"]%string ts in
  let (kind, r) := match r with
                   | t :: r' => if kw "FULLTEXT" t || kw "SPATIAL" t then ([t], r') else ([], r)
                   | [] => ([], r)
                   end in
  r <- words ["INDEX"]%string r ;;
  let (cc, r) := option_words ["CONCURRENTLY"]%string r in
  let (ine, r) := option_words ["IF"; "NOT"; "EXISTS"]%string r in
  '(n, r) <- read_name r ;;
  '(u1, r) <- read_using r ;;
  '(tb, r) <- match words ["ON"]%string r with
              | Some r => '(s, t, r) <- read_qualified r ;; Some (Some (s, t), r)
              | None => Some (None, r)
              end ;;
  '(u2, r) <- read_using r ;;
  '(g, r) <- read_group r ;;
  '(inc, r) <- match words ["INCLUDE"]%string r with
               | Some r => '(h, r) <- read_group r ;; ns <- read_names h ;; Some (ns, r)
               | None => Some ([], r)
               end ;;
  match words ["WHERE"]%string r with
  | Some w => Some (mk_index_def un kind cc ine n tb (match u1 with Some _ => u1 | None => u2 end) (elements g) inc w)
  | None =>
    match r with
    | [] => Some (mk_index_def un kind cc ine n tb (match u1 with Some _ => u1 | None => u2 end) (elements g) inc [])
    | _ => None
    end
  end.
Definition read_create_index (ts : list tok) : option index_def :=
  r <- words ["CREATE"]%string ts ;; read_index r.

(** ** CREATE TABLE *)
Inductive element := EColumn (c : col_def) | EConstraint (c : table_con) | EIndex (x : index_def).
(** The words that start an element that is not a column. *)
Definition element_word (t : tok) : bool :=
  kw "CONSTRAINT" t || kw "CHECK" t || kw "UNIQUE" t || kw "PRIMARY" t || kw "FOREIGN" t || kw "EXCLUDE" t ||
  kw "INDEX" t || kw "FULLTEXT" t || kw "SPATIAL" t.
Definition read_element (ts : list tok) : option element :=
  match ts with
  | [] => None
  | t :: r =>
    if kw "INDEX" t || kw "FULLTEXT" t || kw "SPATIAL" t || (kw "UNIQUE" t && match r with t2 :: _ => kw "INDEX" t2 | [] => false end)
    then option_map EIndex (read_index ts)
    else if element_word t then option_map EConstraint (read_constraint ts)
    else option_map EColumn (read_column ts)
  end.
Record table_def := mk_table_def { td_if_not_exists : bool; td_schema : bytes; td_name : bytes; td_elements : list element }.
Definition read_create_table (ts : list tok) : option table_def :=
  r <- words ["CREATE"; "TABLE"]%string ts ;;
  let (ine, r) := option_words ["IF"; "NOT"; "EXISTS"]%string r in
  '(s, n, r) <- read_qualified r ;; '(g, r) <- read_group r ;;
  match r with
  | [] => es <- read_all read_element (elements g) ;; Some (mk_table_def ine s n es)
  | _ => None
  end.
(** CREATE VIRTUAL TABLE name USING module (argument, ...) *)
Record virtual_def := mk_virtual_def { vd_if_not_exists : bool; vd_schema : bytes; vd_name : bytes; vd_module : bytes; vd_args : list (list tok) }.
Definition read_create_virtual (ts : list tok) : option virtual_def :=
  r <- words ["CREATE"; "VIRTUAL"; "TABLE"]%string ts ;;
  let (ine, r) := option_words ["IF"; "NOT"; "EXISTS"]%string r in
  '(s, n, r) <- read_qualified r ;; r <- words ["USING"]%string r ;; '(m, r) <- read_name r ;; '(g, r) <- read_group r ;;
  match r with [] => Some (mk_virtual_def ine s n m (elements g)) | _ => None end.

(** ** ALTER TABLE *)
Inductive col_action :=
| ASetType (ty : list tok) (collate : option bytes) (using_ : list tok)
| ASetNotNull | ADropNotNull
| ASetDefault (e : list tok) | ADropDefault
| AAddGenerated (g : generated) | ADropIdentity (if_exists : bool) | ADropExpression (if_exists : bool).
Inductive action :=
| AAddColumn (if_not_exists : bool) (c : col_def)
| AModifyColumn (c : col_def)
| AAlterColumn (name : bytes) (a : col_action)
| ADropColumn (if_exists : bool) (name : bytes) (cascade : bool)
| ADropConstraint (if_exists : bool) (name : bytes) (cascade : bool)
| AAddConstraint (c : table_con) (not_valid not_enforced : bool)
| AAddKeyUsing (name : bytes) (primary : bool) (index : bytes) (deferrable : option bool)
| AAlterConstraint (name : bytes) (deferrable : option bool)
| AAddIndex (x : index_def)
| ADropIndex (name : bytes).
Definition type_word (t : tok) : bool := kw "COLLATE" t || kw "USING" t.
Definition read_col_action (ts : list tok) : option col_action :=
  match words ["SET"; "DATA"; "TYPE"]%string ts with
  | Some r =>
    let (ty, r) := until type_word 0 r in
    '(co, r) <- match words ["COLLATE"]%string r with
                | Some r => '(x, r) <- read_name r ;; Some (Some x, r)
                | None => Some (None, r)
                end ;;
    match words ["USING"]%string r with
    | Some e => Some (ASetType ty co e)
    | None => match r with [] => Some (ASetType ty co []) | _ => None end
    end
  | None =>
  match words ["SET"; "NOT"; "NULL"]%string ts, words ["DROP"; "NOT"; "NULL"]%string ts, words ["DROP"; "DEFAULT"]%string ts with
  | Some [], _, _ => Some ASetNotNull
  | _, Some [], _ => Some ADropNotNull
  | _, _, Some [] => Some ADropDefault
  | _, _, _ =>
  match words ["SET"; "DEFAULT"]%string ts with
  | Some e => Some (ASetDefault e)
  | None =>
  match words ["ADD"; "GENERATED"]%string ts with
  | Some r => match read_generated r with Some (g, []) => Some (AAddGenerated g) | _ => None end
  | None =>
  match words ["DROP"; "IDENTITY"]%string ts with
  | Some r => let (ie, r) := option_words ["IF"; "EXISTS"]%string r in match r with [] => Some (ADropIdentity ie) | _ => None end
  | None =>
    r <- words ["DROP"; "EXPRESSION"]%string ts ;;
    let (ie, r) := option_words ["IF"; "EXISTS"]%string r in match r with [] => Some (ADropExpression ie) | _ => None end
  end end end end end.
Definition read_drop (r : list tok) : option (bool * bytes * bool) :=
  let (ie, r) := option_words ["IF"; "EXISTS"]%string r in
  '(n, r) <- read_name r ;;
  let (ca, r) := option_words ["CASCADE"]%string r in
  match r with [] => Some (ie, n, ca) | _ => None end.
Definition read_add_constraint (r : list tok) : option action :=
  '(c, r) <- read_constraint_prefix r ;;
  match r with
  | [] => Some (AAddConstraint c false false)
  | _ =>
    match words ["NOT"; "VALID"]%string r with
    | Some [] => Some (AAddConstraint c true false)
    | _ => match words ["NOT"; "ENFORCED"]%string r with Some [] => Some (AAddConstraint c false true) | _ => None end
    end
  end.
(** CONSTRAINT name UNIQUE|PRIMARY KEY USING INDEX index [DEFERRABLE ...] *)
Definition read_key_using (r : list tok) : option action :=
  r <- words ["CONSTRAINT"]%string r ;; '(n, r) <- read_name r ;;
  '(p, r) <- match words ["PRIMARY"; "KEY"]%string r with
             | Some r => Some (true, r)
             | None => r <- words ["UNIQUE"]%string r ;; Some (false, r)
             end ;;
  r <- words ["USING"; "INDEX"]%string r ;; '(x, r) <- read_name r ;; '(df, r) <- read_deferrable r ;;
  match r with [] => Some (AAddKeyUsing n p x df) | _ => None end.
Definition read_action (ts : list tok) : option action :=
  match words ["ADD"; "COLUMN"]%string ts with
  | Some r => let (ine, r) := option_words ["IF"; "NOT"; "EXISTS"]%string r in option_map (AAddColumn ine) (read_column r)
  | None =>
  match words ["MODIFY"; "COLUMN"]%string ts with
  | Some r => option_map AModifyColumn (read_column r)
  | None =>
  match words ["ALTER"; "COLUMN"]%string ts with
  | Some r => '(n, r) <- read_name r ;; option_map (AAlterColumn n) (read_col_action r)
  | None =>
  match words ["DROP"; "COLUMN"]%string ts with
  | Some r => '(ie, n, ca) <- read_drop r ;; Some (ADropColumn ie n ca)
  | None =>
  match words ["DROP"; "CONSTRAINT"]%string ts with
  | Some r => '(ie, n, ca) <- read_drop r ;; Some (ADropConstraint ie n ca)
  | None =>
  match words ["ALTER"; "CONSTRAINT"]%string ts with
  | Some r =>
    '(n, r) <- read_name r ;;
    match words ["NOT"; "DEFERRABLE"]%string r with
    | Some [] => Some (AAlterConstraint n None)
    | _ => match read_deferrable r with Some (Some df, []) => Some (AAlterConstraint n (Some df)) | _ => None end
    end
  | None =>
  match words ["DROP"; "INDEX"]%string ts with
  | Some [t] => option_map ADropIndex (name_of t)
  | Some _ => None
  | None =>
    r <- words ["ADD"]%string ts ;;
    match read_key_using r with
    | Some a => Some a
    | None => match read_index r with Some x => Some (AAddIndex x) | None => read_add_constraint r end
    end
  end end end end end end end.
Record alter_def := mk_alter_def { ad_if_exists : bool; ad_schema : bytes; ad_table : bytes; ad_actions : list action }.
Definition read_alter_table (ts : list tok) : option alter_def :=
  r <- words ["ALTER"; "TABLE"]%string ts ;;
  let (ie, r) := option_words ["IF"; "EXISTS"]%string r in
  '(s, n, r) <- read_qualified r ;; es <- read_all read_action (elements r) ;; Some (mk_alter_def ie s n es).

(** ** What the commands of the library say *)
(** Fragments of SQL in the metadata, by where they are written: next to other
    clauses and elements, next to commas only, or in parentheses. *)
Definition clause_stop (t : tok) : bool := clause_word t || sym "," t.
Definition type_stop (t : tok) : bool := type_word t || sym "," t.
Definition rule_stop (t : tok) : bool := rule_word t || sym "," t.
Definition comma_stop (t : tok) : bool := sym "," t.
Definition no_stop (t : tok) : bool := false.

Definition BY_DEFAULT := B "BY DEFAULT AS IDENTITY".
Definition ALWAYS := B "ALWAYS AS IDENTITY".
(** How a collation is written. *)
Definition collation_ok (d : dialect) (c : bytes) : Prop :=
  c = [] \/ (if is_postgres d then good_name d c else plain_word d c).
Record column_ok (d : dialect) (l : column) : Prop := {
  ok_name : good_name d (l_name l);
  ok_type : plain_sql d clause_stop (l_type l);
  ok_default : plain_sql d clause_stop (l_default l);
  ok_generated : plain_sql d no_stop (l_generated l);
  ok_identity : In (l_identity l) [[]; BY_DEFAULT; ALWAYS];
  ok_collation : collation_ok d (l_collation l) }.
Definition identity_of (i : bytes) : generated :=
  if beqb i BY_DEFAULT then GIdentity false else if beqb i ALWAYS then GIdentity true else GNo.
(** The definition of the column [l]; in dialects other than SQLite the primary
    key is a constraint of its own. *)
Definition said_column (d : dialect) (l : column) (checks : list (list tok)) (refs : option (bytes * bytes)) : col_def :=
  mk_col_def (l_name l) (frag d (l_type l)) (l_not_null l)
    (match l_default l, l_autoincrement l, l_identity l, l_generated l with
     | _ :: _, false, [], [] => Some (frag d (l_default l))
     | _, _, _, _ => None
     end)
    (match d with DSQLite => l_primary_key l | _ => false end)
    (l_autoincrement l)
    (match l_autoincrement l, l_identity l, l_generated l with
     | true, _, _ => GNo
     | _, _ :: _, _ => identity_of (l_identity l)
     | _, [], _ :: _ => GExpr (frag d (l_generated l)) (l_stored l)
     | _, [], [] => GNo
     end)
    (l_on_update l)
    (match l_collation l with [] => None | c => Some c end)
    checks refs.

(** Constraints.  Their names are quoted, but their columns and the table they
    reference are written as they are. *)
Definition word_or_none (d : dialect) (s : bytes) : Prop := s = [] \/ plain_word d s.
Definition with_stop (t : tok) : bool := kw "WITH" t || sym "," t.
(** The [i]th element of EXCLUDE: a column, or an expression. *)
Definition part_text (columns exprs : list bytes) (i : nat) : bytes :=
  match nth i columns [] with [] => nth i exprs [] | n => n end.
Record constraint_ok (d : dialect) (c : constraint) : Prop := {
  okc_name : good_name d (c_name c);
  okc_type : In (c_type c) [CHECK; UNIQUE; PRIMARY_KEY; FOREIGN_KEY; EXCLUDE];
  okc_check : plain_sql d no_stop (c_check c);
  okc_columns : c_type c <> EXCLUDE -> Forall (plain_word d) (c_columns c);
  okc_ref_schema : word_or_none d (c_ref_schema c);
  okc_ref_table : c_type c = FOREIGN_KEY -> plain_word d (c_ref_table c);
  okc_ref_columns : Forall (plain_word d) (c_ref_columns c);
  okc_match : plain_sql d rule_stop (c_match c) /\ match frag d (c_match c) with TSym _ :: _ => False | _ => True end;
  okc_update : plain_sql d rule_stop (c_update c);
  okc_delete : plain_sql d rule_stop (c_delete c);
  okc_method : word_or_none d (c_index_type c);
  okc_exclusions : c_type c = EXCLUDE -> forall i, i < length (c_columns c) ->
    plain_sql d with_stop (part_text (c_columns c) (c_exprs c) i) /\ plain_sql d comma_stop (nth i (c_operators c) []);
  okc_predicate : plain_sql d no_stop (c_predicate c) }.
Definition said_def (d : dialect) (c : constraint) : con_def :=
  if beqb (c_type c) CHECK then KCheck (frag d (c_check c))
  else if beqb (c_type c) UNIQUE then KKey false (c_columns c)
  else if beqb (c_type c) PRIMARY_KEY then KKey true (c_columns c)
  else if beqb (c_type c) FOREIGN_KEY then
    KForeign (c_columns c) (c_ref_schema c) (c_ref_table c) (c_ref_columns c)
      (frag d (c_match c)) (frag d (c_update c)) (frag d (c_delete c))
  else KExclude (c_index_type c)
         (map (fun i => (frag d (part_text (c_columns c) (c_exprs c) i), frag d (nth i (c_operators c) [])))
            (List.seq 0 (length (c_columns c))))
         (frag d (c_predicate c)).
Definition said_deferrable (c : constraint) : option bool := if c_deferrable c then Some (c_deferred c) else None.
(** In CREATE TABLE; MySQL does not name primary keys. *)
Definition said_constraint (d : dialect) (c : constraint) : table_con :=
  mk_table_con (if is_empty (c_name c) || (is_mysql d && beqb (c_type c) PRIMARY_KEY) then None else Some (c_name c))
    (said_def d c) (said_deferrable c).

(** Indexes. *)
Definition special_type (t : bytes) : bool := let u := map fold_case t in beqb u (B "FULLTEXT") || beqb u (B "SPATIAL").
(** BTREE is the default. *)
Definition method_of (t : bytes) : option bytes :=
  if is_empty t || special_type t || beqb (map fold_case t) (B "BTREE") then None else Some t.
Record index_ok (d : dialect) (x : index) : Prop := {
  okx_name : good_name d (x_name x);
  okx_not_word : is_bare (x_name x) = true -> map fold_case (x_name x) <> B "CONCURRENTLY";
  okx_schema : good_name d (x_schema x);
  okx_table : good_name d (x_table x);
  okx_type : word_or_none d (x_type x);
  okx_parts : forall i n, nth_error (x_columns x) i = Some n ->
    match n with
    | [] => plain_sql d comma_stop (nth i (x_exprs x) []) /\ frag d (nth i (x_exprs x) []) <> []
    | _ => good_name d n
    end;
  okx_include : Forall (good_name d) (x_include x);
  okx_predicate : plain_sql d no_stop (x_predicate x) }.
(** A name, bare or quoted. *)
Definition name_token (n : bytes) : tok := if is_bare n then TWord n else TName n.
Definition said_part (d : dialect) (x : index) (i : nat) : list tok :=
  match nth i (x_columns x) [] with [] => frag d (nth i (x_exprs x) []) | n => [name_token n] end.
Definition said_index (d : dialect) (c : create_index) : index_def :=
  let x := ci_index c in
  let special := is_mysql d && special_type (x_type x) in
  mk_index_def (x_unique x && negb special) (if special then [TWord (x_type x)] else [])
    (ci_concurrently c) (ci_if_not_exists c) (x_name x)
    (if is_mysql d then None else Some (x_schema x, x_table x))
    (if is_mysql d || is_postgres d then method_of (x_type x) else None)
    (map (said_part d x) (List.seq 0 (length (x_columns x)))) (x_include x) (frag d (x_predicate x)).

(** What CREATE TABLE says. *)
Definition alive {A} (ignored : A -> bool) (l : list A) : list A := filter (fun x => negb (ignored x)) l.
(** Foreign keys are added once all tables exist, except in SQLite, which cannot
    do that; there the primary key of one column is part of the column. *)
Definition in_table (d : dialect) (k : constraint) : bool :=
  negb (c_ignore k) &&
  match d with
  | DSQLite => negb (beqb (c_type k) PRIMARY_KEY && Nat.eqb (length (c_columns k)) 1)
  | _ => negb (beqb (c_type k) FOREIGN_KEY)
  end.
Definition table_columns (c : create_table) : list column := alive l_ignore (objects (t_columns (ct_table c))).
Definition table_constraints (d : dialect) (c : create_table) : list constraint :=
  if ct_constraints c then filter (in_table d) (objects (t_constraints (ct_table c))) else [].
Record create_table_ok (d : dialect) (c : create_table) : Prop := {
  okt_schema : good_name d (t_schema (ct_table c));
  okt_name : good_name d (t_name (ct_table c));
  okt_some : table_columns c <> [];
  okt_columns : forall l, In l (table_columns c) -> column_ok d l /\ (is_bare (l_name l) = true -> element_word (TWord (l_name l)) = false);
  okt_constraints : forall k, In k (table_constraints d c) -> constraint_ok d k;
  okt_indexes : forall i, In i (alive ci_ignore (ct_indexes c)) -> index_ok d (ci_index i) }.
Definition said_table (d : dialect) (c : create_table) : table_def :=
  mk_table_def (ct_if_not_exists c) (t_schema (ct_table c)) (t_name (ct_table c))
    (map (fun l => EColumn (said_column d l [] None)) (table_columns c) ++
     map (fun k => EConstraint (said_constraint d k)) (table_constraints d c) ++
     map (fun i => EIndex (said_index d i)) (alive ci_ignore (ct_indexes c))).
Record virtual_ok (d : dialect) (c : create_table) : Prop := {
  okv_schema : good_name d (t_schema (ct_table c));
  okv_name : good_name d (t_name (ct_table c));
  okv_module : plain_word d (t_virtual (ct_table c));
  okv_args : forall a, In a (t_virtual_args (ct_table c)) -> plain_sql d comma_stop a /\ frag d a <> [];
  okv_constraints : table_constraints d c = [] }.
Definition said_virtual (d : dialect) (c : create_table) : virtual_def :=
  mk_virtual_def (ct_if_not_exists c) (t_schema (ct_table c)) (t_name (ct_table c)) (t_virtual (ct_table c))
    (map (frag d) (t_virtual_args (ct_table c))).

(** ** Which features each dialect supports *)
Definition column_supported (d : dialect) (l : column) : Prop :=
  (l_autoincrement l = true -> d = DMySQL \/ d = DSQLite) /\
  (l_identity l <> [] -> d <> DMySQL /\ d <> DSQLite) /\
  (d = DPostgres -> l_autoincrement l = false -> l_identity l = [] -> l_generated l <> [] -> l_stored l = true) /\
  (l_on_update l = true -> d = DMySQL).
Definition constraint_supported (d : dialect) (c : constraint) : Prop :=
  (c_type c = EXCLUDE ->
     d = DPostgres /\ c_index_type c <> [] /\
     forall i n, nth_error (c_columns c) i = Some n ->
       (n = [] -> nth i (c_exprs c) [] <> []) /\ nth i (c_operators c) [] <> []) /\
  (c_deferrable c = true -> (d = DPostgres /\ c_type c <> CHECK) \/ (d = DSQLite /\ c_type c = FOREIGN_KEY)).
Definition index_supported (d : dialect) (c : create_index) : Prop :=
  (ci_concurrently c = true -> d = DPostgres) /\ (ci_if_not_exists c = true -> d <> DMySQL) /\
  (x_include (ci_index c) <> [] -> d = DPostgres) /\ (x_predicate (ci_index c) <> [] -> d = DPostgres \/ d = DSQLite) /\
  (forall i, nth_error (x_columns (ci_index c)) i = Some [] -> i < length (x_exprs (ci_index c))).
Definition create_table_supported (d : dialect) (c : create_table) : Prop :=
  let t := ct_table c in
  t_name t <> [] /\ (t_virtual t <> [] -> d = DSQLite) /\ (t_virtual_args t <> [] -> t_virtual t <> []) /\
  (t_virtual t = [] -> forall l, In l (table_columns c) -> column_supported d l) /\
  (forall k, In k (table_constraints d c) -> constraint_supported d k) /\
  (ct_indexes c <> [] -> d = DMySQL) /\ (forall i, In i (alive ci_ignore (ct_indexes c)) -> index_supported d i).

(** What ALTER TABLE says. *)
Record add_column_ok (d : dialect) (c : add_column) : Prop := {
  oka_column : column_ok d (al_column c);
  oka_checks : Forall (plain_sql d no_stop) (al_checks c);
  oka_ref_table : good_name d (al_ref_table c);
  oka_ref_column : good_name d (al_ref_column c) }.
(** Only SQLite has the constraints of the column here. *)
Definition said_add_column (d : dialect) (c : add_column) : action :=
  let sqlite := match d with DSQLite => true | _ => false end in
  AAddColumn (al_if_not_exists c)
    (said_column d (al_column c) (if sqlite then map (frag d) (al_checks c) else [])
       (match sqlite, al_ref_table c, al_ref_column c with
        | true, _ :: _, _ :: _ => Some (al_ref_table c, al_ref_column c)
        | _, _, _ => None
        end)).
Record alter_column_ok (d : dialect) (c : alter_column) : Prop := {
  okl_name : good_name d (l_name (ac_column c));
  okl_column : d = DMySQL -> column_ok d (ac_column c);
  okl_type : plain_sql d type_stop (l_type (ac_column c));
  okl_default : plain_sql d comma_stop (l_default (ac_column c));
  okl_identity : In (l_identity (ac_column c)) [[]; BY_DEFAULT; ALWAYS];
  okl_collation : good_name d (l_collation (ac_column c));
  okl_using : plain_sql d comma_stop (ac_using c) }.
(** The changes of one column; in MySQL, its new definition. *)
Definition said_changes (d : dialect) (c : alter_column) : list col_action :=
  let l := ac_column c in
  (match l_type l with
   | [] => []
   | t => [ASetType (frag d t) (match l_collation l with [] => None | x => Some x end) (frag d (ac_using c))]
   end) ++
  (match ac_drop_not_null c, l_not_null l with true, _ => [ADropNotNull] | false, true => [ASetNotNull] | _, _ => [] end) ++
  (match ac_drop_default c, l_default l with true, _ => [ADropDefault] | false, _ :: _ => [ASetDefault (frag d (l_default l))] | _, _ => [] end) ++
  (match ac_drop_identity c, l_identity l with
   | true, _ => [ADropIdentity (ac_drop_identity_if_exists c)]
   | false, _ :: _ => [AAddGenerated (identity_of (l_identity l))]
   | _, _ => []
   end) ++
  (if ac_drop_expr c then [ADropExpression (ac_drop_expr_if_exists c)] else []).
Definition said_alter_column (d : dialect) (c : alter_column) : list action :=
  match d with
  | DMySQL => [AModifyColumn (said_column d (ac_column c) [] None)]
  | _ => map (AAlterColumn (l_name (ac_column c))) (said_changes d c)
  end.
Record add_constraint_ok (d : dialect) (c : add_constraint) : Prop := {
  okn_constraint : constraint_ok d (at_constraint c);
  okn_index : good_name d (at_index c) }.
(** Validity means NOT VALID in Postgres, NOT ENFORCED in MySQL. *)
Definition said_add_constraint (d : dialect) (c : add_constraint) : action :=
  let k := at_constraint c in
  match at_index c with
  | [] => AAddConstraint
            (mk_table_con (match d with DMySQL => if beqb (c_type k) PRIMARY_KEY then None else Some (c_name k) | _ => Some (c_name k) end)
               (said_def d k) (said_deferrable k))
            (match d with DPostgres => at_not_valid c | _ => false end) (match d with DMySQL => at_not_valid c | _ => false end)
  | _ => AAddKeyUsing (c_name k) (beqb (c_type k) PRIMARY_KEY) (at_index c) (said_deferrable k)
  end.
Definition said_alter_constraint (c : alter_constraint) : action :=
  AAlterConstraint (ak_name c) (if ak_deferrable c then Some (ak_deferred c) else None).
Record alter_table_ok (d : dialect) (a : alter_table) : Prop := {
  oke_schema : good_name d (a_schema a);
  oke_table : good_name d (a_table a);
  oke_add_columns : forall c, In c (a_add_columns a) -> al_ignore c = false /\ add_column_ok d c;
  oke_alter_columns : forall c, In c (a_alter_columns a) -> ac_ignore c = false /\ alter_column_ok d c /\ said_alter_column d c <> [];
  oke_drop_columns : forall c, In c (a_drop_columns a) -> dl_ignore c = false /\ good_name d (dl_name c);
  oke_drop_constraints : forall c, In c (a_drop_constraints a) -> dk_ignore c = false /\ good_name d (dk_name c);
  oke_add_constraints : forall c, In c (a_add_constraints a) -> at_ignore c = false /\ add_constraint_ok d c;
  oke_alter_constraints : forall c, In c (a_alter_constraints a) -> ak_ignore c = false /\ ak_alter c = true /\ good_name d (ak_name c);
  oke_create_indexes : forall c, In c (a_create_indexes a) -> d = DMySQL /\ ci_ignore c = false /\ index_ok d (ci_index c);
  oke_drop_indexes : forall c, In c (a_drop_indexes a) -> d = DMySQL /\ dx_ignore c = false /\ good_name d (dx_name c) }.
Definition said_alter (d : dialect) (a : alter_table) : alter_def :=
  mk_alter_def (a_if_exists a) (a_schema a) (a_table a)
    (map (said_add_column d) (a_add_columns a) ++
     flat_map (said_alter_column d) (a_alter_columns a) ++
     map (fun c => ADropColumn (dl_if_exists c) (dl_name c) (dl_cascade c)) (a_drop_columns a) ++
     map (fun c => ADropConstraint (dk_if_exists c) (dk_name c) (dk_cascade c)) (a_drop_constraints a) ++
     map (said_add_constraint d) (a_add_constraints a) ++
     map said_alter_constraint (a_alter_constraints a) ++
     map (fun c => AAddIndex (said_index d c)) (a_create_indexes a) ++
     map (fun c => ADropIndex (dx_name c)) (a_drop_indexes a)).

Definition null_default (s : bytes) : Prop := s = [] \/ map fold_case s = B "NULL".
Definition add_column_supported (d : dialect) (c : add_column) : Prop :=
  let l := al_column c in
  al_ignore c = true \/
  (column_supported d l /\ (al_if_not_exists c = true -> d = DPostgres) /\
   (d = DSQLite ->
     l_primary_key l = false /\ l_unique l = false /\
     (l_not_null l = true -> ~ null_default (l_default l) /\ ~ (hd "0"%char (l_default l) = "("%char /\ last (l_default l) "0"%char = ")"%char)) /\
     (al_ref_table c <> [] \/ al_ref_column c <> [] -> null_default (l_default l)) /\
     ~ (l_generated l <> [] /\ l_stored l = true))).
Definition alter_column_supported (d : dialect) (c : alter_column) : Prop :=
  ac_ignore c = true \/ (d = DMySQL /\ column_supported d (ac_column c)) \/ d = DPostgres.
Definition drop_supported (d : dialect) (if_exists cascade : bool) : Prop := if_exists = true \/ cascade = true -> d = DPostgres.
Definition add_constraint_supported (d : dialect) (c : add_constraint) : Prop :=
  let k := at_constraint c in
  at_ignore c = true \/
  (d <> DSQLite /\
   (at_index c <> [] -> d = DPostgres /\ (c_type k = PRIMARY_KEY \/ c_type k = UNIQUE)) /\
   (at_index c = [] -> constraint_supported d k) /\
   (at_not_valid c = true -> (d = DPostgres -> c_type k = CHECK \/ c_type k = FOREIGN_KEY) /\ (d = DMySQL -> c_type k = CHECK))).
Definition alter_table_supported (d : dialect) (a : alter_table) : Prop :=
  (a_if_exists a = true -> d = DPostgres) /\
  (d = DSQLite -> length (a_add_columns a) + length (a_alter_columns a) + length (a_drop_columns a) <= 1) /\
  (d = DSQLite \/ d = DPostgres -> a_create_indexes a = [] /\ a_drop_indexes a = []) /\
  (forall c, In c (a_add_columns a) -> add_column_supported d c) /\
  (forall c, In c (a_alter_columns a) -> alter_column_supported d c) /\
  (forall c, In c (a_drop_columns a) -> dl_ignore c = true \/ drop_supported d (dl_if_exists c) (dl_cascade c)) /\
  (forall c, In c (a_drop_constraints a) -> dk_ignore c = true \/ (d <> DSQLite /\ drop_supported d (dk_if_exists c) (dk_cascade c))) /\
  (forall c, In c (a_add_constraints a) -> add_constraint_supported d c) /\
  (forall c, In c (a_alter_constraints a) -> ak_ignore c = true \/ (d <> DSQLite /\ d <> DMySQL)) /\
  (forall c, In c (a_create_indexes a) -> ci_ignore c = true \/ index_supported d c) /\
  (forall c, In c (a_drop_indexes a) -> dx_ignore c = true \/
     (dx_concurrently c = false /\ dx_if_exists c = false /\ dx_cascade c = false)).
