(** * SpecReadSql: how a database reads SELECT, INSERT, UPDATE and DELETE statements

    A reader of token lists (SpecSql) that knows the keywords of the clauses and
    nothing of the library, and what it should find in the SQL of a query: the
    second part only compares what was read with the fields of the query. *)
From Verif Require Import GoBase QuoteModel SpecLex SpecIdent SpecSql SprintModel TokenModel EffectModel RenderModel
  SpecClauses.

(** ** Reading *)
Definition is_word (ws : list string) (t : tok) : bool := existsb (fun w => kw w t) ws.
(** The words a clause begins with, those of joins, and other separators. *)
Definition clause_words : list string :=
  ["WITH"; "SELECT"; "INSERT"; "UPDATE"; "DELETE"; "FROM"; "USING"; "SET"; "VALUES"; "WHERE"; "GROUP"; "HAVING";
   "ORDER"; "LIMIT"; "OFFSET"; "RETURNING"; "CONFLICT"; "DUPLICATE"]%string.
Definition join_words : list string :=
  ["JOIN"; "INNER"; "LEFT"; "RIGHT"; "FULL"; "OUTER"; "CROSS"; "NATURAL"]%string.
Definition other_words : list string := ["AS"; "ON"; "DISTINCT"; "RECURSIVE"; "MATERIALIZED"; "NOT"; "DO"]%string.
Definition clause_word : tok -> bool := is_word clause_words.
Definition join_word : tok -> bool := is_word join_words.

(** One clause after the other: each is absent, or is its keywords and the
    tokens up to the next word that begins a clause. *)
Fixpoint read_clauses (ks : list (list string)) (ts : list tok) : option (list (option (list tok))) :=
  match ks with
  | [] => match ts with [] => Some [] | _ => None end
  | k :: ks' =>
    match words k ts with
    | Some r => let (body, rest) := until clause_word 0 r in option_map (cons (Some body)) (read_clauses ks' rest)
    | None => option_map (cons None) (read_clauses ks' ts)
    end
  end.
Definition opt {A B0} (f : A -> option B0) (o : option A) : option (option B0) :=
  match o with None => Some None | Some a => option_map Some (f a) end.
(** A clause that may be missing, read as a list. *)
Definition opt_list {A B0} (f : A -> option (list B0)) (o : option A) : option (list B0) :=
  match o with None => Some [] | Some a => f a end.
(** expression, or table, [AS alias] *)
Record item := mk_item { it_sql : list tok; it_alias : option bytes }.
Definition read_item (ts : list tok) : option item :=
  match until (kw "AS") 0 ts with
  | (a, []) => Some (mk_item a None)
  | (a, [_; n]) => option_map (fun x => mk_item a (Some x)) (name_of n)
  | _ => None
  end.
Definition read_items (ts : list tok) : option (list item) := read_all read_item (elements ts).
(** table [AS alias] { [LEFT ...] JOIN table [AS alias] [ON condition] } *)
Record joined := mk_joined { rj_type : list tok; rj_table : item; rj_on : option (list tok) }.
Fixpoint span (f : tok -> bool) (ts : list tok) : list tok * list tok :=
  match ts with
  | [] => ([], [])
  | t :: r => if f t then let (a, b) := span f r in (t :: a, b) else ([], ts)
  end.
Definition read_join (ty body : list tok) : option joined :=
  if kw "JOIN" (last ty lp) then
    let (table, on) := until (kw "ON") 0 body in
    option_map (fun i => mk_joined ty i (match on with [] => None | _ :: c => Some c end)) (read_item table)
  else None.
Fixpoint read_joins (fuel : nat) (ts : list tok) : option (list joined) :=
  match ts with
  | [] => Some []
  | _ =>
    match fuel with
    | 0 => None
    | S f =>
      let (ty, r) := span join_word ts in
      let (body, rest) := until join_word 0 r in
      match read_join ty body, read_joins f rest with
      | Some j, Some js => Some (j :: js)
      | _, _ => None
      end
    end
  end.
Record source := mk_source { so_table : item; so_joins : list joined }.
Definition read_source (ts : list tok) : option source :=
  let (table, rest) := until join_word 0 ts in
  match read_item table, read_joins (length rest) rest with
  | Some i, Some js => Some (mk_source i js)
  | _, _ => None
  end.
(** name [(column, ...)] AS [[NOT] MATERIALIZED] (query) *)
Record common := mk_common {
  co_name : bytes; co_columns : option (list bytes); co_materialized : option bool; co_query : list tok }.
Definition read_common (ts : list tok) : option common :=
  match read_name ts with
  | None => None
  | Some (n, r) =>
    match (match read_group r with
           | Some (g, r') => option_map (fun ns => (Some ns, r')) (read_names g)
           | None => Some (None, r)
           end) with
    | None => None
    | Some (cols, r1) =>
      match words ["AS"%string] r1 with
      | None => None
      | Some r2 =>
        let '(m, r3) :=
          match words ["MATERIALIZED"%string] r2 with
          | Some r => (Some true, r)
          | None => match words ["NOT"; "MATERIALIZED"]%string r2 with Some r => (Some false, r) | None => (None, r2) end
          end in
        match read_group r3 with
        | Some (g, []) => Some (mk_common n cols m g)
        | _ => None
        end
      end
    end
  end.
(** [RECURSIVE] common table expression, ... *)
Definition read_with (ts : list tok) : option (bool * list common) :=
  let (r, rest) := option_words ["RECURSIVE"%string] ts in
  option_map (pair r) (read_all read_common (elements rest)).
(** [DISTINCT [ON (expression, ...)]] column, ... *)
Inductive distinctness := All | Distinct | DistinctOn (es : list (list tok)).
Definition read_columns (ts : list tok) : option (distinctness * list item) :=
  match words ["DISTINCT"; "ON"]%string ts with
  | Some r =>
    match read_group r with
    | Some (g, r') => option_map (pair (DistinctOn (elements g))) (read_items r')
    | None => None
    end
  | None =>
    match words ["DISTINCT"%string] ts with
    | Some r => option_map (pair Distinct) (read_items r)
    | None => option_map (pair All) (read_items ts)
    end
  end.

Record select_read := mk_select_read {
  rs_with : option (bool * list common); rs_distinct : distinctness; rs_columns : list item; rs_from : option source;
  rs_where : option (list tok); rs_group : list (list tok); rs_having : option (list tok); rs_order : list (list tok);
  rs_limit : option (list tok); rs_offset : option (list tok) }.
Definition read_select (ts : list tok) : option select_read :=
  match read_clauses [["WITH"]; ["SELECT"]; ["FROM"]; ["WHERE"]; ["GROUP"; "BY"]; ["HAVING"]; ["ORDER"; "BY"]; ["LIMIT"];
                      ["OFFSET"]]%string ts with
  | Some [w; Some c; f; wh; g; h; o; l; off] =>
    match opt read_with w, read_columns c, opt read_source f with
    | Some w', Some (dis, cs), Some f' =>
      Some (mk_select_read w' dis cs f' wh (match g with Some x => elements x | None => [] end) h
              (match o with Some x => elements x | None => [] end) l off)
    | _, _, _ => None
    end
  | _ => None
  end.

(** column = value *)
Definition read_assign (ts : list tok) : option (list tok * list tok) :=
  match until (sym "=") 0 ts with
  | (a, _ :: b) => Some (a, b)
  | _ => None
  end.
Record update_read := mk_update_read {
  ru_with : option (bool * list common); ru_table : source; ru_set : list (list tok * list tok);
  ru_from : option source; ru_where : option (list tok); ru_order : list (list tok); ru_limit : option (list tok);
  ru_offset : option (list tok); ru_returning : list item }.
Definition read_update (ts : list tok) : option update_read :=
  match read_clauses [["WITH"]; ["UPDATE"]; ["SET"]; ["FROM"]; ["WHERE"]; ["ORDER"; "BY"]; ["LIMIT"]; ["OFFSET"];
                      ["RETURNING"]]%string ts with
  | Some [w; Some t; Some a; f; wh; o; l; off; re] =>
    match opt read_with w, read_source t, read_all read_assign (elements a), opt read_source f, opt_list read_items re with
    | Some w', Some t', Some a', Some f', Some re' =>
      Some (mk_update_read w' t' a' f' wh (match o with Some x => elements x | None => [] end) l off re')
    | _, _, _, _, _ => None
    end
  | _ => None
  end.
Record delete_read := mk_delete_read {
  rd_with : option (bool * list common); rd_tables : list item; rd_using : option source;
  rd_where : option (list tok); rd_order : list (list tok); rd_limit : option (list tok);
  rd_offset : option (list tok); rd_returning : list item }.
Definition read_delete (ts : list tok) : option delete_read :=
  match read_clauses [["WITH"]; ["DELETE"; "FROM"]; ["USING"]; ["WHERE"]; ["ORDER"; "BY"]; ["LIMIT"]; ["OFFSET"];
                      ["RETURNING"]]%string ts with
  | Some [w; Some t; u; wh; o; l; off; re] =>
    match opt read_with w, read_items t, opt read_source u, opt_list read_items re with
    | Some w', Some t', Some u', Some re' =>
      Some (mk_delete_read w' t' u' wh (match o with Some x => elements x | None => [] end) l off re')
    | _, _, _, _ => None
    end
  | _ => None
  end.

(** INSERT [IGNORE] INTO table [AS alias] [(column, ...)]
    VALUES (value, ...), ... [AS alias [(name, ...)]] | SELECT ...
    [ON CONFLICT ... | ON DUPLICATE KEY UPDATE ...] [RETURNING column, ...] *)
Inductive rows_read :=
| Values (rows : list (list (list tok))) (alias : option (bytes * list bytes))
| Query (q : select_read).
Definition read_row (ts : list tok) : option (list (list tok)) :=
  match read_group ts with Some (g, []) => Some (elements g) | _ => None end.
Definition read_row_alias (ts : list tok) : option (option (bytes * list bytes)) :=
  match ts with
  | [] => Some None
  | [_; n] => option_map (fun x => Some (x, [])) (name_of n)
  | _ :: n :: r =>
    match name_of n, read_group r with
    | Some x, Some (g, []) => option_map (fun ns => Some (x, ns)) (read_names g)
    | _, _ => None
    end
  | _ => None
  end.
Definition read_rows (ts : list tok) : option rows_read :=
  match words ["VALUES"%string] ts with
  | Some r =>
    let (rows, alias) := until (kw "AS") 0 r in
    match read_all read_row (elements rows), read_row_alias alias with
    | Some rs, Some a => Some (Values rs a)
    | _, _ => None
    end
  | None => option_map Query (read_select ts)
  end.
(** [ON CONSTRAINT name | (column, ...) [WHERE condition]] *)
Inductive target_read :=
| AnyConflict
| OnConstraint (name : bytes)
| OnColumns (es : list (list tok)) (cond : option (list tok)).
Definition read_where (ts : list tok) : option (option (list tok)) :=
  match ts with [] => Some None | t :: r => if kw "WHERE" t then Some (Some r) else None end.
Definition read_target (ts : list tok) : option target_read :=
  match ts with
  | [] => Some AnyConflict
  | _ =>
    match words ["ON"; "CONSTRAINT"]%string ts with
    | Some [n] => option_map OnConstraint (name_of n)
    | Some _ => None
    | None =>
      match read_group ts with
      | Some (g, w) => option_map (OnColumns (elements g)) (read_where w)
      | None => None
      end
    end
  end.
(** DO NOTHING | DO UPDATE SET column = value, ... [WHERE condition] *)
Definition assigns_read : Type := list (list tok * list tok).
Inductive action_read := DoNothing | DoUpdate (a : assigns_read) (cond : option (list tok)).
Definition read_action (ts : list tok) : option action_read :=
  match words ["DO"; "NOTHING"]%string ts with
  | Some [] => Some DoNothing
  | Some _ => None
  | None =>
    match words ["DO"; "UPDATE"; "SET"]%string ts with
    | Some r =>
      let (a, w) := until (kw "WHERE") 0 r in
      match read_all read_assign (elements a), read_where w with
      | Some a', Some w' => Some (DoUpdate a' w')
      | _, _ => None
      end
    | None => None
    end
  end.
Inductive conflict_read := NoConflict | OnConflict (t : target_read) (a : action_read) | OnDuplicate (a : assigns_read).
Definition read_conflict (ts : list tok) : option conflict_read :=
  match ts with
  | [] => Some NoConflict
  | _ =>
    match words ["DUPLICATE"; "KEY"; "UPDATE"]%string ts with
    | Some r => option_map OnDuplicate (read_all read_assign (elements r))
    | None =>
      match words ["CONFLICT"%string] ts with
      | Some r =>
        let (target, action) := until (kw "DO") 0 r in
        match read_target target, read_action action with
        | Some t, Some a => Some (OnConflict t a)
        | _, _ => None
        end
      | None => None
      end
    end
  end.
Record insert_read := mk_insert_read {
  ri_with : option (bool * list common); ri_ignore : bool; ri_table : item; ri_columns : option (list (list tok));
  ri_rows : rows_read; ri_conflict : conflict_read; ri_returning : list item }.
(** The words after the rows or the query; CONFLICT and DUPLICATE have ON before them. *)
Definition tail_word : tok -> bool := is_word ["CONFLICT"; "DUPLICATE"; "RETURNING"]%string.
Definition without_on (ts : list tok) : option (list tok) :=
  if kw "ON" (last ts lp) then Some (removelast ts) else None.
Definition read_insert (ts : list tok) : option insert_read :=
  let (w, r0) := match words ["WITH"%string] ts with
                 | Some r => let (b, r') := until clause_word 0 r in (Some b, r')
                 | None => (None, ts)
                 end in
  match words ["INSERT"%string] r0 with
  | None => None
  | Some r1 =>
    let (ign, r2) := option_words ["IGNORE"%string] r1 in
    match words ["INTO"%string] r2 with
    | None => None
    | Some r3 =>
      let (target, r4) := until clause_word 0 r3 in
      let (t, c) := until (sym "(") 0 target in
      let (src, tail) := until tail_word 0 r4 in
      let (conf, ret) := until (kw "RETURNING") 0 tail in
      match opt read_with w, read_item t, opt read_row (match c with [] => None | _ => Some c end),
            (match conf with [] => Some src | _ => without_on src end), read_conflict conf,
            (match ret with [] => Some [] | _ :: r => read_items r end) with
      | Some w', Some t', Some c', Some src', Some conf', Some ret' =>
        option_map (fun rows => mk_insert_read w' ign t' c' rows conf' ret') (read_rows src')
      | _, _, _, _, _, _ => None
      end
    end
  end.

(** ** The text of a component *)
(** What [m] writes when [s] has been written, and bound, before it. *)
Definition text_after (d : dialect) (s : st) (m : M) : bytes :=
  out_text d (skipn (length (st_out s)) (st_out (exec d s (fst m)))).
(** [ts] is what the component writes (with the placeholders of some state). *)
Definition says (d : dialect) (m : M) (ts : list tok) : Prop := exists s, tokens d (text_after d s m) = Some ts.

(** ** What the reader should find *)
(** A clause is found iff it is set. *)
Definition found {A} (set : bool) (o : option A) (P : A -> Prop) : Prop :=
  match o with Some a => set = true /\ P a | None => set = false end.
Section Found.
  Context (d : dialect).
  Definition alias_found (n : node) (a : option bytes) : Prop :=
    a = if is_empty (get_alias n) then None else Some (get_alias n).
  Definition item_found (e : option env) (n : node) (i : item) : Prop :=
    says d (render d n (ctx e [])) (it_sql i) /\ alias_found n (it_alias i).
  Definition list_found (e : option env) (x : list bytes) (ns : list node) (es : list (list tok)) : Prop :=
    Forall2 (fun n ts => says d (render d n (ctx e x)) ts) ns es.
  Definition join_found (j : join_ node) (r : joined) : Prop :=
    tokens d (join_type j) = Some (rj_type r) /\
    (exists t, jn_table j = Some t /\ item_found None t (rj_table r)) /\
    found (nonempty (vp_preds (jn_on j))) (rj_on r) (says d (cond_sql d (jn_on j))).
  (** A table and the joins after it. *)
  Definition source_found (e : option env) (t : option node) (js : list (join_ node)) (r : source) : Prop :=
    (exists n, t = Some n /\ item_found e n (so_table r)) /\ Forall2 join_found js (so_joins r).
  Definition common_found (c : cte_ node) (r : common) : Prop :=
    co_name r = cte_name c /\
    co_columns r = (if cte_explicit c then Some (cte_fields c) else None) /\
    co_materialized r = (if is_postgres d then cte_mat c else None) /\
    exists q, cte_query c = Some q /\
      says d (render d q (mk_ctx (if is_vquery q then Some true else None) [] None [])) (co_query r).
  Definition with_found (cs : list (cte_ node)) (r : option (bool * list common)) : Prop :=
    found (nonempty cs) r (fun r => fst r = existsb cte_rec cs /\ Forall2 common_found cs (snd r)).
  Definition distinct_found (e : option env) (q : select_ node) (r : distinctness) : Prop :=
    match r with
    | All => sq_distinct q = false /\ sq_distinct_on q = []
    | Distinct => sq_distinct q = true /\ sq_distinct_on q = []
    | DistinctOn es => sq_distinct q = false /\ sq_distinct_on q <> [] /\ list_found e [] (sq_distinct_on q) es
    end.
  (** The condition: the predicates of the query and-ed with those its tables inject. *)
  Definition where_cond (inj : list node) (w : vpred_ node) : M :=
    match inj with
    | [] => cond_sql d w
    | _ => sep_by (B " AND ") (map (fun p => render d p (ctx None [])) (inj ++ [NVPred w]))
    end.
  Definition where_found (inj : list node) (w : vpred_ node) (r : option (list tok)) : Prop :=
    found (nonempty inj || nonempty (vp_preds w)) r (says d (where_cond inj w)).
  Definition number_found (n : option Z) (r : option (list tok)) : Prop :=
    match n, r with
    | Some z, Some ts => says d (render d (NRaw (GInt z)) (ctx None [])) ts
    | None, None => True
    | _, _ => False
    end.
  Definition select_found (q : select_ node) (e0 : option env) (r : select_read) : Prop :=
    let e := own_env e0 (sq_env q) in
    with_found (sq_ctes q) (rs_with r) /\
    distinct_found e q (rs_distinct r) /\
    Forall2 (item_found None) (sq_fields q) (rs_columns r) /\
    found (present (sq_from q)) (rs_from r) (source_found e (sq_from q) (sq_joins q)) /\
    where_found (injected (select_tables q) e) (sq_where q) (rs_where r) /\
    list_found e [] (sq_group q) (rs_group r) /\
    found (nonempty (vp_preds (sq_having q))) (rs_having r) (says d (cond_sql d (sq_having q))) /\
    list_found e [] (sq_order q) (rs_order r) /\
    number_found (sq_limit q) (rs_limit r) /\ number_found (sq_offset q) (rs_offset r).
  (** column = value, where a value that is a query is in parentheses. *)
  Definition value_found (x : list bytes) (v : node) (ts : list tok) : Prop :=
    if is_query v then exists inner, says d (render d v (ctx None x)) inner /\ ts = lp :: inner ++ [rp]
    else says d (render d v (ctx None x)) ts.
  Definition assign_found (x : list bytes) (a : node * node) (r : list tok * list tok) : Prop :=
    says d (render d (fst a) (ctx None x)) (fst r) /\ value_found x (snd a) (snd r).
  (** MySQL writes the joins after the table, without FROM, and qualifies the columns. *)
  Definition update_found (q : update_ node) (e0 : option env) (r : update_read) : Prop :=
    let e := own_env e0 (uq_env q) in
    with_found (uq_ctes q) (ru_with r) /\
    source_found e (uq_table q) (if is_mysql d then uq_joins q else []) (ru_table r) /\
    (exists t a, uq_table q = Some t /\ update_assigns q = Some a /\
       Forall2 (assign_found (if is_mysql d then [] else [table_qualifier t])) a (ru_set r)) /\
    found (present (uq_from q)) (ru_from r) (source_found e (uq_from q) (uq_joins q)) /\
    found (nonempty (vp_preds (uq_where q))) (ru_where r) (says d (cond_sql d (uq_where q))) /\
    list_found e [] (uq_order q) (ru_order r) /\
    number_found (uq_limit q) (ru_limit r) /\ number_found (uq_offset q) (ru_offset r) /\
    Forall2 (item_found None) (uq_returning q) (ru_returning r).
  (** MySQL's multi-table form names the tables to delete from by their
      qualifiers; otherwise the first table is meant. *)
  Definition delete_found (q : delete_ node) (e0 : option env) (r : delete_read) : Prop :=
    let e := own_env e0 (dq_env q) in
    with_found (dq_ctes q) (rd_with r) /\
    (if present (dq_using q) && is_mysql d
     then rd_tables r = map (fun t => mk_item [TWord (table_qualifier t)] None) (tables_of (dq_tables q))
     else exists t rest i, dq_tables q = Some t :: rest /\ rd_tables r = [i] /\ item_found e t i) /\
    found (present (dq_using q)) (rd_using r) (source_found e (dq_using q) (dq_joins q)) /\
    where_found (injected (dq_tables q) e) (dq_where q) (rd_where r) /\
    list_found e [] (dq_order q) (rd_order r) /\
    number_found (dq_limit q) (rd_limit r) /\ number_found (dq_offset q) (rd_offset r) /\
    Forall2 (item_found None) (dq_returning q) (rd_returning r).

  Definition alias_read (q : insert_ node) : option (bytes * list bytes) :=
    if is_empty (iq_rowalias q) then None else Some (iq_rowalias q, iq_colaliases q).
  Definition rows_found (q : insert_ node) (e : option env) (r : rows_read) : Prop :=
    match r with
    | Values rows a => iq_rows q <> [] /\ Forall2 (list_found None []) (iq_rows q) rows /\ a = alias_read q
    | Query s => iq_rows q = [] /\ exists sel, iq_select q = Some sel /\ select_found (source_select d sel) e s
    end.
  (** Columns are written without the qualifier [x] of the table. *)
  Definition target_found (q : insert_ node) (e : option env) (x : list bytes) (r : target_read) : Prop :=
    match r with
    | AnyConflict => iq_constraint q = [] /\ iq_cfields q = []
    | OnConstraint n => n = iq_constraint q /\ n <> []
    | OnColumns es w =>
      iq_constraint q = [] /\ iq_cfields q <> [] /\ list_found e x (iq_cfields q) es /\
      found (present (iq_cpred q)) w (fun ts => exists p, iq_cpred q = Some p /\
        says d (render d p (mk_ctx (if is_vpred p then Some true else None) [] e x)) ts)
    end.
  Definition action_found (q : insert_ node) (x : list bytes) (r : action_read) : Prop :=
    match r with
    | DoNothing => iq_nothing q = true \/ iq_resolution q = []
    | DoUpdate a w =>
      iq_nothing q = false /\ iq_resolution q <> [] /\ Forall2 (assign_found x) (iq_resolution q) a /\
      found (nonempty (vp_preds (iq_rpred q))) w (says d (cond_sql d (iq_rpred q)))
    end.
  (** Postgres and SQLite have ON CONFLICT, MySQL has ON DUPLICATE KEY UPDATE. *)
  Definition wants_conflict (q : insert_ node) : Prop :=
    (d = DSQLite \/ d = DPostgres) /\ (iq_constraint q <> [] \/ iq_cfields q <> [] \/ iq_nothing q = true).
  Definition wants_duplicate (q : insert_ node) : Prop := d = DMySQL /\ iq_resolution q <> [].
  Definition conflict_found (q : insert_ node) (e : option env) (x : list bytes) (r : conflict_read) : Prop :=
    match r with
    | NoConflict => ~ wants_conflict q /\ ~ wants_duplicate q
    | OnConflict t a => wants_conflict q /\ target_found q e x t /\ action_found q x a
    | OnDuplicate a => wants_duplicate q /\ Forall2 (assign_found x) (iq_resolution q) a
    end.
  Definition insert_found (q : insert_ node) (e0 : option env) (r : insert_read) : Prop :=
    let e := own_env e0 (iq_env q) in
    with_found (iq_ctes q) (ri_with r) /\ ri_ignore r = iq_ignore q /\
    exists t, iq_into q = Some t /\ item_found e t (ri_table r) /\
      found (nonempty (iq_columns q)) (ri_columns r) (list_found e [table_qualifier t] (iq_columns q)) /\
      rows_found q e (ri_rows r) /\
      conflict_found q e [table_qualifier t] (ri_conflict r) /\
      Forall2 (item_found None) (iq_returning q) (ri_returning r).

  (** ** Which components a simple reader can follow *)
  Definition keywords : list string := clause_words ++ join_words ++ other_words.
  (** Outside of parentheses no such word, and no comma. *)
  Definition separates (t : tok) : bool := is_word (clause_words ++ join_words ++ ["AS"; "ON"; "DISTINCT"; "DO"]%string) t || sym "," t.
  Definition keyword (n : bytes) : bool := is_word keywords (TWord n).
  (** Whatever was written before it: if it can be written, it is SQL with
      matching parentheses. *)
  Definition fragment (stop : tok -> bool) (m : M) : Prop :=
    snd m = SOk -> forall s, exists ts, tokens d (text_after d s m) = Some ts /\ ts <> [] /\ closed stop 0 ts = true.
  Definition expr (e : option env) (x : list bytes) (n : node) : Prop := fragment separates (render d n (ctx e x)).
  Definition alias_ok (a : bytes) : Prop := a = [] \/ good_name d a /\ (needs_quoting a = false -> keyword a = false).
  Definition item_ok (e : option env) (n : node) : Prop := expr e [] n /\ alias_ok (get_alias n).
  Definition join_type_ok (ty : bytes) : Prop :=
    exists ts, tokens d ty = Some ts /\ ts <> [] /\ forallb join_word ts = true /\ kw "JOIN" (last ts lp) = true.
  Definition join_reads (j : join_ node) : Prop :=
    join_type_ok (join_type j) /\
    (forall t, jn_table j = Some t -> item_ok None t) /\
    (vp_preds (jn_on j) <> [] -> fragment separates (cond_sql d (jn_on j))).
  Definition word_ok (n : bytes) : Prop := plain_word d n /\ keyword n = false.
  Definition common_reads (c : cte_ node) : Prop :=
    word_ok (cte_name c) /\ (cte_explicit c = true -> Forall (plain_word d) (cte_fields c)) /\
    forall q, cte_query c = Some q ->
      fragment (fun _ => false) (render d q (mk_ctx (if is_vquery q then Some true else None) [] None [])).
  Definition pred_reads (p : vpred_ node) : Prop := vp_preds p <> [] -> fragment separates (cond_sql d p).
  Definition where_reads (inj : list node) (w : vpred_ node) : Prop :=
    nonempty inj || nonempty (vp_preds w) = true -> fragment separates (where_cond inj w).
  Definition select_reads (q : select_ node) (e0 : option env) : Prop :=
    let e := own_env e0 (sq_env q) in
    Forall common_reads (sq_ctes q) /\ Forall (expr e []) (sq_distinct_on q) /\ Forall (item_ok None) (sq_fields q) /\
    (forall t, sq_from q = Some t -> item_ok e t) /\ Forall join_reads (sq_joins q) /\
    where_reads (injected (select_tables q) e) (sq_where q) /\
    Forall (expr e []) (sq_group q) /\ pred_reads (sq_having q) /\ Forall (expr e []) (sq_order q).
  (** The column of an assignment has no equals sign. *)
  Definition assign_reads (x : list bytes) (a : node * node) : Prop :=
    fragment (fun t => separates t || sym "=" t) (render d (fst a) (ctx None x)) /\
    fragment (if is_query (snd a) then (fun _ => false) else separates) (render d (snd a) (ctx None x)).
  Definition update_reads (q : update_ node) (e0 : option env) : Prop :=
    let e := own_env e0 (uq_env q) in
    Forall common_reads (uq_ctes q) /\ (forall t, uq_table q = Some t -> item_ok e t) /\
    (forall t a, uq_table q = Some t -> update_assigns q = Some a ->
       Forall (assign_reads (if is_mysql d then [] else [table_qualifier t])) a) /\
    (forall t, uq_from q = Some t -> item_ok e t) /\ Forall join_reads (uq_joins q) /\
    pred_reads (uq_where q) /\ Forall (expr e []) (uq_order q) /\ Forall (item_ok None) (uq_returning q).
  Definition delete_reads (q : delete_ node) (e0 : option env) : Prop :=
    let e := own_env e0 (dq_env q) in
    Forall common_reads (dq_ctes q) /\
    (if present (dq_using q) && is_mysql d then Forall (fun t => word_ok (table_qualifier t)) (tables_of (dq_tables q))
     else forall t rest, dq_tables q = Some t :: rest -> item_ok e t) /\
    (forall t, dq_using q = Some t -> item_ok e t) /\ Forall join_reads (dq_joins q) /\
    where_reads (injected (dq_tables q) e) (dq_where q) /\
    Forall (expr e []) (dq_order q) /\ Forall (item_ok None) (dq_returning q).
  (** The table is followed by a list in parentheses. *)
  Definition insert_reads (q : insert_ node) (e0 : option env) : Prop :=
    let e := own_env e0 (iq_env q) in
    Forall common_reads (iq_ctes q) /\ Forall (Forall (expr None [])) (iq_rows q) /\
    (iq_rowalias q <> [] -> word_ok (iq_rowalias q) /\ Forall (plain_word d) (iq_colaliases q)) /\
    (forall s, iq_select q = Some s -> select_reads (source_select d s) e) /\
    (iq_constraint q <> [] -> word_ok (iq_constraint q)) /\ pred_reads (iq_rpred q) /\ Forall (item_ok None) (iq_returning q) /\
    forall t, iq_into q = Some t ->
      fragment (fun k => separates k || sym "(" k) (render d t (ctx e [])) /\ alias_ok (get_alias t) /\
      Forall (expr e [table_qualifier t]) (iq_columns q) /\ Forall (expr e [table_qualifier t]) (iq_cfields q) /\
      (forall p, iq_cpred q = Some p ->
         fragment separates (render d p (mk_ctx (if is_vpred p then Some true else None) [] e [table_qualifier t]))) /\
      Forall (assign_reads [table_qualifier t]) (iq_resolution q).
End Found.
