(** * SpecClauses: what a statement looks like

    The SQL of SELECT, INSERT, UPDATE and DELETE as a list of clauses, in the
    order of the SQL grammar, each with the condition under which it is present;
    and the conditions under which a statement is accepted for a dialect.
    [seq]/[sep_by]/[emit] only put texts and renderings of components one after
    the other (EffectModel); how a text is cut into writes has no meaning. *)
From Verif Require Import GoBase QuoteModel SprintModel TokenModel EffectModel RenderModel.
Local Open Scope m_scope.

Record clause := mk_clause { cl_set : bool; cl_sql : M }.
Definition statement (cs : list clause) : M := seqs (map cl_sql (filter cl_set cs)).

Definition nonempty {A} (l : list A) : bool := match l with [] => false | _ => true end.
Definition present {A} (o : option A) : bool := match o with None => false | Some _ => true end.

Section Spec.
  Context (d : dialect).

  (** ** Components *)
  Definition as_sql (alias : bytes) : M :=
    when (negb (is_empty alias)) (emit (B " AS " ++ quote_identifier d alias)).
  (** A table with its alias. *)
  Definition table_sql (e : option env) (t : node) : M := render d t (ctx e []) ;; as_sql (get_alias t).
  (** Expressions separated by commas. *)
  Definition list_sql (e : option env) (x : list bytes) (fs : list node) : M :=
    sep_by (B ", ") (map (fun f => render d f (ctx e x)) fs).
  (** Output columns: expressions with their aliases. *)
  Definition columns_sql (fs : list node) : M :=
    sep_by (B ", ") (map (fun f => render d f (ctx None []) ;; as_sql (get_alias f)) fs).
  (** A predicate list as the whole condition of a clause. *)
  Definition cond_sql (p : vpred_ node) : M := render d (NVPred p) (mk_ctx (Some true) [] None []).
  (** A number, bound as a value (the format's list of ordinals to forget is empty). *)
  Definition number_sql (keyword : bytes) (n : option Z) : M :=
    match n with
    | Some z => emit keyword ;; render d (NRaw (GInt z)) (ctx None []) ;; act (CDel []) ;; emit []
    | None => ret
    end.
  (** column = value, ...; a query is parenthesised. *)
  Definition assign_sql (x : list bytes) (a : node * node) : M :=
    render d (fst a) (ctx None x) ;; emit (B " = ") ;;
    (if is_query (snd a) then emit (B "(") ;; render d (snd a) (ctx None x) ;; emit (B ")")
     else render d (snd a) (ctx None x)).
  Definition assigns_sql (x : list bytes) (l : list (node * node)) : M :=
    sep_by (B ", ") (map (assign_sql x) l).

  (** ** Joins *)
  Definition join_type (j : join_ node) : bytes := if is_empty (jn_type j) then B "JOIN" else jn_type j.
  (** The join types that must have an ON condition, and those sqlite lacks. *)
  Definition needs_on (ty : bytes) : bool := existsb (beqb ty) [B "JOIN"; B "RIGHT JOIN"; B "FULL JOIN"].
  Definition not_in_sqlite (ty : bytes) : bool := existsb (beqb ty) [B "RIGHT JOIN"; B "FULL JOIN"].
  Definition join_ok (j : join_ node) : bool :=
    present (jn_table j)
    && (nonempty (vp_preds (jn_on j)) || negb (needs_on (join_type j)))
    && negb (is_sqlite d && not_in_sqlite (join_type j)).
  Definition join_sql (j : join_ node) : M :=
    match jn_table j with
    | None => fail
    | Some t =>
      emit (join_type j ++ B " ") ;; render d t (ctx None []) ;;
      when (negb (is_empty (get_alias t))) (emit (B " AS ") ;; emit (quote_identifier d (get_alias t))) ;;
      when (nonempty (vp_preds (jn_on j))) (emit (B " ON ") ;; cond_sql (jn_on j))
    end.

  (** ** WITH *)
  Definition cte_ok (c : cte_ node) : bool :=
    negb (cte_err c) && negb (is_empty (cte_name c)) && present (cte_query c).
  Definition cte_sql (c : cte_ node) : M :=
    match cte_query c with
    | None => fail
    | Some q =>
      emit (cte_name c) ;;
      when (cte_explicit c) (emit (B " (" ++ join (B ", ") (cte_fields c) ++ B ")")) ;;
      emit (B " AS ") ;;
      when (is_postgres d)
        match cte_mat c with
        | Some true => emit (B "MATERIALIZED ") | Some false => emit (B "NOT MATERIALIZED ") | None => ret
        end ;;
      emit (B "(") ;;
      (* a set operation is not parenthesised once more *)
      render d q (mk_ctx (if is_vquery q then Some true else None) [] None []) ;;
      emit (B ")")
    end.
  Definition with_clause_sql (cs : list (cte_ node)) : clause :=
    mk_clause (nonempty cs)
      (emit (if existsb cte_rec cs then B "WITH RECURSIVE " else B "WITH ") ;;
       sep_by (B ", ") (map cte_sql cs) ;; emit (B " ")).

  (** ** Injected predicates *)
  (** What the predicate hook of a table answers; tables without hook and nil
      answers inject nothing. *)
  Definition table_hook (t : node) (e : option env) : hookres node :=
    match t with
    | NTable _ _ _ (Some h) =>
      match h e with HPred p => if is_nil p then HNil else HPred p | r => r end
    | _ => HNil
    end.
  Definition tables_of (ts : list (option node)) : list node :=
    flat_map (fun t => match t with Some t => [t] | None => [] end) ts.
  Definition injected (ts : list (option node)) (e : option env) : list node :=
    flat_map (fun t => match table_hook t e with HPred p => [p] | _ => [] end) (tables_of ts).
  Definition hook_fails (ts : list (option node)) (e : option env) : bool :=
    existsb (fun t => match table_hook t e with HErr => true | _ => false end) (tables_of ts).
  (** WHERE: the injected predicates and the query's own condition, and-ed. *)
  Definition where_sql (inj : list node) (w : vpred_ node) : clause :=
    mk_clause (nonempty inj || nonempty (vp_preds w))
      (emit (B " WHERE ") ;;
       match inj with
       | [] => cond_sql w
       | _ => sep_by (B " AND ") (map (fun p => render d p (ctx None [])) (inj ++ [NVPred w]))
       end).

  Definition own_env (e : option env) (own : option env) : option env :=
    match e with None => own | Some _ => e end.

  (** ** SELECT *)
  Definition select_tables (q : select_ node) : list (option node) := sq_from q :: map jn_table (sq_joins q).
  Definition select_ok (q : select_ node) (e : option env) : bool :=
    forallb cte_ok (sq_ctes q)
    && (negb (nonempty (sq_distinct_on q)) || (is_postgres d && negb (sq_distinct q)))
    && nonempty (sq_fields q)
    && (negb (nonempty (sq_joins q)) || present (sq_from q))
    && forallb join_ok (sq_joins q)
    && negb (hook_fails (select_tables q) (own_env e (sq_env q))).
  Definition select_clauses (q : select_ node) (e0 : option env) : list clause :=
    let e := own_env e0 (sq_env q) in
    [ with_clause_sql (sq_ctes q);
      mk_clause true (emit (B "SELECT "));
      mk_clause (nonempty (sq_distinct_on q))
        (emit (B "DISTINCT ON (") ;; list_sql e [] (sq_distinct_on q) ;; emit (B ") "));
      mk_clause (sq_distinct q) (emit (B "DISTINCT "));
      mk_clause true (columns_sql (sq_fields q));
      mk_clause (present (sq_from q))
        (emit (B " FROM ") ;; match sq_from q with Some t => table_sql e t | None => ret end);
      mk_clause (nonempty (sq_joins q)) (emit (B " ") ;; sep_by (B " ") (map join_sql (sq_joins q)));
      where_sql (injected (select_tables q) e) (sq_where q);
      mk_clause (nonempty (sq_group q)) (emit (B " GROUP BY ") ;; list_sql e [] (sq_group q));
      mk_clause (nonempty (vp_preds (sq_having q))) (emit (B " HAVING ") ;; cond_sql (sq_having q));
      mk_clause (nonempty (sq_order q)) (emit (B " ORDER BY ") ;; list_sql e [] (sq_order q));
      mk_clause (present (sq_limit q)) (number_sql (B " LIMIT ") (sq_limit q));
      mk_clause (present (sq_offset q)) (number_sql (B " OFFSET ") (sq_offset q)) ].

  (** The name by which the columns of a table are qualified. *)
  Definition table_qualifier (t : node) : bytes := if is_empty (get_alias t) then get_name t else get_alias t.

  (** ** UPDATE *)
  (** The assignments: those of the builder, or the Set calls of the column
      mapper; [None]: the mapper returned an error. *)
  Definition update_assigns (q : update_ node) : option (list (node * node)) :=
    match uq_mapper q with
    | None => Some (uq_assigns q)
    | Some (calls, failed) => if failed then None else Some calls
    end.
  Definition update_ok (q : update_ node) (e : option env) : bool :=
    match update_assigns q with None => false | Some a => nonempty a end
    && forallb cte_ok (uq_ctes q)
    && present (uq_table q)
    && negb (present (uq_from q) && is_mysql d)
    && (negb (nonempty (uq_joins q)) || present (uq_from q) || is_mysql d)
    && forallb join_ok (uq_joins q)
    && negb (hook_fails (uq_table q :: uq_from q :: map jn_table (uq_joins q)) (own_env e (uq_env q)))
    && (negb (nonempty (uq_order q)) || is_mysql d || is_sqlite d)
    && (negb (present (uq_limit q)) || is_mysql d || is_sqlite d)
    && (negb (present (uq_offset q)) || is_sqlite d)
    && (negb (nonempty (uq_returning q)) || is_postgres d || is_sqlite d).
  Definition update_clauses (q : update_ node) (e0 : option env) : list clause :=
    let e := own_env e0 (uq_env q) in
    let assigns := match update_assigns q with Some a => a | None => [] end in
    match uq_table q with
    | None => []
    | Some t =>
      [ with_clause_sql (uq_ctes q);
        mk_clause true (emit (B "UPDATE ") ;; table_sql e t);
        mk_clause (negb (is_mysql d)) (emit (B " SET ") ;; assigns_sql [table_qualifier t] assigns);
        mk_clause (present (uq_from q))
          (emit (B " FROM ") ;; match uq_from q with Some f => table_sql e f | None => ret end);
        mk_clause (nonempty (uq_joins q)) (emit (B " ") ;; sep_by (B " ") (map join_sql (uq_joins q)));
        mk_clause (is_mysql d) (emit (B " SET ") ;; assigns_sql [] assigns);
        mk_clause (nonempty (vp_preds (uq_where q))) (emit (B " WHERE ") ;; cond_sql (uq_where q));
        mk_clause (nonempty (uq_order q)) (emit (B " ORDER BY ") ;; list_sql e [] (uq_order q));
        mk_clause (present (uq_limit q)) (number_sql (B " LIMIT ") (uq_limit q));
        mk_clause (present (uq_offset q)) (number_sql (B " OFFSET ") (uq_offset q));
        mk_clause (nonempty (uq_returning q)) (emit (B " RETURNING ") ;; columns_sql (uq_returning q)) ]
    end.

  (** ** DELETE *)
  Definition delete_multi (q : delete_ node) : bool := present (dq_using q) || nonempty (dq_joins q).
  Definition delete_ok (q : delete_ node) (e : option env) : bool :=
    forallb cte_ok (dq_ctes q)
    && match dq_tables q with
       | [] => false
       | t :: _ => if present (dq_using q) && is_mysql d then forallb present (dq_tables q) else present t
       end
    && negb (present (dq_using q) && is_sqlite d)
    && (negb (nonempty (dq_joins q)) || (present (dq_using q) && negb (is_sqlite d)))
    && forallb join_ok (dq_joins q)
    && negb (hook_fails (dq_tables q) (own_env e (dq_env q)))
    && (negb (nonempty (dq_order q)) || ((is_mysql d || is_sqlite d) && negb (delete_multi q)))
    && (negb (present (dq_limit q)) || ((is_mysql d || is_sqlite d) && negb (delete_multi q)))
    && (negb (present (dq_offset q)) || is_sqlite d)
    && (negb (nonempty (dq_returning q)) || is_postgres d || is_sqlite d).
  Definition delete_clauses (q : delete_ node) (e0 : option env) : list clause :=
    let e := own_env e0 (dq_env q) in
    [ with_clause_sql (dq_ctes q);
      mk_clause true (emit (B "DELETE FROM "));
      mk_clause (present (dq_using q) && is_mysql d)
        (sep_by (B ", ") (map (fun t => emit (table_qualifier t)) (tables_of (dq_tables q))));
      mk_clause (negb (present (dq_using q) && is_mysql d))
        (match dq_tables q with Some t :: _ => table_sql e t | _ => ret end);
      mk_clause (present (dq_using q))
        (emit (B " USING ") ;; match dq_using q with Some t => table_sql e t | None => ret end);
      mk_clause (nonempty (dq_joins q)) (emit (B " ") ;; sep_by (B " ") (map join_sql (dq_joins q)));
      where_sql (injected (dq_tables q) e) (dq_where q);
      mk_clause (nonempty (dq_order q)) (emit (B " ORDER BY ") ;; list_sql e [] (dq_order q));
      mk_clause (present (dq_limit q)) (number_sql (B " LIMIT ") (dq_limit q));
      mk_clause (present (dq_offset q)) (number_sql (B " OFFSET ") (dq_offset q));
      mk_clause (nonempty (dq_returning q)) (emit (B " RETURNING ") ;; columns_sql (dq_returning q)) ].

  (** ** INSERT *)
  (** Values come from rows, or from a SELECT.  sqlite's grammar needs a WHERE
      clause in the SELECT of an upsert. *)
  Definition source_select (s : select_ node) : select_ node :=
    if is_sqlite d && negb (nonempty (vp_preds (sq_where s))) then
      let w := sq_where s in
      mk_select (sq_dialect s) (sq_env s) (sq_ctes s) (sq_distinct s) (sq_fields s) (sq_distinct_on s)
        (sq_from s) (sq_joins s)
        (mk_vpred (vp_top w) (vp_alias w) (vp_or w) [NPred [] (B "TRUE") [] false] (vp_neg w))
        (sq_group s) (sq_having s) (sq_order s) (sq_limit s) (sq_offset s)
    else s.
  (** An INSERT without column mapper (C22 covers mappers). *)
  Definition on_conflict (q : insert_ node) : bool :=
    (is_sqlite d || is_postgres d)
    && (negb (is_empty (iq_constraint q)) || nonempty (iq_cfields q) || iq_nothing q).
  Definition insert_ok (q : insert_ node) (e : option env) : bool :=
    forallb cte_ok (iq_ctes q)
    && (negb (iq_ignore q) || is_mysql d)
    && match iq_into q with None => false | Some t => is_empty (get_alias t) || negb (is_mysql d) end
    && (nonempty (iq_rows q)
        || match iq_select q with Some s => select_ok (source_select s) (own_env e (iq_env q)) | None => false end)
    && (is_empty (iq_rowalias q) || negb (nonempty (iq_rows q)) || is_mysql d)
    && (is_empty (iq_constraint q) || is_postgres d || negb (is_sqlite d))
    && (negb (nonempty (iq_returning q)) || is_postgres d || is_sqlite d).
  Definition insert_clauses (q : insert_ node) (e0 : option env) : list clause :=
    let e := own_env e0 (iq_env q) in
    match iq_into q with
    | None => []
    | Some t =>
      let x := [table_qualifier t] in
      let update := nonempty (iq_resolution q) && negb (iq_nothing q) in
      [ with_clause_sql (iq_ctes q);
        mk_clause true (emit (if iq_ignore q then B "INSERT IGNORE INTO " else B "INSERT INTO ") ;;
                        table_sql e t);
        mk_clause (nonempty (iq_columns q)) (emit (B " (") ;; list_sql e x (iq_columns q) ;; emit (B ")"));
        mk_clause (nonempty (iq_rows q))
          (emit (B " VALUES ") ;;
           sep_by (B ", ") (map (fun r => emit (B "(") ;; list_sql None [] r ;; emit (B ")")) (iq_rows q)));
        mk_clause (nonempty (iq_rows q) && negb (is_empty (iq_rowalias q)))
          (emit (B " AS " ++ iq_rowalias q) ;;
           when (nonempty (iq_colaliases q)) (emit (B " (" ++ join (B ", ") (iq_colaliases q) ++ B ")")));
        mk_clause (negb (nonempty (iq_rows q)))
          (emit (B " ") ;; match iq_select q with
                           | Some s => statement (select_clauses (source_select s) e)
                           | None => ret
                           end);
        mk_clause (on_conflict q) (emit (B " ON CONFLICT"));
        mk_clause (on_conflict q && negb (is_empty (iq_constraint q)))
          (emit (B " ON CONSTRAINT " ++ iq_constraint q));
        mk_clause (on_conflict q && is_empty (iq_constraint q) && nonempty (iq_cfields q))
          (emit (B " (") ;; list_sql e x (iq_cfields q) ;; emit (B ")"));
        mk_clause (on_conflict q && is_empty (iq_constraint q) && nonempty (iq_cfields q) && present (iq_cpred q))
          (emit (B " WHERE ") ;;
           match iq_cpred q with
           | Some p => render d p (mk_ctx (if is_vpred p then Some true else None) [] e x)
           | None => ret
           end);
        mk_clause (on_conflict q && negb update) (emit (B " DO NOTHING"));
        mk_clause (on_conflict q && update) (emit (B " DO UPDATE SET ") ;; assigns_sql x (iq_resolution q));
        mk_clause (on_conflict q && update && nonempty (vp_preds (iq_rpred q)))
          (emit (B " WHERE ") ;; cond_sql (iq_rpred q));
        mk_clause (is_mysql d && nonempty (iq_resolution q))
          (emit (B " ON DUPLICATE KEY UPDATE ") ;; assigns_sql x (iq_resolution q));
        mk_clause (nonempty (iq_returning q)) (emit (B " RETURNING ") ;; columns_sql (iq_returning q)) ]
    end.
  (** The conflict clause of an INSERT into t, between VALUES/SELECT and RETURNING. *)
  Definition conflict_target (q : insert_ node) (e : option env) (t : node) : M :=
    if negb (is_empty (iq_constraint q)) then emit (B " ON CONSTRAINT " ++ iq_constraint q)
    else if nonempty (iq_cfields q) then
      emit (B " (") ;; list_sql e [table_qualifier t] (iq_cfields q) ;; emit (B ")") ;;
      match iq_cpred q with
      | Some p => emit (B " WHERE ") ;; render d p (mk_ctx (if is_vpred p then Some true else None) [] e [table_qualifier t])
      | None => ret
      end
    else ret.
  Definition conflict_sql (q : insert_ node) (e : option env) (t : node) : M :=
    match d with
    | DMySQL =>
      when (nonempty (iq_resolution q))
        (emit (B " ON DUPLICATE KEY UPDATE ") ;; assigns_sql [table_qualifier t] (iq_resolution q))
    | DSQLite | DPostgres =>
      if negb (is_empty (iq_constraint q)) || nonempty (iq_cfields q) || iq_nothing q then
        emit (B " ON CONFLICT") ;; conflict_target q e t ;;
        (if iq_nothing q || negb (nonempty (iq_resolution q)) then emit (B " DO NOTHING")
         else emit (B " DO UPDATE SET ") ;; assigns_sql [table_qualifier t] (iq_resolution q) ;;
              when (nonempty (vp_preds (iq_rpred q))) (emit (B " WHERE ") ;; cond_sql (iq_rpred q)))
      else ret
    | _ => ret
    end.
End Spec.
