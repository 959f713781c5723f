(** * Statements: C19, C20, C21, C39, C40.  See SpecClauses. *)
From Verif Require Import GoBase QuoteModel SprintModel TokenModel EffectModel RenderModel BuildModel
  SpecBool SpecText SpecClauses BoolModel RenderRel BoolFacts ClauseFacts ClausePf GatePf.
Local Open Scope m_scope.

(** ** C20: the clauses of a statement *)
(** A rendered SELECT is exactly the list of its clauses that are set, in the
    order of [select_clauses], and it is rendered iff it is accepted and all
    its components render. *)
Theorem select_is_its_clauses : forall (d : dialect) (q : select_ node) (c : rctx),
  (select_ok d q (c_env c) = true -> render d (NSelect q) c = statement (select_clauses d q (c_env c))) /\
  (snd (render d (NSelect q) c) = SOk <->
   select_ok d q (c_env c) = true /\
   Forall (fun cl => cl_set cl = true -> snd (cl_sql cl) = SOk) (select_clauses d q (c_env c))).
Proof. exact select_is_its_clauses_pf. Qed.
Print Assumptions select_is_its_clauses.
Theorem update_is_its_clauses : forall (d : dialect) (q : update_ node) (c : rctx),
  (update_ok d q (c_env c) = true -> render d (NUpdate q) c = statement (update_clauses d q (c_env c))) /\
  (snd (render d (NUpdate q) c) = SOk <->
   update_ok d q (c_env c) = true /\
   Forall (fun cl => cl_set cl = true -> snd (cl_sql cl) = SOk) (update_clauses d q (c_env c))).
Proof. exact update_is_its_clauses_pf. Qed.
Print Assumptions update_is_its_clauses.
Theorem delete_is_its_clauses : forall (d : dialect) (q : delete_ node) (c : rctx),
  (delete_ok d q (c_env c) = true -> render d (NDelete q) c = statement (delete_clauses d q (c_env c))) /\
  (snd (render d (NDelete q) c) = SOk <->
   delete_ok d q (c_env c) = true /\
   Forall (fun cl => cl_set cl = true -> snd (cl_sql cl) = SOk) (delete_clauses d q (c_env c))).
Proof. exact delete_is_its_clauses_pf. Qed.
Print Assumptions delete_is_its_clauses.
Theorem insert_is_its_clauses : forall (d : dialect) (q : insert_ node) (c : rctx),
  iq_mapper q = None ->
  (insert_ok d q (c_env c) = true -> render d (NInsert q) c = statement (insert_clauses d q (c_env c))) /\
  (snd (render d (NInsert q) c) = SOk <->
   insert_ok d q (c_env c) = true /\
   Forall (fun cl => cl_set cl = true -> snd (cl_sql cl) = SOk) (insert_clauses d q (c_env c))).
Proof. exact insert_is_its_clauses_pf. Qed.
Print Assumptions insert_is_its_clauses.

Definition no_pred : vpred_ node := mk_vpred false [] false [] false.
Definition tbl (name alias : bytes) : node := NTable [] name alias None.
Definition fld (table name : bytes) : node :=
  NField false false (mk_finfo [] table [] name [] [] [] None None false) [].
Definition ex_select : select_ node :=
  mk_select (B "postgres") None [] false [fld (B "u") (B "id")] [fld (B "u") (B "id")]
    (Some (tbl (B "users") (B "u"))) [mk_join (B "LEFT JOIN") (Some (tbl (B "posts") [])) no_pred]
    (mk_vpred false [] false [p_eq (fld (B "u") (B "id")) (NRaw (GInt 7))] false)
    [fld (B "u") (B "id")] no_pred [fld (B "u") (B "id")] (Some 5%Z) (Some 6%Z).
Example select_example :
  select_ok DPostgres ex_select None = true /\
  r_query (to_sql [] (NSelect ex_select)) =
    B "SELECT DISTINCT ON (u.id) u.id FROM users AS u LEFT JOIN posts WHERE u.id = $1 GROUP BY u.id ORDER BY u.id LIMIT $2 OFFSET $3" /\
  r_status (to_sql [] (NSelect ex_select)) = SOk.
Proof. repeat split. Qed.
Definition ex_update : update_ node :=
  mk_update (B "sqlite") None None [] (Some (tbl (B "users") [])) None []
    [(fld (B "users") (B "name"), NRaw (GString (B "x")))]
    (mk_vpred false [] false [p_eq (fld (B "users") (B "id")) (NRaw (GInt 7))] false)
    [] None None [fld (B "users") (B "id")].
Example update_example :
  update_ok DSQLite ex_update None = true /\
  r_query (to_sql [] (NUpdate ex_update)) = B "UPDATE users SET name = $1 WHERE users.id = $2 RETURNING users.id".
Proof. repeat split. Qed.
Definition ex_delete : delete_ node :=
  mk_delete (B "mysql") None [] [Some (tbl (B "users") [])] None []
    (mk_vpred false [] false [p_eq (fld (B "users") (B "id")) (NRaw (GInt 7))] false)
    [fld (B "users") (B "id")] (Some 1%Z) None [].
Example delete_example :
  delete_ok DMySQL ex_delete None = true /\
  r_query (to_sql [] (NDelete ex_delete)) = B "DELETE FROM users WHERE users.id = ? ORDER BY users.id LIMIT ?".
Proof. repeat split. Qed.
Definition ex_insert : insert_ node :=
  mk_insert (B "postgres") None None [] false (Some (tbl (B "users") (B "u"))) [fld (B "u") (B "id")]
    [[NRaw (GInt 1)]; [NRaw (GInt 2)]] [] [] None [] [fld (B "u") (B "id")] None false
    [(fld (B "u") (B "id"), NRaw (GInt 3))] no_pred [fld (B "u") (B "id")].
Example insert_example :
  insert_ok DPostgres ex_insert None = true /\
  r_query (to_sql [] (NInsert ex_insert)) =
    B "INSERT INTO users AS u (id) VALUES ($1), ($2) ON CONFLICT (id) DO UPDATE SET id = $3 RETURNING u.id".
Proof. repeat split. Qed.

(** ** C21: what a dialect does not support is an error *)
Theorem select_unsupported : forall (d : dialect) (q : select_ node) (c : rctx),
  sq_distinct_on q <> [] /\ (d <> DPostgres \/ sq_distinct q = true) \/
  sq_fields q = [] \/
  sq_joins q <> [] /\ sq_from q = None \/
  (exists j, In j (sq_joins q) /\ join_ok d j = false) \/
  (exists t, In (Some t) (select_tables q) /\ table_hook t (own_env (c_env c) (sq_env q)) = HErr) ->
  snd (render d (NSelect q) c) <> SOk.
Proof. exact select_unsupported_pf. Qed.
Print Assumptions select_unsupported.
Theorem update_unsupported : forall (d : dialect) (q : update_ node) (c : rctx),
  uq_from q <> None /\ d = DMySQL \/
  uq_joins q <> [] /\ uq_from q = None /\ d <> DMySQL \/
  uq_order q <> [] /\ d <> DMySQL /\ d <> DSQLite \/
  uq_limit q <> None /\ d <> DMySQL /\ d <> DSQLite \/
  uq_offset q <> None /\ d <> DSQLite \/
  uq_returning q <> [] /\ d <> DPostgres /\ d <> DSQLite \/
  uq_table q = None \/
  (uq_mapper q = None /\ uq_assigns q = []) ->
  snd (render d (NUpdate q) c) <> SOk.
Proof. exact update_unsupported_pf. Qed.
Print Assumptions update_unsupported.
Theorem delete_unsupported : forall (d : dialect) (q : delete_ node) (c : rctx),
  dq_tables q = [] \/
  dq_using q <> None /\ d = DSQLite \/
  dq_joins q <> [] /\ (d = DSQLite \/ dq_using q = None) \/
  dq_order q <> [] /\ (d <> DMySQL /\ d <> DSQLite \/ dq_using q <> None) \/
  dq_limit q <> None /\ (d <> DMySQL /\ d <> DSQLite \/ dq_using q <> None) \/
  dq_offset q <> None /\ d <> DSQLite \/
  dq_returning q <> [] /\ d <> DPostgres /\ d <> DSQLite \/
  (exists t, In (Some t) (dq_tables q) /\ table_hook t (own_env (c_env c) (dq_env q)) = HErr) ->
  snd (render d (NDelete q) c) <> SOk.
Proof. exact delete_unsupported_pf. Qed.
Print Assumptions delete_unsupported.
Theorem insert_unsupported : forall (d : dialect) (q : insert_ node) (c : rctx),
  iq_ignore q = true /\ d <> DMySQL \/
  (exists t, iq_into q = Some t /\ get_alias t <> [] /\ d = DMySQL) \/
  iq_mapper q = None /\ iq_rows q <> [] /\ iq_rowalias q <> [] /\ d <> DMySQL \/
  iq_constraint q <> [] /\ d = DSQLite \/
  iq_returning q <> [] /\ d <> DPostgres /\ d <> DSQLite \/
  iq_into q = None \/
  iq_mapper q = None /\ iq_rows q = [] /\ iq_select q = None ->
  snd (render d (NInsert q) c) <> SOk.
Proof. exact insert_unsupported_pf. Qed.
Print Assumptions insert_unsupported.
(** sql.NamedArg in a dialect without named parameters. *)
Theorem named_arg_unsupported : forall (d : dialect) (name : bytes) (v : gval) (c : rctx),
  d = DPostgres \/ d = DMySQL -> snd (render d (NRaw (GNamedArg name v)) c) <> SOk.
Proof. exact named_arg_unsupported_pf. Qed.
Print Assumptions named_arg_unsupported.
Example unsupported_example :
  snd (render DMySQL (NSelect ex_select) (ctx None [])) <> SOk /\
  snd (render DPostgres (NDelete ex_delete) (ctx None [])) <> SOk.
Proof. split; discriminate. Qed.
(** Not rejected: ON CONFLICT ... DO UPDATE without a conflict target in
    sqlite/postgres, or any conflict handling in sqlserver, is dropped. *)
Theorem conflict_silently_dropped_refuted :
  exists q : insert_ node, iq_resolution q <> [] /\ iq_cfields q <> [] /\
    snd (render DSQLServer (NInsert q) (ctx None [])) = SOk /\
    out_text DSQLServer (st_out (fst (append_sql DSQLServer (NInsert q) None [] st0)))
      = B "INSERT INTO users (id) VALUES (@p1)".
Proof.
  exists (mk_insert (B "sqlserver") None None [] false (Some (tbl (B "users") [])) [fld (B "users") (B "id")]
    [[NRaw (GInt 1)]] [] [] None [] [fld (B "users") (B "id")] None false
    [(fld (B "users") (B "id"), NRaw (GInt 3))] no_pred []).
  repeat split; discriminate.
Qed.
Print Assumptions conflict_silently_dropped_refuted.

(** ** C39: joins *)
Theorem join_is_well_formed : forall (d : dialect) (j : join_ node) (c : rctx),
  snd (render d (NJoin j) c) = SOk ->
  exists t, jn_table j = Some t /\
    render d (NJoin j) c =
      emit (join_type j ++ B " ") ;; render d t (ctx None []) ;;
      when (negb (is_empty (get_alias t))) (emit (B " AS ") ;; emit (quote_identifier d (get_alias t))) ;;
      when (nonempty (vp_preds (jn_on j))) (emit (B " ON ") ;; cond_sql d (jn_on j)) /\
    (vp_preds (jn_on j) = [] -> ~ In (join_type j) [B "JOIN"; B "RIGHT JOIN"; B "FULL JOIN"]) /\
    (d = DSQLite -> ~ In (join_type j) [B "RIGHT JOIN"; B "FULL JOIN"]).
Proof. exact join_is_well_formed_pf. Qed.
Print Assumptions join_is_well_formed.
Example join_example :
  render DPostgres (NJoin (mk_join [] (Some (tbl (B "t") (B "x"))) (mk_vpred false [] false [p_format (B "TRUE") []] false)))
    (ctx None []) <> fail /\
  r_query (to_sql (B "postgres") (NJoin (mk_join [] (Some (tbl (B "t") (B "x"))) (mk_vpred false [] false [p_format (B "TRUE") []] false))))
    = B "JOIN t AS x ON TRUE".
Proof. split; [discriminate|reflexivity]. Qed.
(** A LEFT JOIN without condition is not rejected (SQL requires ON). *)
Theorem left_join_without_on_refuted :
  snd (render DPostgres (NJoin (mk_join (B "LEFT JOIN") (Some (tbl (B "t") [])) no_pred)) (ctx None [])) = SOk.
Proof. reflexivity. Qed.
Print Assumptions left_join_without_on_refuted.

(** ** C40: conflict clauses *)
(** A rendered INSERT has a table and values; between VALUES/SELECT and
    RETURNING it has exactly the conflict clause of its dialect: ON CONFLICT
    only for sqlite and postgres, ON DUPLICATE KEY UPDATE only for mysql
    ([conflict_sql] in SpecClauses). *)
Theorem insert_conflict_clauses : forall (d : dialect) (q : insert_ node) (c : rctx) (t : node),
  iq_mapper q = None -> iq_into q = Some t -> snd (render d (NInsert q) c) = SOk ->
  let l := insert_clauses d q (c_env c) in
  (iq_rows q <> [] \/ exists s, iq_select q = Some s) /\
  render d (NInsert q) c =
    statement (firstn 6 l) ;; conflict_sql d q (own_env (c_env c) (iq_env q)) t ;; statement (skipn 14 l).
Proof. exact insert_conflict_clauses_pf. Qed.
Print Assumptions insert_conflict_clauses.
Example conflict_example :
  iq_mapper ex_insert = None /\ iq_into ex_insert = Some (tbl (B "users") (B "u")) /\
  snd (render DPostgres (NInsert ex_insert) (ctx None [])) = SOk /\
  conflict_sql DPostgres ex_insert None (tbl (B "users") (B "u")) =
    ([CText (B " ON CONFLICT"); CText (B " ("); CText (B "id"); CText (B ")"); CText (B " DO UPDATE SET ");
      CText (B "id"); CText (B " = "); CBind [] (GInt 3)], SOk).
Proof. repeat split. Qed.

(** ** C19: injected predicates *)
(** When table hooks inject the conditions hs into a SELECT with conditions ws,
    the WHERE clause of the rendered statement reads as a condition that is true
    only if all of hs (and ws) are. *)
Theorem select_enforces_injected : forall (d : dialect) (q : select_ node) (c : rctx) (atom : nat -> node)
    (hs ws : list cond),
  snd (render d (NSelect q) c) = SOk ->
  (forall i, is_atom (atom i) = true) -> hs <> [] ->
  Forall2 (fun c n => build atom c = Some n) hs (injected (select_tables q) (own_env (c_env c) (sq_env q))) ->
  Forall2 (fun c n => build atom c = Some n) ws (vp_preds (sq_where q)) ->
  vp_or (sq_where q) = false -> vp_neg (sq_where q) = false -> vp_top (sq_where q) = false ->
  supported (CAnd (hs ++ [CAnd ws])) = true ->
  exists toks b,
    render d (NSelect q) c =
      statement (firstn 7 (select_clauses d q (c_env c))) ;;
      (emit (B " WHERE ") ;; toks_sql d atom [] toks) ;;
      statement (skipn 8 (select_clauses d q (c_env c))) /\
    reads_as toks b /\
    forall v, beval v b = TT -> Forall (fun h => meaning v h = TT) hs /\ Forall (fun h => meaning v h = TT) ws.
Proof. exact select_enforces. Qed.
Print Assumptions select_enforces_injected.
Theorem delete_enforces_injected : forall (d : dialect) (q : delete_ node) (c : rctx) (atom : nat -> node)
    (hs ws : list cond),
  snd (render d (NDelete q) c) = SOk ->
  (forall i, is_atom (atom i) = true) -> hs <> [] ->
  Forall2 (fun c n => build atom c = Some n) hs (injected (dq_tables q) (own_env (c_env c) (dq_env q))) ->
  Forall2 (fun c n => build atom c = Some n) ws (vp_preds (dq_where q)) ->
  vp_or (dq_where q) = false -> vp_neg (dq_where q) = false -> vp_top (dq_where q) = false ->
  supported (CAnd (hs ++ [CAnd ws])) = true ->
  exists toks b,
    render d (NDelete q) c =
      statement (firstn 6 (delete_clauses d q (c_env c))) ;;
      (emit (B " WHERE ") ;; toks_sql d atom [] toks) ;;
      statement (skipn 7 (delete_clauses d q (c_env c))) /\
    reads_as toks b /\
    forall v, beval v b = TT -> Forall (fun h => meaning v h = TT) hs /\ Forall (fun h => meaning v h = TT) ws.
Proof. exact delete_enforces. Qed.
Print Assumptions delete_enforces_injected.
(** A hook that fails aborts the statement (also for UPDATE). *)
Theorem hook_error_aborts : forall (d : dialect) (c : rctx),
  (forall q t, In (Some t) (select_tables q) -> table_hook t (own_env (c_env c) (sq_env q)) = HErr ->
     snd (render d (NSelect q) c) <> SOk) /\
  (forall q t, In (Some t) (dq_tables q) -> table_hook t (own_env (c_env c) (dq_env q)) = HErr ->
     snd (render d (NDelete q) c) <> SOk) /\
  (forall q t, In (Some t) (uq_table q :: uq_from q :: map jn_table (uq_joins q)) ->
     table_hook t (own_env (c_env c) (uq_env q)) = HErr -> snd (render d (NUpdate q) c) <> SOk).
Proof. exact hook_error_aborts_pf. Qed.
Print Assumptions hook_error_aborts.

(** A table whose hook reads the tenant from the environment. *)
Definition tenant_table : node :=
  NTable [] (B "users") [] (Some (fun e =>
    match e with
    | Some m => match mget (B "tenant") m with
                | Some v => HPred (p_eq (fld (B "users") (B "tenant_id")) (NRaw v))
                | None => HErr
                end
    | None => HErr
    end)).
Definition tenant_env : option env := Some [(B "tenant", GInt 9)].
Definition tenant_atom (i : nat) : node :=
  match i with
  | 0 => p_eq (fld (B "users") (B "tenant_id")) (NRaw (GInt 9))
  | _ => p_eq (fld (B "users") (B "id")) (NRaw (GInt 7))
  end.
Definition tenant_select (w : vpred_ node) : select_ node :=
  mk_select (B "postgres") tenant_env [] false [fld [] (B "id")] [] (Some tenant_table) [] w [] no_pred [] None None.
Example select_enforces_example :
  let q := tenant_select (mk_vpred false [] false [tenant_atom 1] false) in
  snd (render DPostgres (NSelect q) (ctx None [])) = SOk /\
  (forall i, is_atom (tenant_atom i) = true) /\
  Forall2 (fun c n => build tenant_atom c = Some n) [CAtom 0] (injected (select_tables q) (own_env None (sq_env q))) /\
  Forall2 (fun c n => build tenant_atom c = Some n) [CAtom 1] (vp_preds (sq_where q)) /\
  supported (CAnd ([CAtom 0] ++ [CAnd [CAtom 1]])) = true /\
  r_query (to_sql [] (NSelect q)) = B "SELECT id FROM users WHERE users.tenant_id = $1 AND users.id = $2".
Proof. repeat split; repeat constructor. intros []; reflexivity. Qed.
(** Without a WHERE condition of its own the SELECT ends in a dangling AND. *)
Theorem injected_without_where_refuted :
  let q := tenant_select no_pred in
  snd (render DPostgres (NSelect q) (ctx None [])) = SOk /\
  r_query (to_sql [] (NSelect q)) = B "SELECT id FROM users WHERE users.tenant_id = $1 AND ".
Proof. repeat split. Qed.
Print Assumptions injected_without_where_refuted.
(** UPDATE asks the hook but ignores the answer. *)
Theorem update_drops_injected_refuted :
  exists q : update_ node, uq_table q = Some tenant_table /\
    injected [uq_table q] (own_env None (uq_env q)) <> [] /\
    snd (render DPostgres (NUpdate q) (ctx None [])) = SOk /\
    r_query (to_sql [] (NUpdate q)) = B "UPDATE users SET name = $1 WHERE users.id = $2".
Proof.
  exists (mk_update (B "postgres") tenant_env None [] (Some tenant_table) None []
    [(fld (B "users") (B "name"), NRaw (GString (B "x")))]
    (mk_vpred false [] false [tenant_atom 1] false) [] None None []).
  repeat split. discriminate.
Qed.
Print Assumptions update_drops_injected_refuted.
(** DELETE does not ask the hooks of the tables it uses or joins. *)
Theorem delete_ignores_using_hook_refuted :
  exists q : delete_ node, dq_using q = Some tenant_table /\
    injected [dq_using q] (own_env None (dq_env q)) <> [] /\
    snd (render DPostgres (NDelete q) (ctx None [])) = SOk /\
    r_query (to_sql [] (NDelete q)) = B "DELETE FROM posts USING users WHERE users.id = $1".
Proof.
  exists (mk_delete (B "postgres") tenant_env [] [Some (tbl (B "posts") [])] (Some tenant_table) []
    (mk_vpred false [] false [tenant_atom 1] false) [] None None []).
  repeat split. discriminate.
Qed.
Print Assumptions delete_ignores_using_hook_refuted.
