(** * Queries: C22, C23, C24, C25, C42.  See SpecQuery. *)
From Verif Require Import GoBase QuoteModel SprintModel TokenModel EffectModel RenderModel BuildModel
  SpecLex SpecIdent SpecText SpecQuery SpecClauses BoolFacts ClauseFacts QuoteFacts QuotePf PredPf QueryPf PropertiesClauses.
Local Open Scope m_scope.

(** ** C22: column mappers *)
(** An INSERT whose mapper sets the columns f0, fs in the same order for each
    row renders exactly like the INSERT with these columns and rows; columns
    may share names, only the first must be unique (it starts a new row). *)
Theorem mapper_inserts_rows : forall (d : dialect) (q : insert_ node) (c : rctx) (f0 : node) (fs : list node)
    (rows : list (list node)),
  iq_mapper q = Some (mapper_calls (f0 :: fs) rows, false) ->
  ~ In (get_name f0) (map get_name fs) -> rows <> [] -> Forall (fun r => length r = length (f0 :: fs)) rows ->
  render d (NInsert q) c = render d (NInsert (with_rows q (f0 :: fs) rows)) c.
Proof. exact insert_mapper_pf. Qed.
Print Assumptions mapper_inserts_rows.
(** Whatever a mapper calls: a new row begins with each call for the column of
    the first call, the columns are those set for the first row, and the rows
    are the values as they were given.  Every list of calls is so divided, in
    one way. *)
Theorem mapper_inserts_groups : forall (d : dialect) (q : insert_ node) (c : rctx) (n0 : bytes)
    (g : list (node * node)) (gs : list (list (node * node))),
  iq_mapper q = Some (concat (g :: gs), false) -> Forall (call_group n0) (g :: gs) ->
  render d (NInsert q) c = render d (NInsert (with_rows q (map fst g) (map (map snd) (g :: gs)))) c.
Proof. exact insert_groups_pf. Qed.
Print Assumptions mapper_inserts_groups.
Theorem mapper_calls_divide :
  (forall (calls : list (node * node)) (f v : node),
     exists g gs, (f, v) :: calls = concat (g :: gs) /\ Forall (call_group (get_name f)) (g :: gs)) /\
  (forall (n0 : bytes) (gs hs : list (list (node * node))),
     Forall (call_group n0) gs -> Forall (call_group n0) hs -> concat gs = concat hs -> gs = hs).
Proof. split; [exact split_groups_pf|exact groups_unique_pf]. Qed.
Print Assumptions mapper_calls_divide.
Theorem mapper_without_calls : forall (d : dialect) (q : insert_ node) (c : rctx),
  iq_mapper q = Some ([], false) ->
  render d (NInsert q) c = render d (NInsert (with_rows q [] [])) c.
Proof. exact insert_no_calls_pf. Qed.
Print Assumptions mapper_without_calls.
Theorem mapper_updates_columns : forall (d : dialect) (q : update_ node) (c : rctx) (calls : list (node * node)),
  uq_mapper q = Some (calls, false) ->
  render d (NUpdate q) c = render d (NUpdate (with_assigns q calls)) c.
Proof. exact update_mapper_pf. Qed.
Print Assumptions mapper_updates_columns.
Theorem mapper_error_aborts : forall (d : dialect) (c : rctx),
  (forall q calls, iq_mapper q = Some (calls, true) -> render d (NInsert q) c = fail) /\
  (forall q calls, uq_mapper q = Some (calls, true) -> render d (NUpdate q) c = fail).
Proof. exact mapper_error_pf. Qed.
Print Assumptions mapper_error_aborts.
Definition int (z : Z) : node := NRaw (GInt z).
Definition mapper_insert (calls : list (node * node)) : insert_ node :=
  mk_insert (B "sqlite") None (Some (calls, false)) [] false (Some (tbl (B "t") [])) [] [] [] [] None [] []
    None false [] no_pred [].
Example mapper_example :
  let fs := [fld (B "t") (B "a"); fld (B "t") (B "b")] in
  let q := mapper_insert (mapper_calls fs [[int 1; int 2]; [int 3; int 4]]) in
  ~ In (B "a") (map get_name [fld (B "t") (B "b")]) /\
  r_query (to_sql [] (NInsert q)) = B "INSERT INTO t (a, b) VALUES ($1, $2), ($3, $4)" /\
  r_args (to_sql [] (NInsert q)) = [GInt 1; GInt 2; GInt 3; GInt 4].
Proof. repeat split. intros [H|[]]. discriminate. Qed.
Example groups_example :
  let a := fld (B "t") (B "a") in let b := fld (B "t") (B "b") in
  let q := mapper_insert (concat [[(a, int 1); (b, int 2)]; [(a, int 3)]]) in
  Forall (call_group (B "a")) [[(a, int 1); (b, int 2)]; [(a, int 3)]] /\
  r_query (to_sql [] (NInsert q)) = B "INSERT INTO t (a, b) VALUES ($1, $2), ($3)".
Proof.
  split; [|reflexivity]. repeat constructor.
  - exists (fld (B "t") (B "a")), (int 1), [(fld (B "t") (B "b"), int 2)]. repeat split. intros [H|[]]. discriminate.
  - exists (fld (B "t") (B "a")), (int 3), []. repeat split. intros [].
Qed.
(** Finding: a mapper that sets b before c in one row and c before b in another
    puts the values of b and c into each other's columns. *)
Theorem mapper_order_refuted :
  let a := fld (B "t") (B "a") in let b := fld (B "t") (B "b") in let c := fld (B "t") (B "c") in
  let q := mapper_insert [(a, int 1); (b, int 2); (c, int 3); (a, int 4); (c, int 6); (b, int 5)] in
  snd (render DSQLite (NInsert q) (ctx None [])) = SOk /\
  r_query (to_sql [] (NInsert q)) = B "INSERT INTO t (a, b, c) VALUES ($1, $2, $3), ($4, $5, $6)" /\
  r_args (to_sql [] (NInsert q)) = [GInt 1; GInt 2; GInt 3; GInt 4; GInt 6; GInt 5].
Proof. repeat split. Qed.
Print Assumptions mapper_order_refuted.
(** Finding: rows of different lengths are accepted. *)
Theorem mapper_ragged_refuted :
  let a := fld (B "t") (B "a") in let b := fld (B "t") (B "b") in
  let q := mapper_insert [(a, int 1); (b, int 2); (a, int 4)] in
  snd (render DSQLite (NInsert q) (ctx None [])) = SOk /\
  r_query (to_sql [] (NInsert q)) = B "INSERT INTO t (a, b) VALUES ($1, $2), ($3)".
Proof. repeat split. Qed.
Print Assumptions mapper_ragged_refuted.

(** ** C23: set operations *)
(** Union(...), Except(...), ... nested in any way over queries that are no set
    operations: the SQL reads as (...(t1 op t2) ...) op tn at every level,
    whatever the precedences of the operators are. *)
Theorem set_operations_group : forall (d : dialect) (tight : setop -> bool) (query : nat -> node) (t : qtree),
  (forall i, is_query (query i) = true /\ is_vquery (query i) = false) -> set_ok t = true ->
  exists toks, render d (build_set query t) (ctx None []) = stoks_sql d query toks /\
    set_reads_as tight toks (set_meaning t).
Proof. exact set_operation_pf. Qed.
Print Assumptions set_operations_group.
Theorem set_reading_is_unique : forall (tight : setop -> bool) (ts : list stok) (a b : sexp),
  set_reads_as tight ts a -> set_reads_as tight ts b -> a = b.
Proof. exact set_reads_unique. Qed.
Print Assumptions set_reading_is_unique.
Theorem set_operator_default : forall (d : dialect) (top : bool) (qs : list node) (c : rctx),
  render d (NVQuery top [] qs) c = render d (NVQuery top (B "UNION") qs) c.
Proof. exact default_operator_pf. Qed.
Print Assumptions set_operator_default.
Definition num_select (limit : option Z) (i : nat) : node :=
  NSelect (mk_select (B "postgres") None [] false [NLiteral (itoa i) []] [] None [] no_pred [] no_pred [] limit None).
Definition ex_set : qtree :=
  QSet OExcept [QQuery 1; QSet OUnion [QQuery 2; QQuery 3]; QSet OIntersect [QSet OUnionAll [QQuery 4; QQuery 5]]].
Example set_example :
  set_ok ex_set = true /\
  (forall i, is_query (num_select None i) = true /\ is_vquery (num_select None i) = false) /\
  r_query (to_sql [] (build_set (num_select None) ex_set)) =
    B "SELECT 1 EXCEPT (SELECT 2 UNION SELECT 3) EXCEPT (SELECT 4 UNION ALL SELECT 5)".
Proof. repeat split. Qed.
(** Finding: operands are not parenthesised, so the LIMIT (or ORDER BY) of one
    that is not the last is not valid SQL where it stands. *)
Theorem set_operand_clauses_refuted :
  snd (render DPostgres (build_set (num_select (Some 5%Z)) (QSet OUnion [QQuery 1; QQuery 2])) (ctx None [])) = SOk /\
  r_query (to_sql [] (build_set (num_select (Some 5%Z)) (QSet OUnion [QQuery 1; QQuery 2]))) =
    B "SELECT 1 LIMIT $1 UNION SELECT 2 LIMIT $2".
Proof. repeat split. Qed.
Print Assumptions set_operand_clauses_refuted.
(** Finding: a set operation without operands is rendered as nothing. *)
Theorem set_without_operands_refuted :
  snd (render DPostgres (build_set (num_select None) (QSet OUnion [QQuery 1; QSet OUnion []])) (ctx None [])) = SOk /\
  r_query (to_sql [] (build_set (num_select None) (QSet OUnion [QQuery 1; QSet OUnion []]))) = B "SELECT 1 UNION ".
Proof. repeat split. Qed.
Print Assumptions set_without_operands_refuted.

(** ** C24: columns of CTEs and subqueries *)
Theorem cte_field_exists : forall (recursive : bool) (name : bytes) (columns : list bytes) (query : option node)
    (cte : cte_ node) (alias field : bytes) (d : dialect) (c : rctx),
  new_cte recursive name columns query = Some cte -> c_excl c = [] ->
  let m := render d (cte_field (cte_as cte alias) field) c in
  (snd m = SOk <->
   name <> [] /\ exists q, query = Some q /\ (In field columns \/ columns = [] /\ has_column q field)) /\
  (snd m = SOk ->
   text_of m = Some (quote_identifier d (match alias with [] => name | _ => alias end) ++ B "." ++
                     quote_identifier d field)).
Proof. exact cte_field_pf. Qed.
Print Assumptions cte_field_exists.
Theorem subquery_field_exists : forall (alias : bytes) (query : option node) (sq : subq_ node) (field : bytes)
    (d : dialect) (c : rctx),
  new_subquery alias query = Some sq -> c_excl c = [] ->
  let m := render d (sub_field sq field) c in
  (snd m = SOk <->
   (alias <> [] \/ (d <> DPostgres /\ d <> DMySQL)) /\ exists q, query = Some q /\ has_column q field) /\
  (snd m = SOk ->
   text_of m = Some ((match alias with [] => [] | _ => quote_identifier d alias ++ B "." end) ++ quote_identifier d field)).
Proof. exact subquery_field_pf. Qed.
Print Assumptions subquery_field_exists.
(** The subquery itself is its query in parentheses, and needs output columns
    with names and, in postgres and mysql, an alias. *)
Theorem subquery_is_parenthesised : forall (alias : bytes) (query : option node) (sq : subq_ node) (d : dialect) (c : rctx),
  new_subquery alias query = Some sq ->
  snd (render d (NSubquery sq) c) = SOk ->
  (alias <> [] \/ (d <> DPostgres /\ d <> DMySQL)) /\
  exists q fs, query = Some q /\ produces q fs /\ fs <> [] /\ Forall (fun f => column_name f <> []) fs /\
    render d (NSubquery sq) c = emit (B "(") ;; render d q (ctx None []) ;; emit (B ")").
Proof. exact subquery_table_pf. Qed.
Print Assumptions subquery_is_parenthesised.
Example subquery_example :
  exists sq, new_subquery (B "s") (Some (NSelect ex_select)) = Some sq /\
    snd (render DPostgres (NSubquery sq) (ctx None [])) = SOk /\
    text_of (render DPostgres (sub_field sq (B "id")) (ctx None [])) = Some (B "s.id") /\
    snd (render DPostgres (sub_field sq (B "name")) (ctx None [])) <> SOk /\
    has_column (NSelect ex_select) (B "id").
Proof.
  eexists. split; [reflexivity|]. repeat split; try discriminate.
  exists [fld (B "u") (B "id")]. split; [constructor|]. split; [repeat constructor; discriminate|now left].
Qed.
Example cte_example :
  exists ct, new_cte true (B "t") [B "n"; B "m"] (Some (NSelect ex_select)) = Some ct /\
    text_of (render DMySQL (cte_field (cte_as ct (B "x")) (B "m")) (ctx None [])) = Some (B "x.m") /\
    snd (render DMySQL (cte_field ct (B "id")) (ctx None [])) <> SOk.
Proof. eexists. split; [reflexivity|]. repeat split. discriminate. Qed.

(** ** C25: CASE *)
Theorem case_is_its_branches : forall (d : dialect) (cases : list (node * node)) (fallback : option node)
    (alias : bytes) (c : rctx),
  (cases = [] -> snd (render d (NCase cases fallback alias) c) <> SOk) /\
  (cases <> [] -> render d (NCase cases fallback alias) c =
     emit (B "CASE") ;; seqs (map (when_then_sql d c) cases) ;; else_sql d c fallback ;; emit (B " END")).
Proof. exact case_pf. Qed.
Print Assumptions case_is_its_branches.
Theorem simple_case_is_its_branches : forall (d : dialect) (expr : node) (cases : list (node * node))
    (fallback : option node) (alias : bytes) (c : rctx),
  (cases = [] -> snd (render d (NSimpleCase expr cases fallback alias) c) <> SOk) /\
  (cases <> [] -> render d (NSimpleCase expr cases fallback alias) c =
     emit (B "CASE ") ;; render d expr (ctx (c_env c) (c_excl c)) ;;
     seqs (map (when_then_sql d c) cases) ;; else_sql d c fallback ;; emit (B " END")).
Proof. exact simple_case_pf. Qed.
Print Assumptions simple_case_is_its_branches.
Example case_example :
  r_query (to_sql (B "mysql") (NCase [(p_is_null (fld [] (B "a")), int 1)] (Some (int 2)) [])) =
    B "CASE WHEN a IS NULL THEN ? ELSE ? END" /\
  r_query (to_sql (B "mysql") (NSimpleCase (fld [] (B "a")) [(int 1, int 2); (int 3, int 4)] None [])) =
    B "CASE a WHEN ? THEN ? WHEN ? THEN ? END".
Proof. repeat split. Qed.

(** ** C42: names reach the database as identifiers *)
(** A table reads back as its schema and name. *)
Theorem table_reads_back : forall (d : dialect) (schema name alias : bytes) (hook : option (option env -> hookres node))
    (c : rctx) (rest : bytes),
  ~ has_inner_pair (snd (identifier_quotes d)) schema -> ~ has_inner_pair (snd (identifier_quotes d)) name ->
  may_follow d rest ->
  exists text, text_of (render d (NTable schema name alias hook) c) = Some text /\
    (schema = [] -> read_identifier d (text ++ rest) = Some (name, rest)) /\
    (schema <> [] -> exists text2,
       read_identifier d (text ++ rest) = Some (schema, B "." ++ text2) /\ read_identifier d text2 = Some (name, rest)).
Proof.
  intros d schema name alias hook c rest HS HN HF. eexists. split; [apply table_text|]. split.
  - intros ->. cbn [app]. now apply quote_identifier_names_pf.
  - intros NE. exists (quote_identifier d name ++ rest). split; [|now apply quote_identifier_names_pf].
    destruct schema as [|a schema]; [congruence|]. rewrite <- !app_assoc.
    apply quote_identifier_names_pf; auto. split; [reflexivity|]. destruct d; discriminate.
Qed.
Print Assumptions table_reads_back.
(** A column without format, collation and ordering reads back as the name (or
    alias) of its table and its name. *)
Theorem field_reads_back : forall (d : dialect) (keepenv : bool) (schema table talias name alias : bytes) (vals : list node)
    (e : option env) (rest : bytes),
  let q := if is_empty talias then table else talias in
  let fi := mk_finfo schema table talias name alias [] [] None None false in
  ~ has_inner_pair (snd (identifier_quotes d)) q -> ~ has_inner_pair (snd (identifier_quotes d)) name ->
  may_follow d rest ->
  exists text, text_of (render d (NField keepenv false fi vals) (ctx e [])) = Some text /\
    (q = [] -> read_identifier d (text ++ rest) = Some (name, rest)) /\
    (q <> [] -> exists text2,
       read_identifier d (text ++ rest) = Some (q, B "." ++ text2) /\ read_identifier d text2 = Some (name, rest)).
Proof.
  intros d k schema table talias name alias vals e rest q fi HQ HN HF.
  assert (A : FieldFacts.ascending []) by (intros i j _ L; inversion L).
  destruct (qualifier_dropped_pf d k fi vals None [] e [] eq_refl eq_refl A) as [H1 H2].
  change (mk_ctx None [] e []) with (ctx e []) in H1, H2. change (fi_name fi) with name in H1, H2.
  change (if is_empty (fi_talias fi) then fi_table fi else fi_talias fi) with q in H1, H2.
  assert (S : field_suffix d fi = []) by reflexivity. rewrite S in H1, H2. rewrite app_nil_r in H1, H2.
  clearbody q.
  destruct q as [|a q'].
  - exists (quote_identifier d name). split; [apply H1; now left|]. split; [|congruence].
    intros _. now apply quote_identifier_names_pf.
  - exists (quote_identifier d (a :: q') ++ B "." ++ quote_identifier d name).
    split; [apply H2; split; [discriminate|intros []]|]. split; [discriminate|]. intros _.
    exists (quote_identifier d name ++ rest). split; [|now apply quote_identifier_names_pf].
    rewrite <- !app_assoc. apply quote_identifier_names_pf; auto. split; [reflexivity|]. destruct d; discriminate.
Qed.
Print Assumptions field_reads_back.
Example identifiers_example :
  text_of (render DMySQL (NTable (B "my db") (B "a`b") [] None) (ctx None [])) = Some (B "`my db`.`a``b`") /\
  ~ has_inner_pair (snd (identifier_quotes DMySQL)) (B "a`b").
Proof.
  split; [reflexivity|]. apply collapse_id_iff. reflexivity.
Qed.
(** Findings: these names are written as they are given. *)
Theorem cte_name_unquoted_refuted : forall (d : dialect) (name : bytes) (q : node) (c : rctx),
  name <> [] -> text_of (render d (NCTE (mk_cte (Some q) false false false name [] [] [] None)) c) = Some name.
Proof. intros d name q c H. destruct name; [congruence|]. apply text_of_emit. Qed.
Print Assumptions cte_name_unquoted_refuted.
Theorem raw_names_refuted :
  (* the columns of a CTE *)
  r_query (to_sql [] (NSelect (mk_select (B "postgres") None
     [mk_cte (Some (num_select None 1)) false false true (B "my cte") [] [B "a b"] [B "a b"] None] false
     [NLiteral (B "1") []] [] None [] no_pred [] no_pred [] None None)))
    = B "WITH my cte (a b) AS (SELECT 1) SELECT 1" /\
  (* the constraint of ON CONFLICT ON CONSTRAINT *)
  r_query (to_sql [] (NInsert (mk_insert (B "postgres") None None [] false (Some (tbl (B "t") [])) [] [[int 1]] [] [] None
     (B "my constraint") [] None true [] no_pred [])))
    = B "INSERT INTO t VALUES ($1) ON CONFLICT ON CONSTRAINT my constraint DO NOTHING" /\
  (* row and column aliases of a mysql INSERT *)
  r_query (to_sql [] (NInsert (mk_insert (B "mysql") None None [] false (Some (tbl (B "t") [])) [] [[int 1]] (B "new row")
     [B "new col"] None [] [] None false [] no_pred [])))
    = B "INSERT INTO t VALUES (?) AS new row (new col)" /\
  (* the tables of a mysql multi-table DELETE *)
  r_query (to_sql [] (NDelete (mk_delete (B "mysql") None [] [Some (tbl (B "my table") [])] (Some (tbl (B "my table") [])) []
     no_pred [] None None [])))
    = B "DELETE FROM my table USING `my table`".
Proof. repeat split. Qed.
Print Assumptions raw_names_refuted.
