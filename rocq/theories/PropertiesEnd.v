(** * From the calls of a builder to what the database reads: C88 *)
From Verif Require Import GoBase QuoteModel SpecLex SpecIdent SpecSql SprintModel TokenModel EffectModel RenderModel BuildModel
  SpecClauses FieldFacts PropertiesClauses ChainModel SpecChain PropertiesChain FetchModel SpecFetch PropertiesFetch
  SpecReadSql ReadExpr SpecPlain PlainPf PropertiesReadSql PropertiesReadInsert PropertiesReadMore PropertiesPlain.
From Verif Require SpecQuery PropertiesQuery DdlToks SqlFacts.

(** The statement sent, read by the database: what [read] finds is [found]. *)
Definition received {R} (d : dialect) (read : list tok -> option R) (found : R -> Prop) (text : bytes) : Prop :=
  exists ts r, tokens d text = Some ts /\ read ts = Some r /\ found r.

Lemma own_dialect : forall dname n, get_dialect n = dname -> to_sql_dialect dname n = dialect_of dname.
Proof. intros dname n E. unfold to_sql_dialect. rewrite E. now destruct (is_empty dname && is_query n). Qed.
Lemma exec_sent : forall ctx db q req, x_sent (exec_query ctx (Some db) (Some q)) = Some req ->
  BuildModel.r_status (to_sql (get_dialect q) q) = SOk /\
  req = (ctx, r_query (to_sql (get_dialect q) q), r_args (to_sql (get_dialect q) q)).
Proof.
  intros ctx db q req H. unfold exec_query in H.
  destruct (BuildModel.r_status (to_sql (get_dialect q) q)); try discriminate H. split; [reflexivity|].
  destruct (db _) as [e|[e|n] l]; [now injection H|now injection H|].
  destruct (beqb (get_dialect q) (B "sqlite") || beqb (get_dialect q) (B "mysql")); [destruct l|]; now injection H.
Qed.

(** Fetch of a SELECT made by any calls: the output columns are those the mapper
    asks for, everything else is what the calls ask for. *)
Theorem fetched_select_is_read_as_called : forall (A : Type) (dname : bytes) (e : option env) (s : select_start) (cs : list select_call)
    (ctx : nat) (db : database) (mapper : list A -> prog A) (h : list A) (req : request),
  let asked := asked_select dname e (first_select s :: cs) in
  f_sent (fetch ctx (Some db) (Some (NSelect (build_select dname e s cs))) (Some mapper) h) = Some req ->
  exists columns query args, req = (ctx, query, args) /\
    (exists x r h1, run (mapper h) row_new h = (XDone x, r, h1) /\ columns = map snd (r_cols r)) /\
    let q := mk_select (sq_dialect asked) (sq_env asked) (sq_ctes asked) (sq_distinct asked) columns (sq_distinct_on asked)
      (sq_from asked) (sq_joins asked) (sq_where asked) (sq_group asked) (sq_having asked) (sq_order asked) (sq_limit asked)
      (sq_offset asked) in
    plain_statement (dialect_of dname) (NSelect q) ->
    received (dialect_of dname) read_select (select_found (dialect_of dname) q None) query.
Proof.
  intros A dname e s cs ctx db mapper h req asked H.
  destruct (fetch_sends_query A ctx db _ mapper h req H) as (x & r & h1 & q1 & R & SF & OK & ->).
  rewrite select_as_called in SF, OK |- *. fold asked in SF, OK |- *. cbn [set_fetchable] in SF. injection SF as <-.
  change (get_dialect (NSelect asked)) with dname in *.
  exists (map snd (r_cols r)). eexists. eexists. split; [reflexivity|]. split; [exists x, r, h1; split; [exact R|reflexivity]|].
  intros q P. fold q in OK |- *.
  assert (D : to_sql_dialect dname (NSelect q) = dialect_of dname) by (now apply own_dialect).
  assert (K := proj1 (plain_statements_read_back dname) q). cbv zeta in K. rewrite D in K. exact (K P OK).
Qed.
Print Assumptions fetched_select_is_read_as_called.

(** Fetch of the rows an UPDATE, DELETE or INSERT returns. *)
Theorem fetched_update_is_read_as_called : forall (A : Type) (dname : bytes) (e : option env) (s : update_start) (cs : list update_call)
    (ctx : nat) (db : database) (mapper : list A -> prog A) (h : list A) (req : request),
  let asked := asked_update dname e (first_update s :: cs) in
  f_sent (fetch ctx (Some db) (Some (NUpdate (build_update dname e s cs))) (Some mapper) h) = Some req ->
  exists columns query args, req = (ctx, query, args) /\
    (exists x r h1, run (mapper h) row_new h = (XDone x, r, h1) /\ columns = map snd (r_cols r)) /\
    let q := mk_update (uq_dialect asked) (uq_env asked) (uq_mapper asked) (uq_ctes asked) (uq_table asked) (uq_from asked)
      (uq_joins asked) (uq_assigns asked) (uq_where asked) (uq_order asked) (uq_limit asked) (uq_offset asked) columns in
    plain_statement (dialect_of dname) (NUpdate q) ->
    received (dialect_of dname) read_update (update_found (dialect_of dname) q None) query.
Proof.
  intros A dname e s cs ctx db mapper h req asked H.
  destruct (fetch_sends_query A ctx db _ mapper h req H) as (x & r & h1 & q1 & R & SF & OK & ->).
  rewrite update_as_called in SF, OK |- *. fold asked in SF, OK |- *. cbn [set_fetchable] in SF.
  destruct (returning_dialect _) in SF; [|discriminate SF]. injection SF as <-.
  change (get_dialect (NUpdate asked)) with dname in *.
  exists (map snd (r_cols r)). eexists. eexists. split; [reflexivity|]. split; [exists x, r, h1; split; [exact R|reflexivity]|].
  intros q P. fold q in OK |- *.
  assert (D : to_sql_dialect dname (NUpdate q) = dialect_of dname) by (now apply own_dialect).
  assert (K := proj1 (proj2 (plain_statements_read_back dname)) q). cbv zeta in K. rewrite D in K. exact (K P OK).
Qed.
Print Assumptions fetched_update_is_read_as_called.
Theorem fetched_delete_is_read_as_called : forall (A : Type) (dname : bytes) (e : option env) (s : delete_start) (cs : list delete_call)
    (ctx : nat) (db : database) (mapper : list A -> prog A) (h : list A) (req : request),
  let asked := asked_delete dname e (first_delete s :: cs) in
  f_sent (fetch ctx (Some db) (Some (NDelete (build_delete dname e s cs))) (Some mapper) h) = Some req ->
  exists columns query args, req = (ctx, query, args) /\
    (exists x r h1, run (mapper h) row_new h = (XDone x, r, h1) /\ columns = map snd (r_cols r)) /\
    let q := mk_delete (dq_dialect asked) (dq_env asked) (dq_ctes asked) (dq_tables asked) (dq_using asked) (dq_joins asked)
      (dq_where asked) (dq_order asked) (dq_limit asked) (dq_offset asked) columns in
    plain_statement (dialect_of dname) (NDelete q) ->
    received (dialect_of dname) read_delete (delete_found (dialect_of dname) q None) query.
Proof.
  intros A dname e s cs ctx db mapper h req asked H.
  destruct (fetch_sends_query A ctx db _ mapper h req H) as (x & r & h1 & q1 & R & SF & OK & ->).
  rewrite delete_as_called in SF, OK |- *. fold asked in SF, OK |- *. cbn [set_fetchable] in SF.
  destruct (returning_dialect _) in SF; [|discriminate SF]. injection SF as <-.
  change (get_dialect (NDelete asked)) with dname in *.
  exists (map snd (r_cols r)). eexists. eexists. split; [reflexivity|]. split; [exists x, r, h1; split; [exact R|reflexivity]|].
  intros q P. fold q in OK |- *.
  assert (D : to_sql_dialect dname (NDelete q) = dialect_of dname) by (now apply own_dialect).
  assert (K := proj2 (proj2 (plain_statements_read_back dname)) q). cbv zeta in K. rewrite D in K. exact (K P OK).
Qed.
Print Assumptions fetched_delete_is_read_as_called.
Theorem fetched_insert_is_read_as_called : forall (A : Type) (dname : bytes) (e : option env) (s : insert_start) (cs : list insert_call)
    (ctx : nat) (db : database) (mapper : list A -> prog A) (h : list A) (req : request),
  let asked := asked_insert dname e (ignores s) (first_insert s :: cs) in
  f_sent (fetch ctx (Some db) (Some (NInsert (build_insert dname e s cs))) (Some mapper) h) = Some req ->
  exists columns query args, req = (ctx, query, args) /\
    (exists x r h1, run (mapper h) row_new h = (XDone x, r, h1) /\ columns = map snd (r_cols r)) /\
    let q := mk_insert (iq_dialect asked) (iq_env asked) (iq_mapper asked) (iq_ctes asked) (iq_ignore asked) (iq_into asked)
      (iq_columns asked) (iq_rows asked) (iq_rowalias asked) (iq_colaliases asked) (iq_select asked) (iq_constraint asked)
      (iq_cfields asked) (iq_cpred asked) (iq_nothing asked) (iq_resolution asked) (iq_rpred asked) columns in
    (plain_statement (dialect_of dname) (NInsert q) ->
     received (dialect_of dname) read_insert (insert_found (dialect_of dname) q None) query) /\
    (* with a column mapper: its calls come in rows that begin with the same column *)
    (forall (n0 : bytes) (g : list (node * node)) (gs : list (list (node * node))),
     iq_mapper asked = Some (concat (g :: gs), false) -> Forall (SpecQuery.call_group n0) (g :: gs) ->
     let qm := SpecQuery.with_rows q (map fst g) (map (map snd) (g :: gs)) in
     plain_statement (dialect_of dname) (NInsert qm) ->
     received (dialect_of dname) read_insert (insert_found (dialect_of dname) qm None) query).
Proof.
  intros A dname e s cs ctx db mapper h req asked H.
  destruct (fetch_sends_query A ctx db _ mapper h req H) as (x & r & h1 & q1 & R & SF & OK & ->).
  rewrite insert_as_called in SF, OK |- *. fold asked in SF, OK |- *. cbn [set_fetchable] in SF.
  destruct (returning_dialect _) in SF; [|discriminate SF]. injection SF as <-.
  change (get_dialect (NInsert asked)) with dname in *.
  exists (map snd (r_cols r)). eexists. eexists. split; [reflexivity|]. split; [exists x, r, h1; split; [exact R|reflexivity]|].
  intros q. fold q in OK |- *.
  assert (D : to_sql_dialect dname (NInsert q) = dialect_of dname) by (now apply own_dialect).
  split.
  - intros P. assert (K := plain_inserts_read_back dname q). cbv zeta in K. rewrite D in K. exact (K P OK).
  - intros n0 g gs M G qm P. assert (MQ : iq_mapper q = Some (concat (g :: gs), false)) by exact M.
    assert (DQ : to_sql_dialect dname (NInsert qm) = dialect_of dname).
    { unfold to_sql_dialect in D |- *. exact D. }
    assert (E : to_sql dname (NInsert q) = to_sql dname (NInsert qm)).
    { unfold to_sql. rewrite D, DQ. unfold append_sql.
      rewrite (PropertiesQuery.mapper_inserts_groups (dialect_of dname) q (RenderModel.ctx None []) n0 g gs MQ G). reflexivity. }
    assert (OK1 : BuildModel.r_status (to_sql dname (NInsert qm)) = SOk) by (rewrite <- E; exact OK). assert (K := plain_inserts_read_back dname qm). cbv zeta in K. rewrite DQ in K.
    specialize (K P OK1). rewrite <- E in K. exact K.
Qed.
Print Assumptions fetched_insert_is_read_as_called.

(** FetchExists of a SELECT made by any calls: SELECT EXISTS and, in parentheses,
    the statement the calls ask for; without output columns it gets the literal 1. *)
Lemma exists_sent : forall ctx db q req, e_sent (fetch_exists ctx (Some db) (Some (NSelect q))) = Some req ->
  let q1 := match sq_fields q with
            | [] => mk_select (sq_dialect q) (sq_env q) (sq_ctes q) (sq_distinct q) [NLiteral (B "1") []] (sq_distinct_on q)
                      (sq_from q) (sq_joins q) (sq_where q) (sq_group q) (sq_having q) (sq_order q) (sq_limit q) (sq_offset q)
            | _ => q
            end in
  BuildModel.r_status (to_sql (sq_dialect q) (NSelect q1)) = SOk /\
  req = (ctx, B "SELECT EXISTS (" ++ r_query (to_sql (sq_dialect q) (NSelect q1)) ++ B ")", r_args (to_sql (sq_dialect q) (NSelect q1))).
Proof.
  intros ctx db q req H q1. unfold fetch_exists in H. cbn [fetchable] in H.
  assert (E : match sq_fields q with [] => set_fetchable (NSelect q) [NLiteral (B "1") []] | _ => Some (NSelect q) end = Some (NSelect q1)).
  { unfold q1. destruct (sq_fields q); reflexivity. }
  rewrite E in H. change (get_dialect (NSelect q)) with (sq_dialect q) in H. clearbody q1.
  destruct (BuildModel.r_status (to_sql (sq_dialect q) (NSelect q1))); try discriminate H. split; [reflexivity|].
  destruct (db _) as [x|rows close iter]; [now injection H|].
  destruct rows as [|r rows]; [now injection H|]. destruct (scan_bool r); now injection H.
Qed.
Theorem select_exists_is_read_as_called : forall (dname : bytes) (e : option env) (s : select_start) (cs : list select_call)
    (ctx : nat) (db : database) (req : request),
  let asked := asked_select dname e (first_select s :: cs) in
  e_sent (fetch_exists ctx (Some db) (Some (NSelect (build_select dname e s cs)))) = Some req ->
  let columns := match sq_fields asked with [] => [NLiteral (B "1") []] | fs => fs end in
  let q := mk_select (sq_dialect asked) (sq_env asked) (sq_ctes asked) (sq_distinct asked) columns (sq_distinct_on asked)
      (sq_from asked) (sq_joins asked) (sq_where asked) (sq_group asked) (sq_having asked) (sq_order asked) (sq_limit asked)
      (sq_offset asked) in
  exists query args, req = (ctx, query, args) /\
    (plain_statement (dialect_of dname) (NSelect q) ->
     exists ts r, tokens (dialect_of dname) query = Some ([TWord (B "SELECT"); TWord (B "EXISTS"); TSym "("] ++ ts ++ [TSym ")"]) /\
       read_select ts = Some r /\ select_found (dialect_of dname) q None r).
Proof.
  intros dname e s cs ctx db req asked H columns q. rewrite select_as_called in H. fold asked in H.
  apply exists_sent in H. cbv zeta in H. change (sq_dialect asked) with dname in H.
  set (q1 := match sq_fields asked with [] => _ | _ => asked end) in H.
  assert (E : q1 = q). { unfold q1, q, columns. destruct (sq_fields asked) eqn:F; [reflexivity|]. rewrite <- F. now destruct asked. }
  clearbody q1. subst q1. destruct H as [OK ->]. do 2 eexists. split; [reflexivity|]. intros P.
  assert (D : to_sql_dialect dname (NSelect q) = dialect_of dname) by (now apply own_dialect).
  assert (K := proj1 (plain_statements_read_back dname) q). cbv zeta in K. rewrite D in K.
  destruct (K P OK) as (ts & r & T0 & R & F). exists ts, r. split; [|now split].
  apply (DdlToks.pre_toks _ _ [TWord (B "SELECT"); TWord (B "EXISTS"); TSym "("]).
  - apply (DdlToks.pre_end_sym _ (B "SELECT EXISTS (") [TWord (B "SELECT"); TWord (B "EXISTS")] "("); [discriminate| |reflexivity|cbn; tauto].
    destruct (dialect_of dname); vm_compute; reflexivity.
  - apply SqlFacts.toks_app; [exact T0| |reflexivity]. destruct (dialect_of dname); vm_compute; reflexivity.
Qed.
Print Assumptions select_exists_is_read_as_called.

(** Exec of an UPDATE, DELETE or INSERT made by any calls. *)
Theorem executed_update_is_read_as_called : forall (dname : bytes) (e : option env) (s : update_start) (cs : list update_call)
    (ctx : nat) (db : request -> exec_response) (req : request),
  let asked := asked_update dname e (first_update s :: cs) in
  plain_statement (dialect_of dname) (NUpdate asked) ->
  x_sent (exec_query ctx (Some db) (Some (NUpdate (build_update dname e s cs)))) = Some req ->
  exists query args, req = (ctx, query, args) /\
    received (dialect_of dname) read_update (update_found (dialect_of dname) asked None) query.
Proof.
  intros dname e s cs ctx db req asked P H. rewrite update_as_called in H. fold asked in H.
  apply exec_sent in H. change (get_dialect (NUpdate asked)) with dname in H. destruct H as [OK ->].
  do 2 eexists. split; [reflexivity|].
  assert (D : to_sql_dialect dname (NUpdate asked) = dialect_of dname) by (now apply own_dialect).
  assert (K := proj1 (proj2 (plain_statements_read_back dname)) asked). cbv zeta in K. rewrite D in K. exact (K P OK).
Qed.
Print Assumptions executed_update_is_read_as_called.
Theorem executed_delete_is_read_as_called : forall (dname : bytes) (e : option env) (s : delete_start) (cs : list delete_call)
    (ctx : nat) (db : request -> exec_response) (req : request),
  let asked := asked_delete dname e (first_delete s :: cs) in
  plain_statement (dialect_of dname) (NDelete asked) ->
  x_sent (exec_query ctx (Some db) (Some (NDelete (build_delete dname e s cs)))) = Some req ->
  exists query args, req = (ctx, query, args) /\
    received (dialect_of dname) read_delete (delete_found (dialect_of dname) asked None) query.
Proof.
  intros dname e s cs ctx db req asked P H. rewrite delete_as_called in H. fold asked in H.
  apply exec_sent in H. change (get_dialect (NDelete asked)) with dname in H. destruct H as [OK ->].
  do 2 eexists. split; [reflexivity|].
  assert (D : to_sql_dialect dname (NDelete asked) = dialect_of dname) by (now apply own_dialect).
  assert (K := proj2 (proj2 (plain_statements_read_back dname)) asked). cbv zeta in K. rewrite D in K. exact (K P OK).
Qed.
Print Assumptions executed_delete_is_read_as_called.
Theorem executed_insert_is_read_as_called : forall (dname : bytes) (e : option env) (s : insert_start) (cs : list insert_call)
    (ctx : nat) (db : request -> exec_response) (req : request),
  let asked := asked_insert dname e (ignores s) (first_insert s :: cs) in
  x_sent (exec_query ctx (Some db) (Some (NInsert (build_insert dname e s cs)))) = Some req ->
  exists query args, req = (ctx, query, args) /\
    (plain_statement (dialect_of dname) (NInsert asked) ->
     received (dialect_of dname) read_insert (insert_found (dialect_of dname) asked None) query) /\
    (* with a column mapper: its calls come in rows that begin with the same column *)
    (forall (n0 : bytes) (g : list (node * node)) (gs : list (list (node * node))),
     iq_mapper asked = Some (concat (g :: gs), false) -> Forall (SpecQuery.call_group n0) (g :: gs) ->
     let q := SpecQuery.with_rows asked (map fst g) (map (map snd) (g :: gs)) in
     plain_statement (dialect_of dname) (NInsert q) ->
     received (dialect_of dname) read_insert (insert_found (dialect_of dname) q None) query).
Proof.
  intros dname e s cs ctx db req asked H. rewrite insert_as_called in H. fold asked in H.
  apply exec_sent in H. change (get_dialect (NInsert asked)) with dname in H. destruct H as [OK ->].
  do 2 eexists. split; [reflexivity|].
  assert (D : to_sql_dialect dname (NInsert asked) = dialect_of dname) by (now apply own_dialect).
  split.
  - intros P. assert (K := plain_inserts_read_back dname asked). cbv zeta in K. rewrite D in K. exact (K P OK).
  - intros n0 g gs M G q P.
    assert (DQ : to_sql_dialect dname (NInsert q) = dialect_of dname) by (now apply own_dialect).
    assert (E : to_sql dname (NInsert asked) = to_sql dname (NInsert q)).
    { unfold to_sql. rewrite D, DQ. unfold append_sql.
      rewrite (PropertiesQuery.mapper_inserts_groups (dialect_of dname) asked (RenderModel.ctx None []) n0 g gs M G). reflexivity. }
    rewrite E in OK |- *. assert (K := plain_inserts_read_back dname q). cbv zeta in K. rewrite DQ in K. exact (K P OK).
Qed.
Print Assumptions executed_insert_is_read_as_called.

(** *** Concrete calls *)
Definition ex_columns : list Z -> prog Z :=
  fun _ => PGet KInt64 (fld (B "u") (B "id")) (fun _ => PGet KString (fld (B "u") (B "name, FROM")) (fun _ => PEnd None)).
Definition ex_start : select_start := StFrom (Some (tbl (B "users") (B "u"))).
Definition ex_calls : list select_call :=
  [SLimit 3%Z; SWhere [in_list]; SOrderBy [fld (B "u") (B "id")]; SWhere [in_query]; SLimit 5%Z].
Definition ex_fetch : option request :=
  f_sent (fetch 7 (Some (fun _ => QFail 0)) (Some (NSelect (build_select (B "postgres") None ex_start ex_calls))) (Some ex_columns) []).
Example fetch_sends :
  ex_fetch = Some (7, B "SELECT u.id, u.""name, FROM"" FROM users AS u WHERE u.id IN ($1, $2) AND (u.id, $3) IN (SELECT id FROM posts) ORDER BY u.id LIMIT $4",
    [GInt 1; GString (B ", FROM x"); GInt 3; GInt 5]%Z).
Proof. vm_compute. reflexivity. Qed.
Example fetch_is_plain :
  let asked := asked_select (B "postgres") None (first_select ex_start :: ex_calls) in
  plain_statement DPostgres (NSelect (mk_select (sq_dialect asked) (sq_env asked) (sq_ctes asked) (sq_distinct asked)
    [fld (B "u") (B "id"); fld (B "u") (B "name, FROM")] (sq_distinct_on asked)
    (sq_from asked) (sq_joins asked) (sq_where asked) (sq_group asked) (sq_having asked) (sq_order asked) (sq_limit asked)
    (sq_offset asked))).
Proof.
  intros asked. apply S_select; cbn [sq_ctes sq_distinct_on sq_fields sq_from sq_joins sq_where sq_group sq_having sq_order].
  - intros c [].
  - intros c b [].
  - intros f [<-|[<-|[<-|[]]]]; pfld.
  - intros f [<-|[<-|[]]]; left; reflexivity.
  - intros t [E|[]]. injection E as <-. apply T_table; [left; reflexivity|pname].
  - intros t [E|[]]. injection E as <-. right. pname.
  - intros j [].
  - intros j [].
  - intros e p [].
  - intros _. apply L_many; [unfold asked; cbn; auto|]. intros p [<-|[<-|[]]]; [exact in_list_plain|exact in_query_plain].
  - intros NE. now contradiction NE.
Qed.
(** FetchExists of the same calls: the SELECT has no output columns, so it asks for 1. *)
Example exists_sends :
  e_sent (fetch_exists 7 (Some (fun _ => QFail 0)) (Some (NSelect (build_select (B "postgres") None ex_start ex_calls)))) =
  Some (7, B "SELECT EXISTS (SELECT 1 FROM users AS u WHERE u.id IN ($1, $2) AND (u.id, $3) IN (SELECT id FROM posts) ORDER BY u.id LIMIT $4)",
    [GInt 1; GString (B ", FROM x"); GInt 3; GInt 5]%Z).
Proof. vm_compute. reflexivity. Qed.
(** Exec and Fetch of an UPDATE: the assignment, the condition and, for Fetch, the mapper's columns. *)
Definition ex_update_calls : list update_call := [UWhere [in_list]; USet [(bare (B "name"), NRaw (GString (B "x")))]].
Definition ex_updated : update_ node := build_update (B "postgres") None (StUpdate (Some (tbl (B "users") (B "u")))) ex_update_calls.
Example update_sends :
  x_sent (exec_query 7 (Some (fun _ => XFail 0)) (Some (NUpdate ex_updated))) =
    Some (7, B "UPDATE users AS u SET name = $1 WHERE u.id IN ($2, $3)", [GString (B "x"); GInt 1; GString (B ", FROM x")]%Z) /\
  f_sent (fetch 7 (Some (fun _ => QFail 0)) (Some (NUpdate ex_updated)) (Some ex_columns) []) =
    Some (7, B "UPDATE users AS u SET name = $1 WHERE u.id IN ($2, $3) RETURNING u.id, u.""name, FROM""",
      [GString (B "x"); GInt 1; GString (B ", FROM x")]%Z).
Proof. split; vm_compute; reflexivity. Qed.
