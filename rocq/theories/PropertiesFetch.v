(** * Fetch, FetchExists, Exec: C26, C27, C43.  See SpecFetch. *)
From Verif Require Import GoBase QuoteModel SprintModel TokenModel EffectModel RenderModel BuildModel FetchModel
  SpecFetch SpecQuery FetchPf PropertiesClauses PropertiesQuery.

(** ** C26: every row once, in order *)
(** For any mapper at all, once the query is answered: its calls are those of
    [visits], with one fresh row per call. *)
Theorem fetch_visits_rows : forall (A : Type) (ctx : nat) (db : database) (q q1 : node) (mapper : list A -> prog A)
    (h h1 : list A) (x : option gerr) (r : row),
  run (mapper h) row_new h = (XDone x, r, h1) -> r_closed r = false -> r_cols r <> [] ->
  set_fetchable q (map snd (r_cols r)) = Some q1 ->
  let out := to_sql (get_dialect q) q1 in BuildModel.r_status out = SOk ->
  forall rows close iter, db (ctx, r_query out, r_args out) = QRows rows close iter ->
  exists n o h2, visits (dialect_of (get_dialect q)) mapper (r_cols r) rows h1 n o h2 /\
    fetch ctx (Some db) (Some q) (Some mapper) h =
      mk_fetched n (reported o close iter) (match o with Panicked => true | _ => false end) h2
        (Some (ctx, r_query out, r_args out)).
Proof. intros. eapply fetch_visits_pf; eauto. Qed.
Print Assumptions fetch_visits_rows.
Theorem visits_determined : forall (A : Type) (dl : dialect) (mapper : list A -> prog A) cols rows h n o h' n2 o2 h2,
  visits dl mapper cols rows h n o h' -> visits dl mapper cols rows h n2 o2 h2 -> n2 = n /\ o2 = o /\ h2 = h'.
Proof. intros. eapply visits_fun; eauto. Qed.
Print Assumptions visits_determined.
Theorem visits_all_or_stops : forall (A : Type) (dl : dialect) (mapper : list A -> prog A) cols rows h n o h',
  visits dl mapper cols rows h n o h' -> n <= length rows /\ (o = Finished -> n = length rows).
Proof. intros. eapply visits_bound; eauto. Qed.
Print Assumptions visits_all_or_stops.

(** An ordinary mapper that goes on after each row gets all of them in order,
    with the values in the order in which it asked for the columns; nothing is
    done outside its calls. *)
Theorem fetch_maps_all_rows : forall (A : Type) (ctx : nat) (db : database) (q q1 : node) (m : mapping A) (h : list A),
  m_cols m <> [] -> set_fetchable q (map snd (m_cols m)) = Some q1 ->
  let out := to_sql (get_dialect q) q1 in BuildModel.r_status out = SOk ->
  forall rows vals close iter, db (ctx, r_query out, r_args out) = QRows rows close iter ->
  scans (m_cols m) rows vals -> all_continue m h vals ->
  fetch ctx (Some db) (Some q) (Some (mapper_of m)) h =
    mk_fetched (length rows) (reported Finished close iter) false (after m h vals)
      (Some (ctx, r_query out, r_args out)).
Proof. intros. eapply fetch_all_pf; eauto. Qed.
Print Assumptions fetch_maps_all_rows.
(** A mapper that closes the row is not called again. *)
Theorem fetch_stops_when_closed : forall (A : Type) (ctx : nat) (db : database) (q q1 : node) (m : mapping A) (h : list A),
  m_cols m <> [] -> set_fetchable q (map snd (m_cols m)) = Some q1 ->
  let out := to_sql (get_dialect q) q1 in BuildModel.r_status out = SOk ->
  forall pre vals d vs rest close iter, db (ctx, r_query out, r_args out) = QRows (pre ++ d :: rest) close iter ->
  scans (m_cols m) pre vals -> all_continue m h vals ->
  scan d (m_cols m) = inr vs -> snd (m_body m (after m h vals) vs) = Stop ->
  fetch ctx (Some db) (Some q) (Some (mapper_of m)) h =
    mk_fetched (length pre + 1) (reported Finished close iter) false
      (after m h vals ++ fst (m_body m (after m h vals) vs)) (Some (ctx, r_query out, r_args out)).
Proof. intros. eapply fetch_stop_pf; eauto. Qed.
Print Assumptions fetch_stops_when_closed.

(** ** C27: errors *)
Theorem fetch_returns_mapper_error : forall (A : Type) (ctx : nat) (db : database) (q q1 : node) (m : mapping A) (h : list A),
  m_cols m <> [] -> set_fetchable q (map snd (m_cols m)) = Some q1 ->
  let out := to_sql (get_dialect q) q1 in BuildModel.r_status out = SOk ->
  forall pre vals d vs e rest close iter, db (ctx, r_query out, r_args out) = QRows (pre ++ d :: rest) close iter ->
  scans (m_cols m) pre vals -> all_continue m h vals ->
  scan d (m_cols m) = inr vs -> snd (m_body m (after m h vals) vs) = Fail e ->
  fetch ctx (Some db) (Some q) (Some (mapper_of m)) h =
    mk_fetched (length pre + 1) (Some e) false
      (after m h vals ++ fst (m_body m (after m h vals) vs)) (Some (ctx, r_query out, r_args out)).
Proof. intros. eapply fetch_fail_pf; eauto. Qed.
Print Assumptions fetch_returns_mapper_error.
Theorem fetch_returns_scan_error : forall (A : Type) (ctx : nat) (db : database) (q q1 : node) (m : mapping A) (h : list A),
  m_cols m <> [] -> set_fetchable q (map snd (m_cols m)) = Some q1 ->
  let out := to_sql (get_dialect q) q1 in BuildModel.r_status out = SOk ->
  forall pre vals d e rest close iter, db (ctx, r_query out, r_args out) = QRows (pre ++ d :: rest) close iter ->
  scans (m_cols m) pre vals -> all_continue m h vals -> scan d (m_cols m) = inl e ->
  (forall c, In c (m_cols m) -> can_show (dialect_of (get_dialect q)) (snd c)) ->
  fetch ctx (Some db) (Some q) (Some (mapper_of m)) h =
    mk_fetched (length pre + 1) (Some e) false (after m h vals) (Some (ctx, r_query out, r_args out)).
Proof. intros. eapply fetch_scan_pf; eauto. Qed.
Print Assumptions fetch_returns_scan_error.
(** An error of rows.Close() or rows.Err() is returned although all rows were
    mapped (see [reported]). *)

(** Example: two columns; the mapper keeps the first of each row, fails on
    100 and closes on 7. *)
Definition ex_mapping : mapping Z :=
  mk_mapping [(KInt64, fld (B "t") (B "a")); (KString, fld (B "t") (B "b"))]
    (fun h vs => match vs with
                 | [GNullInt true z; _] => if Z.eqb z 100 then ([], Fail (EUser 3))
                                  else ([z], if Z.eqb z 7 then Stop else Continue)
                 | _ => ([], Fail ERuntime)
                 end).
Definition good (z : Z) : dbrow := fun ks => inr [GNullInt true z; GNullString true (B "x")].
Definition bad_row : dbrow := fun ks => inl 9.
Definition ex_query : node :=
  NSelect (mk_select (B "postgres") None [] false [] [] (Some (tbl (B "t") [])) [] no_pred [] no_pred [] None None).
Definition ex_db (rows : list dbrow) : database :=
  fun req => match req with (0, sql, []) => if beqb sql (B "SELECT t.a, t.b FROM t") then QRows rows None None else QFail 1
                       | _ => QFail 2 end.
Definition ex_sent : request := (0, B "SELECT t.a, t.b FROM t", []).
Example fetch_example :
  let run rows := fetch 0 (Some (ex_db rows)) (Some ex_query) (Some (mapper_of ex_mapping)) [] in
  run [good 1; good 2; good 3] = mk_fetched 3 None false [1; 2; 3]%Z (Some ex_sent) /\
  run [good 1; good 7; good 3] = mk_fetched 2 None false [1; 7]%Z (Some ex_sent) /\
  run [good 1; good 100; good 3] = mk_fetched 2 (Some (EUser 3)) false [1]%Z (Some ex_sent) /\
  run [good 1; good 2; bad_row; good 3] = mk_fetched 3 (Some (EScan 9)) false [1; 2]%Z (Some ex_sent) /\
  scans (m_cols ex_mapping) [good 1; good 2] [[GNullInt true 1; GNullString true (B "x")]; [GNullInt true 2; GNullString true (B "x")]] /\
  all_continue ex_mapping [] [[GNullInt true 1; GNullString true (B "x")]; [GNullInt true 2; GNullString true (B "x")]] /\
  (forall c, In c (m_cols ex_mapping) -> can_show DPostgres (snd c)).
Proof.
  split; [vm_compute; reflexivity|]. split; [vm_compute; reflexivity|]. split; [vm_compute; reflexivity|].
  split; [vm_compute; reflexivity|]. split; [repeat constructor|]. split; [repeat split|].
  intros c [<-|[<-|[]]]; (split; [vm_compute; discriminate|intros _; vm_compute; discriminate]).
Qed.

(** Finding: an error of Scan is lost if a field has an argument that cannot be
    shown, for example a nil pointer whose type implements driver.Valuer (which
    database/sql sends as NULL): the function that adds the fields to the error
    panics, and Fetch returns the run-time error. *)
Theorem scan_error_lost_refuted :
  let m : mapping Z := mk_mapping [(KBool, NPred [] (B "t.a = {}") [NRaw (GNilPtr true)] false)] (fun _ _ => ([], Continue)) in
  let db := fun req => match req with (0, sql, [GNilPtr true]) => if beqb sql (B "SELECT t.a = $1 FROM t") then QRows [bad_row] None None else QFail 1 | _ => QFail 2 end in
  let r := fetch 0 (Some db) (Some ex_query) (Some (mapper_of m)) [] in
  f_count r = 1 /\ f_err r = Some ERuntime /\ ~ can_show DPostgres (snd (hd (KInt64, NRaw GNil) (m_cols m))).
Proof.
  split; [vm_compute; reflexivity|]. split; [vm_compute; reflexivity|].
  intros [_ H]. revert H. vm_compute. intros H. now apply H.
Qed.
Print Assumptions scan_error_lost_refuted.

(** Finding: a mapper that calls row.Close() outside Process when a column is
    NULL is called for the first row only, although no row has NULL there: the
    call that collects the fields sees zero values, and the row stays closed. *)
Theorem passive_close_refuted :
  let m := fun _ : list Z => PGet KInt64 (fld (B "t") (B "a")) (fun v =>
             PGet KString (fld (B "t") (B "b")) (fun _ =>
             match v with
             | GNullInt true z => PProcess false (PDo z (PEnd None)) (fun _ => PEnd None)
             | _ => PClose (PEnd None)
             end)) in
  fetch 0 (Some (ex_db [good 1; good 2; good 3])) (Some ex_query) (Some m) []
    = mk_fetched 1 None false [1%Z] (Some ex_sent).
Proof. vm_compute. reflexivity. Qed.
Print Assumptions passive_close_refuted.
(** Finding: a mapper that asks for no column is never called for a row and the
    count is 0, whatever the database returns. *)
Theorem no_columns_refuted : forall (A : Type) ctx (db : database) q (a : A) h,
  let r := fetch ctx (Some db) (Some q) (Some (fun _ => PProcess false (PDo a (PEnd None)) (fun _ => PEnd None))) h in
  f_count r = 0 /\ f_hist r = h.
Proof.
  intros. subst r. unfold fetch. cbn [run row_new r_active r_processed negb orb].
  change (r_cols row_new) with (@nil (kind * node)). cbn [map].
  destruct (set_fetchable q []); [|split; reflexivity].
  destruct (BuildModel.r_status _); [|split; reflexivity..].
  destruct (db _); split; reflexivity.
Qed.
Print Assumptions no_columns_refuted.
(** Finding: the error of a ProcessErr nested in another ProcessErr is lost. *)
Theorem nested_error_refuted :
  let m := fun _ : list Z => PGet KInt64 (fld (B "t") (B "a")) (fun v => PGet KString (fld (B "t") (B "b")) (fun _ =>
             PProcess true (PProcess true (PEnd (Some (EUser 5))) (fun _ => PEnd None)) (fun _ => PEnd None))) in
  fetch 0 (Some (ex_db [good 1; good 2])) (Some ex_query) (Some m) [] = mk_fetched 2 None false [] (Some ex_sent).
Proof. vm_compute. reflexivity. Qed.
Print Assumptions nested_error_refuted.

(** ** C43: what is sent *)
(** Fetch sends exactly the SQL and arguments of the query with the requested
    columns, under the given context, or nothing. *)
Theorem fetch_sends_query : forall (A : Type) (ctx : nat) (db : database) (q : node) (mapper : list A -> prog A)
    (h : list A) (req : request),
  f_sent (fetch ctx (Some db) (Some q) (Some mapper) h) = Some req ->
  exists x r h1 q1, run (mapper h) row_new h = (XDone x, r, h1) /\
    set_fetchable q (map snd (r_cols r)) = Some q1 /\
    BuildModel.r_status (to_sql (get_dialect q) q1) = SOk /\
    req = (ctx, r_query (to_sql (get_dialect q) q1), r_args (to_sql (get_dialect q) q1)).
Proof. intros. eapply fetch_nothing_sent; eauto. Qed.
Print Assumptions fetch_sends_query.
(** The query with the requested columns is the query with its output columns
    replaced, and nothing else: putting the old columns back restores it. *)
Theorem requested_columns : forall (q q1 : node) (fs fs0 : list node),
  set_fetchable q fs = Some q1 -> produces q1 fs /\ (produces q fs0 -> set_fetchable q1 fs0 = Some q).
Proof. intros. split; [eapply set_fetchable_produces; eauto|intros; eapply set_fetchable_back; eauto]. Qed.
Print Assumptions requested_columns.
Theorem fetchable_iff : forall (q : node) (fs : list node),
  (exists q1, set_fetchable q fs = Some q1) <-> (exists fs0, produces q fs0) /\ is_setop q = false.
Proof.
  intros q fs. split.
  - intros [q1 E]. split.
    + destruct q; cbn [set_fetchable] in E; try discriminate; try (eexists; constructor; fail).
      all: destruct (returning_dialect _) eqn:D; [|discriminate]; apply returning_dialect_iff in D; eexists; constructor; exact D.
    + destruct q; try reflexivity. discriminate.
  - intros [[fs0 P] H]. eapply set_fetchable_some; eauto.
Qed.
Print Assumptions fetchable_iff.
Theorem exec_sends_query : forall (ctx : nat) (db : request -> exec_response) (q : node) (affected last : Z),
  let out := to_sql (get_dialect q) q in BuildModel.r_status out = SOk ->
  db (ctx, r_query out, r_args out) = XResult (inr affected) (inr last) ->
  exec_query ctx (Some db) (Some q) =
    mk_exec affected (if beqb (get_dialect q) (B "sqlite") || beqb (get_dialect q) (B "mysql") then last else 0%Z)
      None false (Some (ctx, r_query out, r_args out)).
Proof. exact exec_sends_pf. Qed.
Print Assumptions exec_sends_query.
(** A query that does not render is not executed. *)
Theorem exec_sends_nothing : forall (ctx : nat) (db : request -> exec_response) (q : node),
  BuildModel.r_status (to_sql (get_dialect q) q) <> SOk -> x_sent (exec_query ctx (Some db) (Some q)) = None.
Proof. exact exec_not_sent. Qed.
Print Assumptions exec_sends_nothing.
(** FetchExists asks whether the query (with column 1 if it has none) has rows
    and returns the database's answer. *)
Theorem exists_sends_query : forall (ctx : nat) (db : database) (q q1 : node) (fs : list node),
  produces q fs -> (fs <> [] -> q1 = q) -> (fs = [] -> set_fetchable q [NLiteral (B "1") []] = Some q1) ->
  let out := to_sql (get_dialect q) q1 in BuildModel.r_status out = SOk ->
  forall r rows b, db (ctx, B "SELECT EXISTS (" ++ r_query out ++ B ")", r_args out) = QRows (r :: rows) None None ->
  scan r [(KBool, NRaw GNil)] = inr [GBool b] ->
  fetch_exists ctx (Some db) (Some q) =
    mk_exists b None false (Some (ctx, B "SELECT EXISTS (" ++ r_query out ++ B ")", r_args out)).
Proof. exact exists_pf. Qed.
Print Assumptions exists_sends_query.
Definition yes_db : database := fun _ => QRows [fun _ => inr [GBool true]] None None.
Example exists_example :
  fetch_exists 4 (Some yes_db) (Some ex_query) = mk_exists true None false (Some (4, B "SELECT EXISTS (SELECT 1 FROM t)", [])).
Proof. vm_compute. reflexivity. Qed.
(** It says true only if the database answered with a row that says true. *)
Theorem exists_true_is_certain : forall ctx db q, e_exists (fetch_exists ctx db q) = true ->
  exists d req r rows close iter, db = Some d /\ e_sent (fetch_exists ctx db q) = Some req /\ d req = QRows (r :: rows) close iter /\
    scan r [(KBool, NRaw GNil)] = inr [GBool true].
Proof.
  intros ctx db q. unfold fetch_exists. destruct db as [d|]; [|discriminate]. destruct q as [q|]; [|discriminate].
  destruct (fetchable q); try discriminate.
  match goal with |- context [match ?o with Some q1 => _ | None => _ end] => destruct o as [q1|] eqn:Q end; [|discriminate]. cbv zeta.
  destruct (BuildModel.r_status (to_sql (get_dialect q) q1)); try discriminate.
  match goal with |- context [d ?x] => set (req := x) end. destruct (d req) as [e|rows close iter] eqn:D; [discriminate|].
  destruct rows as [|r rows]; [discriminate|]. unfold scan_bool. destruct (scan r [(KBool, NRaw GNil)]) as [e|vs] eqn:X; [discriminate|].
  destruct vs as [|v vs]; [discriminate|]. destruct v; try discriminate. destruct vs; [|discriminate]. cbn [e_exists e_sent]. intros ->.
  exists d, req, r, rows, close, iter. auto.
Qed.
Print Assumptions exists_true_is_certain.
(** Finding: FetchExistsContext drops the caller's context. *)
Theorem exists_context_refuted : forall db q,
  fetch_exists_ctx 4 db q = fetch_exists_ctx 0 db q /\
  e_sent (fetch_exists_ctx 4 (Some yes_db) (Some ex_query)) = Some (0, B "SELECT EXISTS (SELECT 1 FROM t)", []).
Proof. split; reflexivity. Qed.
Print Assumptions exists_context_refuted.
(** Finding: a query whose format panics makes Fetch return an error, but
    FetchExists and Exec panic. *)
Theorem exists_panics_refuted :
  let q := NSelect (mk_select (B "postgres") None [] false [NPred [] (B "{") [] false] [] None [] no_pred [] no_pred [] None None) in
  e_panic (fetch_exists 0 (Some yes_db) (Some q)) = true /\
  x_panic (exec_query 0 (Some (fun _ => XFail 0)) (Some q)) = true.
Proof. split; vm_compute; reflexivity. Qed.
Print Assumptions exists_panics_refuted.
