(** * LogModel: logger.go, and logging in Fetch, FetchExists and Exec *)
From Verif Require Import GoBase QuoteModel SprintModel TokenModel EffectModel RenderModel BuildModel FetchModel.

Definition nl : bytes := [chr 10].
Definition bad (e : bytes) : bytes := B "%!(error=" ++ e ++ B ")".

(** What Go's library and the machine provide: the text of an error, fmt.Sprint
    and fmt.Sprintf("%#v") of the arguments, time.Duration.String, filepath.Base,
    the caller (sq.go:253-264: file, line, function) and the time a query takes. *)
Record host := mk_host {
  h_err : gerr -> bytes; h_sprint : list gval -> bytes; h_syntax : list gval -> bytes;
  h_duration : N -> bytes; h_base : bytes -> bytes; h_caller : bytes * Z * bytes; h_took : N }.

(** logger.go:53-74 [QueryStats], without Env. *)
Record qstats := mk_stats {
  qs_dialect : bytes; qs_type : bytes; qs_table : bytes * bytes; qs_query : bytes; qs_args : list gval;
  qs_err : option gerr; qs_count : option nat; qs_affected : option Z; qs_lastid : option Z;
  qs_exists : option bool; qs_took : N; qs_results : bytes; qs_caller : option (bytes * Z * bytes) }.

(** logger.go:18-25: the flags, [1 << iota]. *)
Definition l_interpolate (f : N) : bool := N.testbit f 0.
Definition l_verbose (f : N) : bool := N.testbit f 1.
Definition l_caller (f : N) : bool := N.testbit f 2.
Definition l_color (f : N) : bool := N.testbit f 3.
Definition l_time (f : N) : bool := N.testbit f 4.
Definition l_async (f : N) : bool := N.testbit f 5.

(** logger.go:76-81 [LogSettings] and 127-134 [GetLogSettings]. *)
Record settings := mk_settings { ls_limit : Z; ls_caller : bool; ls_async : bool; ls_time : bool }.
Definition get_settings (flags : N) (limit : Z) : settings :=
  mk_settings limit (l_caller flags) (l_async flags) (l_time flags).
(** logger.go:114-125: [Log], [VerboseLog]. *)
Definition default_flags : N := 29%N.
Definition verbose_flags : N := 30%N.

(** fmt.go:193-333: what Sprintf returns besides its error.  The text written
    before the step that fails. *)
Fixpoint scan_upto (d : dialect) (args : list gval) (named : list (bytes * nat))
    (st : SprintModel.scan) (rs : list (nat * rune * bytes)) : SprintModel.scan :=
  match rs with
  | [] => st
  | x :: rs' => match scan_step d args named st x with Ok st' => scan_upto d args named st' rs' | _ => st end
  end.
Definition sprintf_partial (d : dialect) (query : bytes) (args : list gval) : bytes :=
  let named := named_args_lookup args in
  let st := scan_upto d args named scan_init (range_string query) in
  match scan_loop d args named scan_init (range_string query) with
  | Ok st =>
    if negb (nullb (sc_pname st)) then
      match lookup_param d args (sc_pname st) named (sc_running st) with Ok v => sc_buf st ++ v | _ => sc_buf st end
    else sc_buf st
  | _ => sc_buf st
  end.
(** logger.go:162-166, 195-199: the query with its arguments; [None]: a panic.
    Simplification: the texts of Sprintf's errors are those of the model. *)
Definition interpolated (d : dialect) (query : bytes) (args : list gval) : option bytes :=
  match sprintf d query args with
  | Ok t => Some t
  | Err e => Some (sprintf_partial d query args ++ B " " ++ e)
  | Panic => None
  end.

(** logger.go:27-51 (not on Windows). *)
Definition esc (code : bytes) : bytes := chr 27 :: B "[" ++ code ++ B "m".
Definition paint (flags : N) (code : bytes) : bytes := if l_color flags then esc code else [].
(** logger.go:155-159. *)
Definition log_verdict (flags : N) (s : qstats) : bytes :=
  match qs_err s with
  | None => paint flags (B "32") ++ B "[OK]" ++ paint flags (B "0")
  | Some _ => paint flags (B "31") ++ B "[FAIL]" ++ paint flags (B "0")
  end.
(** logger.go:172-189. *)
Definition log_item (flags : N) (name value : bytes) : bytes :=
  paint flags (B "34") ++ B " " ++ name ++ paint flags (B "0") ++ B "=" ++ value.
Definition log_items (h : host) (flags : N) (s : qstats) : bytes :=
  (if (0 <? qs_took s)%N then log_item flags (B "timeTaken") (h_duration h (qs_took s)) else []) ++
  match qs_exists s with Some b => log_item flags (B "exists") (if b then B "true" else B "false") | None => [] end ++
  match qs_count s with Some n => log_item flags (B "rowCount") (itoa n) | None => [] end ++
  match qs_affected s with Some z => log_item flags (B "rowsAffected") (format_int z) | None => [] end ++
  match qs_lastid s with Some z => log_item flags (B "lastInsertID") (format_int z) | None => [] end ++
  (if l_caller flags then
     let '(file, line, func) := match qs_caller s with Some c => c | None => ([], 0%Z, []) end in
     log_item flags (B "caller") (file ++ B ":" ++ format_int line ++ B ":" ++ h_base h func)
   else []).
(** logger.go:190-203: headings in purple. *)
Definition heading (flags : N) (title : bytes) : bytes := nl ++ paint flags (B "35") ++ title ++ paint flags (B "0").
(** logger.go:136-207 [LogQueryStats]: the line, [None] if it panics.
    [done]: ctx.Done() is closed.  Println's line end and the date that the log
    package puts before a line are left out; the line is written to standard
    output whatever [out] NewLogger got (106-112). *)
Definition log_line (h : host) (flags : N) (done : bool) (s : qstats) : option bytes :=
  if done then Some []
  else
  let d := dialect_of (qs_dialect s) in
  let query :=                                                            (* 160-171 *)
    if l_verbose flags then Some []
    else if l_interpolate flags then
      option_map (fun t => B " " ++ t ++ B " |") (interpolated d (qs_query s) (qs_args s))
    else Some (B " " ++ qs_query s ++ B " " ++ h_sprint h (qs_args s) ++ B " |") in
  let verbose :=
    if l_verbose flags then
      option_map (fun t => heading flags (B "----[ Executing query ]----") ++
        nl ++ qs_query s ++ B " " ++ h_syntax h (qs_args s) ++
        heading flags (B "----[ with bind values ]----") ++ nl ++ t) (interpolated d (qs_query s) (qs_args s))
    else Some [] in
  let results :=
    if is_empty (qs_results s) then []
    else heading flags (B "----[ Fetched result ]----") ++ qs_results s in
  match query, verbose with
  | Some q, Some v => Some (log_verdict flags s ++ q ++ log_items h flags s ++ v ++ results)
  | _, _ => None
  end.

(** ** The statements *)
(** The DB: not a LoggerDB; one whose GetLogSettings returns ErrLoggerUnsupported,
    or another error; one that logs.  [sink]: whether LogQueryStats returns for
    these stats (otherwise it panics with a run-time error). *)
Inductive logging := LNone | LUnsupported | LFails (e : nat) | LLogs (s : settings) (sink : qstats -> bool).
(** sq.Log, sq.VerboseLog and NewLogger on a DB whose context is not done. *)
Definition library_logger (h : host) (flags : N) (limit : Z) : logging :=
  LLogs (get_settings flags limit) (fun s => match log_line h flags false s with Some _ => true | None => false end).

(** fetch.go:58-71, exec.go:42-68: the type of the query and the table it changes. *)
Definition query_type (q : node) : bytes :=
  match q with
  | NSelect _ => B "SELECT" | NInsert _ => B "INSERT" | NUpdate _ => B "UPDATE" | NDelete _ => B "DELETE" | _ => []
  end.
Definition table_names (t : option node) : bytes * bytes :=
  match t with Some (NTable s n _ _) => (s, n) | _ => ([], []) end.
Definition table_modified (q : node) : bytes * bytes :=
  match q with
  | NInsert q => table_names (iq_into q)
  | NUpdate q => table_names (uq_table q)
  | NDelete q => match dq_tables q with t :: _ => table_names t | [] => ([], []) end
  | _ => ([], [])
  end.
Definition caller_info (h : host) (s : settings) : option (bytes * Z * bytes) :=
  if ls_caller s then Some (h_caller h) else None.
Definition time_taken (h : host) (s : settings) : N := if ls_time s then h_took h else 0%N.
(** fetch.go:92-94, 310-312, exec.go:79-81: [err] is the function's result as far
    as it is known when the deferred call runs. *)
Definition logged_query (h : host) (query partial : bytes) (err : option gerr) : bytes :=
  match err with
  | Some e => if is_empty query then partial ++ bad (h_err h e) else query
  | None => query
  end.

(** fetch.go:199-229 [computeFieldNames]; [None]: a panic. *)
Definition field_name (h : host) (d : dialect) (f : node) : option bytes :=
  if negb (is_empty (get_alias f)) then Some (get_alias f)
  else
    let r := append_sql d f None [] st0 in
    match snd r with
    | SErr => Some (bad (h_err h ERender))
    | SPanic => None
    | SOk => match sprintf d (out_text d (st_out (fst r))) (st_args (fst r)) with
             | Ok t => Some t
             | Err e => Some (bad e)
             | Panic => None
             end
    end.
Fixpoint all_some {T} (l : list (option T)) : option (list T) :=
  match l with
  | [] => Some []
  | Some x :: l => option_map (cons x) (all_some l)
  | None :: _ => None
  end.
(** fetch.go:231-246 [accumulateResults]; the destinations are pointers. *)
Definition show_dest (d : dialect) (v : gval) : option bytes :=
  match sprint d (GPtr v) with Ok t => Some t | Err e => Some (bad e) | Panic => None end.
(** What is written, and whether it is all (otherwise: a panic). *)
Fixpoint show_fields (d : dialect) (names : list bytes) (vs : list gval) : bytes * bool :=
  match vs with
  | [] => ([], true)
  | v :: vs =>
    let head := nl ++ hd [] names ++ B ": " in
    match show_dest d v with
    | Some t => let rest := show_fields d (tl names) vs in (head ++ t ++ fst rest, snd rest)
    | None => (head, false)
    end
  end.
Definition row_text (d : dialect) (names : list bytes) (vs : list gval) (n : nat) : bytes * bool :=
  let r := show_fields d names vs in (nl ++ B "----[ Row " ++ itoa n ++ B " ]----" ++ fst r, snd r).

Section FetchLog.
  Context {A : Type}.

  (** fetch.go:127-153 with 137-143.  Returned: the row count, the error, whether
      it panics, the actions, the results text, and the value of [err] that the
      deferred logging sees: a panic leaves it nil. *)
  Fixpoint fetch_rows_l (h : host) (dl : dialect) (limit : Z) (mapper : list A -> prog A) (rows : list dbrow) (r : row)
      (hist : list A) (n : nat) (acc : bytes) : nat * option gerr * bool * list A * bytes * option gerr :=
    match rows with
    | [] => (n, None, false, hist, acc, None)
    | d :: rest =>
      match scan d (r_cols r) with
      | inl e => (S n, Some (decorated dl (r_cols r) e), false, hist, acc, Some e)
      | inr vs =>
        let more :=
          if (0 <? limit)%Z && (Z.of_nat (S n) <=? limit)%Z then
            match all_some (map (fun c => field_name h dl (snd c)) (r_cols r)) with
            | Some names => row_text dl names vs (S n)
            | None => ([], false)
            end
          else ([], true) in
        match more with
        | (more, false) => (S n, Some ERuntime, false, hist, acc ++ more, None)
        | (more, true) =>
          match run (mapper hist) (mk_row (r_active r) 0 (r_cols r) vs (r_err r) false (r_closed r)) hist with
          | (XErr e, _, h1) => (S n, Some e, false, h1, acc ++ more, None)
          | (XPanic, _, h1) => (S n, None, true, h1, acc ++ more, None)
          | (XDone _, r1, h1) =>
            match r_err r1 with
            | Some e => (S n, Some e, false, h1, acc ++ more, Some e)
            | None => if r_closed r1 then (S n, None, false, h1, acc ++ more, None)
                      else fetch_rows_l h dl limit mapper rest r1 h1 (S n) (acc ++ more)
            end
          end
        end
      end
    end.

  (** fetch.go:88-107: the deferred logging, and the recover of 22-32, which runs
      after it.  A panic of a logger that runs in its own goroutine ends the
      program. *)
  Definition deliver (s : settings) (sink : qstats -> bool) (f : fetched_ A) (st : qstats) : fetched_ A * list qstats :=
    (if sink st then f
     else if ls_async s then mk_fetched (f_count f) None true (f_hist f) (f_sent f)
     else mk_fetched (f_count f) (Some ERuntime) false (f_hist f) (f_sent f),
     [st]).

  (** fetch.go:21-166 [fetchContext] with its logging: the result and what
      LogQueryStats is called with. *)
  Definition fetch_l (h : host) (ctx : nat) (db : option database) (lg : logging) (q : option node)
      (mapper : option (list A -> prog A)) (hist : list A) : fetched_ A * list qstats :=
    match db, q, mapper with
    | Some db, Some q, Some mapper =>
      match lg with
      | LFails e => (mk_fetched 0 (Some (EUser e)) false hist None, [])
      | _ =>
        let limit := match lg with LLogs s _ => ls_limit s | _ => 0%Z end in
        let dialect := get_dialect q in
        match run (mapper hist) row_new hist with
        | (XErr e, _, h1) => (mk_fetched 0 (Some e) false h1 None, [])
        | (XPanic, _, h1) => (mk_fetched 0 None true h1 None, [])
        | (XDone _, r, h1) =>
          match set_fetchable q (map snd (r_cols r)) with
          | None => (mk_fetched 0 (Some ENotFetchable) false h1 None, [])
          | Some q1 =>
            let out := to_sql dialect q1 in
            (* [asked]: the query was sent; [err]: what the deferred call sees *)
            let log (f : fetched_ A) (err : option gerr) (asked : bool) (results : bytes) : fetched_ A * list qstats :=
              match lg with
              | LLogs s sink =>
                let rendered := match BuildModel.r_status out with SOk => r_query out | _ => [] end in
                deliver s sink f
                  (mk_stats dialect (query_type q) ([], []) (logged_query h rendered (r_query out) err) (r_args out)
                     err (Some (f_count f)) None None None
                     (if asked then time_taken h s else 0%N)
                     (if (0 <? ls_limit s)%Z then results else []) (caller_info h s))
              | _ => (f, [])
              end in
            match BuildModel.r_status out with
            | SErr => log (mk_fetched 0 (Some ERender) false h1 None) (Some ERender) false []
            | SPanic => log (mk_fetched 0 (Some ERuntime) false h1 None) None false []
            | SOk =>
              let req := (ctx, r_query out, r_args out) in
              match db req with
              | QFail e => log (mk_fetched 0 (Some (EDriver e)) false h1 (Some req)) (Some (EDriver e)) true []
              | QRows rows close iter =>
                match r_cols r with
                | [] => log (mk_fetched 0 None false h1 (Some req)) None true []
                | _ =>
                  match fetch_rows_l h (dialect_of dialect) limit mapper rows
                          (mk_row true (r_index r) (r_cols r) (r_dest r) (r_err r) (r_processed r) (r_closed r)) h1 0 [] with
                  | (n, Some e, p, h2, results, seen) => log (mk_fetched n (Some e) p h2 (Some req)) seen true results
                  | (n, None, true, h2, results, seen) => log (mk_fetched n None true h2 (Some req)) seen true results
                  | (n, None, false, h2, results, _) =>
                    let err := first_some (option_map EClose close) (option_map EIter iter) in
                    let results :=                                        (* 162-164 *)
                      match err with
                      | None => if (0 <? limit)%Z && (limit <? Z.of_nat n)%Z
                                then results ++ nl ++ B "..." ++ nl ++ B "(" ++ format_int (Z.of_nat n - limit) ++ B " more rows)"
                                else results
                      | Some _ => results
                      end in
                    log (mk_fetched n err false h2 (Some req)) err true results
                  end
                end
              end
            end
          end
        end
      end
    | _, _, _ => (mk_fetched 0 (Some ENil) false hist None, [])
    end.
End FetchLog.

(** fetch.go:256-357 [fetchExistsContext] with its logging (no recover). *)
Definition fetch_exists_l (h : host) (ctx : nat) (db : option database) (lg : logging) (q : option node)
  : exists_result * list qstats :=
  match db, q with
  | Some db, Some q =>
    match lg with
    | LFails e => (mk_exists false (Some (EUser e)) false None, [])
    | _ =>
      match fetchable q with
      | FCrash => (mk_exists false None true None, [])
      | FFail => (mk_exists false (Some ENotFetchable) false None, [])
      | FFields fs =>
        match match fs with [] => set_fetchable q [NLiteral (B "1") []] | _ => Some q end with
        | None => (mk_exists false (Some ENotFetchable) false None, [])
        | Some q1 =>
          let out := to_sql (get_dialect q) q1 in
          (* [now]: the value of the result [exists] when the deferred call runs *)
          let log (f : exists_result) (asked : bool) : exists_result * list qstats :=
            match lg with
            | LLogs s sink =>
              let rendered := match BuildModel.r_status out with
                              | SOk => B "SELECT EXISTS (" ++ r_query out ++ B ")" | _ => [] end in
              let st := mk_stats (get_dialect q) (B "SELECT") ([], [])
                          (logged_query h rendered (B "SELECT EXISTS (" ++ r_query out) (e_err f)) (r_args out)
                          (e_err f) None None None (Some (e_exists f))
                          (if asked then time_taken h s else 0%N) [] (caller_info h s) in
              (if sink st then f else mk_exists false None true (e_sent f), [st])
            | _ => (f, [])
            end in
          match BuildModel.r_status out with
          | SErr => log (mk_exists false (Some ERender) false None) false
          | SPanic => log (mk_exists false None true None) false
          | SOk =>
            let req := (ctx, B "SELECT EXISTS (" ++ r_query out ++ B ")", r_args out) in
            match db req with
            | QFail e => log (mk_exists false (Some (EDriver e)) false (Some req)) true
            | QRows rows close iter =>
              let finish b := log (mk_exists b (first_some (option_map EClose close) (option_map EIter iter)) false (Some req)) true in
              match rows with
              | [] => finish false
              | r :: _ => match scan_bool r with
                          | inl e => log (mk_exists false (Some e) false (Some req)) true
                          | inr b => finish b
                          end
              end
            end
          end
        end
      end
    end
  | _, _ => (mk_exists false (Some ENil) false None, [])
  end.

(** exec.go:18-120 [execContext] with its logging (no recover). *)
Definition exec_l (h : host) (ctx : nat) (db : option (request -> exec_response)) (lg : logging) (q : option node)
  : exec_result * list qstats :=
  match db, q with
  | Some db, Some q =>
    match lg with
    | LFails e => (mk_exec 0 0 (Some (EUser e)) false None, [])
    | _ =>
      let out := to_sql (get_dialect q) q in
      let log (f : exec_result) (asked : bool) (affected lastid : option Z) : exec_result * list qstats :=
        match lg with
        | LLogs s sink =>
          let rendered := match BuildModel.r_status out with SOk => r_query out | _ => [] end in
          let st := mk_stats (get_dialect q) (query_type q) (table_modified q)
                      (logged_query h rendered (r_query out) (x_err f)) (r_args out)
                      (x_err f) None affected lastid None
                      (if asked then time_taken h s else 0%N) [] (caller_info h s) in
          (if sink st then f else mk_exec 0 0 None true (x_sent f), [st])
        | _ => (f, [])
        end in
      match BuildModel.r_status out with
      | SErr => log (mk_exec 0 0 (Some ERender) false None) false None None
      | SPanic => log (mk_exec 0 0 None true None) false None None
      | SOk =>
        let req := (ctx, r_query out, r_args out) in
        match db req with
        | XFail e => log (mk_exec 0 0 (Some (EDriver e)) false (Some req)) true None None
        | XResult affected lastid =>
          match affected with
          | inl e => log (mk_exec 0 0 (Some (EResult e)) false (Some req)) true None None
          | inr n =>
            if beqb (get_dialect q) (B "sqlite") || beqb (get_dialect q) (B "mysql") then
              match lastid with
              | inl e => log (mk_exec 0 0 (Some (EResult e)) false (Some req)) true (Some n) None
              | inr l => log (mk_exec n l None false (Some req)) true (Some n) (Some l)
              end
            else log (mk_exec n 0 None false (Some req)) true (Some n) None
          end
        end
      end
    end
  | _, _ => (mk_exec 0 0 (Some ENil) false None, [])
  end.
