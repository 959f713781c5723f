(** * PoolCalls: the functions that use the pools, as programs

    The same functions as in QuoteModel, SprintModel, NameModel, BuildModel and
    LogModel, with the pooled objects where these have local accumulators.  A
    function called at depth [x] uses the variables [x], [x+1], ... for its
    objects and calls others at a greater depth. *)
From Verif Require Import GoBase QuoteModel SprintModel TokenModel EffectModel RenderModel BuildModel NameModel FetchModel LogModel PoolModel.

(** What the library asks the outside: a query or a statement, a line of the log. *)
Inductive question := QQuery (r : request) | QExec (r : request) | QLine (b : bytes).
(** One record for all answers; only the field asked for is looked at. *)
Record answer := mk_answer { an_query : response; an_exec : exec_response }.
(** The goroutines it starts: go logQueryStats(ctx, stats), of the logger with
    these flags. *)
Definition logjob := (host * N * qstats)%type.
Definition prog R := (PoolModel.prog question answer logjob R).

(** ** sq.go:194-217 [EscapeQuote] *)
Fixpoint escape_loop_p (fuel : nat) (q : ascii) (x : nat) (str : bytes) : prog bytes :=
  match index_byte q str with
  | None => Write x str (Read x (fun o => Ret (fst o)))                    (* 215-216 *)
  | Some i =>
    match fuel with
    | 0 => Ret []                                                          (* not reached *)
    | Datatypes.S f =>
      Write x (firstn i str ++ [q; q])                                     (* 207 *)
        (let tail := skipn i str in
         if Nat.ltb 2 (length tail) && beqb (firstn 2 tail) [q; q]
         then escape_loop_p f q x (skipn 2 tail)
         else escape_loop_p f q x (skipn 1 tail))
    end
  end.
Definition escape_p (x : nat) (str : bytes) (q : ascii) : prog bytes :=
  match index_byte q str with
  | None => Ret str                                                        (* 195-198 *)
  | Some _ => pooled x (escape_loop_p (length str) q x str)
  end.

(** sq.go:219-251 [QuoteIdentifier]. *)
Definition quote_identifier_p (x : nat) (d : dialect) (identifier : bytes) : prog bytes :=
  if needs_quoting identifier
  then bind (escape_p x identifier (ident_close d)) (fun e => Ret ([ident_open d] ++ e ++ [ident_close d]))
  else Ret identifier.

(** ddl/introspect.go:77-91 [printList]. *)
Fixpoint print_list_loop_p (x i : nat) (strs : list bytes) : prog unit :=
  match strs with
  | [] => Ret tt
  | s :: rest =>
    Write x (if Nat.ltb 0 i then B ", " else [])
      (bind (escape_p (Datatypes.S x) s "'") (fun e =>
       Write x (B "'" ++ e ++ B "'") (print_list_loop_p x (Datatypes.S i) rest)))
  end.
Definition print_list_p (x : nat) (strs : list bytes) : prog bytes :=
  pooled x (bind (print_list_loop_p x 0 strs) (fun _ => Read x (fun o => Ret (fst o)))).

(** ddl/ddl.go:43-75 [generateName]. *)
Fixpoint name_columns_p (x : nat) (columns : list bytes) (k : prog bytes) : prog bytes :=
  match columns with [] => k | c :: rest => Write x (B "_" ++ underscored c) (name_columns_p x rest k) end.
Definition generate_name_p (x : nat) (ty table : bytes) (columns : list bytes) : prog bytes :=
  pooled x (Write x (underscored table) (name_columns_p x columns (Read x (fun o =>
    let buf := fst o in
    let suffix := name_suffix ty in
    let excess := length buf + length suffix - 63 in
    Ret (if Nat.ltb 0 excess then firstn (length buf - excess) buf ++ suffix else buf ++ suffix))))).

(** ** fmt.go:385-518 [Sprint] *)
(** 403, 464, 491. *)
Definition quote_str_p (x : nat) (s : bytes) : prog (outcome bytes) :=
  bind (escape_p x s "'") (fun e => Ret (Ok (B "'" ++ e ++ B "'"))).
(** 477-496. *)
Definition sprint_driver_value_p (x : nat) (vv : gval) : prog (outcome bytes) :=
  match vv with GString s => quote_str_p x s | _ => Ret (sprint_driver_value vv) end.
Definition sprint_valuer_p (x : nat) (r : option gval) : prog (outcome bytes) :=
  match r with None => Ret (Err (B "error when calling Value()")) | Some vv => sprint_driver_value_p x vv end.
(** Only strings need a buffer. *)
Fixpoint sprint_at_p (x : nat) (deref : bool) (d : dialect) (v : gval) : prog (outcome bytes) :=
  match v with
  | GString s => quote_str_p x s
  | GNamedArg _ v' => sprint_at_p x false d v'
  | GNullString ok s => if ok then quote_str_p x s else Ret (Ok (B "NULL"))
  | GValuer r => sprint_valuer_p x r
  | GPtr w =>
    match valuer_of w with
    | Some r => if deref then sprint_at_p x true d w else sprint_valuer_p x r
    | None => sprint_at_p x true d w
    end
  | _ => Ret (sprint_at deref d v)
  end.
Definition sprint_p (x : nat) (d : dialect) (v : gval) : prog (outcome bytes) := sprint_at_p x false d v.

(** ** fmt.go:193-333 [Sprintf] *)
(** 335-383 [lookupParam]. *)
Definition lookup_param_p (x : nat) (d : dialect) (args : list gval) (pname : list rune)
    (named : list (bytes * nat)) (running : nat) : prog (outcome bytes) :=
  match pname with
  | [] => Ret Panic
  | p0 :: prest =>
    let maybe_num :=
      match prest with
      | p1 :: prest2 =>
        if (p0 =? R "@")%N && is_sqlserver d && ((p1 =? R "p")%N || (p1 =? R "P")%N)
        then string_of_runes prest2 else string_of_runes prest
      | [] => []
      end in
    if is_empty maybe_num then
      if negb (p0 =? R "?")%N then Ret (Err (B "parameter name missing"))
      else match nth_error args running with
           | None => Ret Panic
           | Some v => sprint_p x d v
           end
    else
      match atoi maybe_num with
      | Some num =>
        let num := (num - 1)%Z in
        if (num <? 0)%Z || (Z.of_nat (length args) <=? num)%Z
        then Ret (Err (B "args index out of bounds"))
        else match nth_error args (Z.to_nat num) with
             | Some v => sprint_p x d v
             | None => Ret Panic
             end
      | None =>
        if is_postgres d || is_mysql d
        then Ret (Err (B "does not support named parameter"))
        else match mget (string_of_runes prest) named with
             | None => Ret (Err (B "named parameter not provided"))
             | Some num =>
               match nth_error args num with
               | Some v => sprint_p x d v
               | None => Ret (Err (B "args index out of bounds"))
               end
             end
      end
  end.
(** The locals of the loop other than the buffer (209-213). *)
Definition no_text (st : SprintModel.scan) : SprintModel.scan :=
  mk_scan [] (sc_running st) (sc_inside st) (sc_quote st) (sc_must st) (sc_pname st).
(** One iteration of the loop, 225-320; the buffer is [x]. *)
Definition scan_step_p (x : nat) (d : dialect) (args : list gval) (named : list (bytes * nat))
    (st : SprintModel.scan) (i : nat * rune * bytes) : prog (outcome SprintModel.scan) :=
  let '(i, c, suffix) := i in
  let wr := encode_rune c in
  if Nat.eqb (sc_must st) i then Write x wr (Ret (Ok st))
  else if sc_inside st then
    Write x wr
      (if (c =? closer (sc_quote st))%N then
         match nth_error suffix 1 with
         | Some b => if (ord b =? closer (sc_quote st))%N
                     then Ret (Ok (with_must st (i + 1)))
                     else Ret (Ok (with_inside st false))
         | None => Ret (Ok (with_inside st false))
         end
       else Ret (Ok st))
  else if opens_quote d c then
    Write x wr (Ret (Ok (mk_scan [] (sc_running st) true c (sc_must st) (sc_pname st))))
  else if negb (nullb (sc_pname st)) then
    if name_terminating c then
      bind (lookup_param_p (Datatypes.S x) d args (sc_pname st) named (sc_running st)) (fun o =>
      match o with
      | Ok v =>
        Write x v (Write x wr
          (let running := match sc_pname st with
                          | [p] => if (p =? R "?")%N then Datatypes.S (sc_running st) else sc_running st
                          | _ => sc_running st
                          end in
           Ret (Ok (mk_scan [] running (sc_inside st) (sc_quote st) (sc_must st) []))))
      | Err e => Ret (Err e)
      | Panic => Ret Panic
      end)
    else Ret (Ok (mk_scan [] (sc_running st) (sc_inside st) (sc_quote st) (sc_must st) (sc_pname st ++ [c])))
  else if starts_param d c then
    Ret (Ok (mk_scan [] (sc_running st) (sc_inside st) (sc_quote st) (sc_must st) [c]))
  else if (c =? R "?")%N && negb (is_postgres d) then
    if is_sqlite d
    then Ret (Ok (mk_scan [] (sc_running st) (sc_inside st) (sc_quote st) (sc_must st) [c]))
    else match nth_error args (sc_running st) with
         | None => Ret (Err (B "too few args provided"))
         | Some v =>
           bind (sprint_p (Datatypes.S x) d v) (fun o =>
           match o with
           | Ok t => Write x t (Ret (Ok (mk_scan [] (Datatypes.S (sc_running st)) (sc_inside st) (sc_quote st) (sc_must st) (sc_pname st))))
           | Err e => Ret (Err e)
           | Panic => Ret Panic
           end)
         end
  else Write x wr (Ret (Ok st)).
Fixpoint scan_loop_p (x : nat) (d : dialect) (args : list gval) (named : list (bytes * nat))
    (st : SprintModel.scan) (rs : list (nat * rune * bytes)) : prog (outcome SprintModel.scan) :=
  match rs with
  | [] => Ret (Ok st)
  | i :: rs' => bind (scan_step_p x d args named st i) (fun o =>
                match o with
                | Ok st' => scan_loop_p x d args named st' rs'
                | Err e => Ret (Err e)
                | Panic => Ret Panic
                end)
  end.
(** What is returned: the text, or an error and the text so far. *)
Definition sprintf_p (x : nat) (d : dialect) (query : bytes) (args : list gval) : prog (outcome bytes * bytes) :=
  match args with
  | [] => Ret (Ok query, [])
  | _ =>
    let named := named_args_lookup args in
    pooled x (bind (scan_loop_p x d args named scan_init (range_string query)) (fun o =>
      match o with
      | Err e => Read x (fun o => Ret (Err e, fst o))
      | Panic => Ret (Panic, [])
      | Ok st =>
        let finish : prog (outcome bytes * bytes) :=
          if sc_inside st then Read x (fun o => Ret (Err (B "unclosed string or identifier"), fst o))
          else Read x (fun o => Ret (Ok (fst o), [])) in
        if negb (nullb (sc_pname st)) then
          bind (lookup_param_p (Datatypes.S x) d args (sc_pname st) named (sc_running st)) (fun o =>
          match o with
          | Ok v => Write x v finish
          | Err e => Read x (fun o => Ret (Err e, fst o))
          | Panic => Ret (Panic, [])
          end)
        else finish
      end))
  end.

(** ** Rendering *)
(** The text a command writes and what it does to [args] and [params]: [EffectModel.exec1]. *)
Definition cmd_text (d : dialect) (s : st) (c : cmd) : bytes := out_text d (st_out (exec1 d (mk_st [] (st_args s) (st_params s)) c)).
(** [nested]: how the text of a command is computed, e.g. by QuoteIdentifier,
    which takes a buffer of its own (at the depth given). *)
Definition helper_fn := nat -> bytes -> prog bytes.
(** Into the buffer [x], with the callers' own [args] and [params]. *)
Fixpoint cmds_p (nested : helper_fn) (x depth : nat) (d : dialect) (s : st) (cs : list cmd) : prog st :=
  match cs with
  | [] => Ret s
  | c :: cs =>
    bind (nested depth (cmd_text d s c)) (fun t =>
    Write x t (cmds_p nested x depth d (exec1 d (mk_st [] (st_args s) (st_params s)) c) cs))
  end.
(** sq.go:113-127 [ToSQL]. *)
Definition to_sql_p (nested : helper_fn) (x : nat) (dname : bytes) (n : node) : prog sql_result :=
  let d := to_sql_dialect dname n in
  let m := render d n (ctx None []) in
  pooled x (bind (cmds_p nested x (Datatypes.S x) d st0 (fst m)) (fun s =>
    Read x (fun o => Ret (mk_result (fst o) (st_args s) (st_params s) (snd m))))).
(** sq.go:129-138 [ToSQLExclude]. *)
Definition to_sql_exclude_p (nested : helper_fn) (x : nat) (dname : bytes) (n : node) (excl : list bytes) : prog sql_result :=
  let d := dialect_of dname in
  let m := render d n (ctx None excl) in
  pooled x (bind (cmds_p nested x (Datatypes.S x) d st0 (fst m)) (fun s =>
    Read x (fun o => Ret (mk_result (fst o) (st_args s) (st_params s) (snd m))))).
(** Into the buffer [x] and the pooled slice [y]. *)
Fixpoint cmds_pooled_p (nested : helper_fn) (x y depth : nat) (d : dialect) (params : list (bytes * list nat)) (cs : list cmd) : prog unit :=
  match cs with
  | [] => Ret tt
  | c :: cs =>
    Read y (fun o =>
    let s := mk_st [] (snd o) params in
    bind (nested depth (cmd_text d s c)) (fun t =>
    Write x t (Args y (st_args (exec1 d s c)) (cmds_pooled_p nested x y depth d (st_params (exec1 d s c)) cs))))
  end.

(** ddl/t.go:83-104 [sprintf], ddl/v.go:34-52: a text with its arguments put
    in.  The buffer is [x], the slice [x+1]. *)
Definition printed_p (nested : helper_fn) (x : nat) (d : dialect) (m : M) : prog (outcome bytes) :=
  pooled_n 2 x
    (bind (cmds_pooled_p nested x (Datatypes.S x) (Datatypes.S (Datatypes.S x)) d [] (fst m)) (fun _ =>
     match snd m with
     | SErr => Ret (Err (B "error"))
     | SPanic => Ret Panic
     | SOk => Read x (fun b => Read (Datatypes.S x) (fun a =>
              bind (sprintf_p (Datatypes.S (Datatypes.S x)) d (fst b) (snd a)) (fun o => Ret (fst o))))
     end)).

(** ** logger.go:136-207 [LogQueryStats], on a context that is not done.
    Returned: whether it returns (otherwise: a panic). *)
Definition interpolated_p (x : nat) (d : dialect) (query : bytes) (args : list gval) : prog (option bytes) :=
  bind (sprintf_p x d query args) (fun o =>
  Ret (match fst o with Ok t => Some t | Err e => Some (snd o ++ B " " ++ e) | Panic => None end)).
Definition log_p (h : host) (flags : N) (x : nat) (s : qstats) : prog bool :=
  let d := dialect_of (qs_dialect s) in
  let results : bytes :=
    if is_empty (qs_results s) then [] else heading flags (B "----[ Fetched result ]----") ++ qs_results s in
  let println : prog bool := Write x results (Read x (fun o => Ask (QLine (fst o)) (fun _ => Ret true))) in   (* 200-206 *)
  let rest : prog bool :=                                                                                  (* 172-199 *)
    Write x (log_items h flags s)
      (if l_verbose flags then
         Write x (heading flags (B "----[ Executing query ]----") ++ nl ++ qs_query s ++ B " " ++ h_syntax h (qs_args s) ++
                  heading flags (B "----[ with bind values ]----"))
           (bind (interpolated_p (Datatypes.S x) d (qs_query s) (qs_args s)) (fun o =>
            match o with Some t => Write x (nl ++ t) println | None => Ret false end))
       else println) in
  pooled x
    (Write x (log_verdict flags s)                                                                         (* 155-159 *)
      (if l_verbose flags then rest
       else if l_interpolate flags then                                                                    (* 160-171 *)
         bind (interpolated_p (Datatypes.S x) d (qs_query s) (qs_args s)) (fun o =>
         match o with Some t => Write x (B " " ++ t) (Write x (B " |") rest) | None => Ret false end)
       else Write x (B " " ++ qs_query s ++ B " " ++ h_sprint h (qs_args s)) (Write x (B " |") rest))).

(** The logger of a DB: none, or sq.NewLogger's with these flags and limit. *)
Definition logset := option (N * Z).
(** fetch.go:102-106, 320-324, exec.go:84-88. *)
Definition send_log_p {R} (h : host) (flags : N) (x : nat) (st : qstats) (f panicked : R) : prog R :=
  if l_async flags then Spawn (h, flags, st) (Ret f)
  else bind (log_p h flags x st) (fun ok => Ret (if ok then f else panicked)).

(** ** fetch.go:199-229 [computeFieldNames]; [None]: a panic.  The buffer is [x],
    the slice [x+1]. *)
Fixpoint field_names_p (nested : helper_fn) (h : host) (x : nat) (d : dialect) (fs : list node) (names : list bytes)
  : prog (option (list bytes)) :=
  match fs with
  | [] => Ret (Some names)
  | f :: fs =>
    if negb (is_empty (get_alias f)) then field_names_p nested h x d fs (names ++ [get_alias f])
    else
      let m := render d f (ctx None []) in
      Reset x (Reset (Datatypes.S x)
        (bind (cmds_pooled_p nested x (Datatypes.S x) (Datatypes.S (Datatypes.S x)) d [] (fst m)) (fun _ =>
         match snd m with
         | SErr => field_names_p nested h x d fs (names ++ [bad (h_err h ERender)])
         | SPanic => Ret None
         | SOk => Read x (fun b => Read (Datatypes.S x) (fun a =>
                  bind (sprintf_p (Datatypes.S (Datatypes.S x)) d (fst b) (snd a)) (fun o =>
                  match fst o with
                  | Ok t => field_names_p nested h x d fs (names ++ [t])
                  | Err e => field_names_p nested h x d fs (names ++ [bad e])
                  | Panic => Ret None
                  end)))
         end)))
  end.
Definition compute_field_names_p (nested : helper_fn) (h : host) (x : nat) (d : dialect) (fs : list node) : prog (option (list bytes)) :=
  pooled_n 2 x (field_names_p nested h x d fs []).
(** fetch.go:168-197 [decorateScanError]: [buf], [tmpbuf] and [tmpargs] are [x],
    [x+1] and [x+2].  Returned: whether it returns.  Simplification: the names
    of the destination types are left out of the text, which nobody looks at. *)
Fixpoint explain_p (nested : helper_fn) (h : host) (x : nat) (d : dialect) (i : nat) (fs : list node) : prog bool :=
  let y := Datatypes.S x in let z := Datatypes.S y in
  match fs with
  | [] => Read x (fun _ => Ret true)
  | f :: fs =>
    let m := render d f (ctx None []) in
    Write x (nl ++ itoa i ++ B ") ") (Reset y (Reset z
      (bind (cmds_pooled_p nested y z (Datatypes.S z) d [] (fst m)) (fun _ =>
       match snd m with
       | SErr => Write x (bad (h_err h ERender)) (explain_p nested h x d (Datatypes.S i) fs)
       | SPanic => Ret false
       | SOk => Read y (fun b => Read z (fun a =>
                bind (sprintf_p (Datatypes.S z) d (fst b) (snd a)) (fun o =>
                match fst o with
                | Ok t => Write x (t ++ B " => ") (explain_p nested h x d (Datatypes.S i) fs)
                | Err e => Write x (bad e) (explain_p nested h x d (Datatypes.S i) fs)
                | Panic => Ret false
                end)))
       end))))
  end.
Definition decorate_p (nested : helper_fn) (h : host) (x : nat) (d : dialect) (fs : list node) : prog bool :=
  pooled_n 3 x (explain_p nested h x d 0 fs).
(** fetch.go:231-246 [accumulateResults] into the buffer [x]; whether it returns. *)
Fixpoint accumulate_fields_p (x depth : nat) (d : dialect) (names : list bytes) (vs : list gval) : prog bool :=
  match vs with
  | [] => Ret true
  | v :: vs =>
    Write x nl (Write x (hd [] names) (Write x (B ": ")
      (bind (sprint_p depth d (GPtr v)) (fun o =>
       match o with
       | Ok t => Write x t (accumulate_fields_p x depth d (tl names) vs)
       | Err e => Write x (bad e) (accumulate_fields_p x depth d (tl names) vs)
       | Panic => Ret false
       end))))
  end.
Definition accumulate_p (x depth : nat) (d : dialect) (names : list bytes) (vs : list gval) (n : nat) : prog bool :=
  Write x (nl ++ B "----[ Row " ++ itoa n ++ B " ]----") (accumulate_fields_p x depth d names vs).

Section Fetching.
  Context {A : Type}.
  (** fetch.go:127-153.  [y]: resultsBuf; deeper variables from [y+1] on.
      [names]: fieldNames.  Returned: the row count, the error, whether it
      panics, the actions, and [err] as the deferred logging sees it. *)
  Fixpoint rows_p (nested : helper_fn) (h : host) (dl : dialect) (limit : Z) (y : nat) (mapper : list A -> FetchModel.prog A)
      (cols : list (kind * node)) (rows : list dbrow) (r : row) (hist : list A) (n : nat) (names : list bytes)
    : prog (nat * option gerr * bool * list A * option gerr) :=
    let hi := Datatypes.S y in
    match rows with
    | [] => Ret (n, None, false, hist, None)
    | d :: rest =>
      match FetchModel.scan d cols with
      | inl e => bind (decorate_p nested h hi dl (map snd cols)) (fun ok =>
                 Ret (Datatypes.S n, Some (if ok : bool then e else ERuntime), false, hist, Some e))
      | inr vs =>
        bind (if (0 <? limit)%Z && (Z.of_nat (Datatypes.S n) <=? limit)%Z then
                bind (match names with [] => compute_field_names_p nested h hi dl (map snd cols) | _ => Ret (Some names) end) (fun o =>
                match o with
                | Some names => bind (accumulate_p y hi dl names vs (Datatypes.S n)) (fun ok => Ret (names, ok))
                | None => Ret (names, false)
                end)
              else Ret (names, true)) (fun o =>
        if snd o then
          match run (mapper hist) (mk_row (r_active r) 0 (r_cols r) vs (r_err r) false (r_closed r)) hist with
          | (XErr e, _, h1) => Ret (Datatypes.S n, Some e, false, h1, None)
          | (XPanic, _, h1) => Ret (Datatypes.S n, None, true, h1, None)
          | (XDone _, r1, h1) =>
            match r_err r1 with
            | Some e => Ret (Datatypes.S n, Some e, false, h1, Some e)
            | None => if r_closed r1 then Ret (Datatypes.S n, None, false, h1, None)
                      else rows_p nested h dl limit y mapper cols rest r1 h1 (Datatypes.S n) (fst o)
            end
          end
        else Ret (Datatypes.S n, Some ERuntime, false, hist, None))
      end
    end.

  (** fetch.go:88-107: the deferred logging; [buf] is [x], [resultsBuf] [x+1].
      [rendered]: stats.Query; [asked]: the query was sent. *)
  Definition log_fetch_p (h : host) (lg : logset) (q : node) (x : nat) (args : list gval) (rendered : bytes)
      (f : fetched_ A) (err : option gerr) (asked : bool) : prog (fetched_ A) :=
    match lg with
    | None => Ret f
    | Some (flags, limit) =>
      let s := get_settings flags limit in
      Read x (fun o => Read (Datatypes.S x) (fun results =>
        send_log_p h flags (Datatypes.S (Datatypes.S x))
          (mk_stats (get_dialect q) (query_type q) ([], []) (logged_query h rendered (fst o) err) args
             err (Some (f_count f)) None None None (if asked then time_taken h s else 0%N)
             (if (0 <? limit)%Z then fst results else []) (caller_info h s))
          f (mk_fetched (f_count f) (Some ERuntime) false (f_hist f) (f_sent f))))
    end.
  (** fetch.go:21-166 [fetchContext]; [db]: the DB is not nil. *)
  Definition fetch_p (nested : helper_fn) (x : nat) (h : host) (ctx : nat) (db : bool) (lg : logset) (q : option node)
      (mapper : option (list A -> FetchModel.prog A)) (hist : list A) : prog (fetched_ A) :=
    match db, q, mapper with
    | true, Some q, Some mapper =>
      let limit := match lg with Some (_, limit) => limit | None => 0%Z end in
      let dl := dialect_of (get_dialect q) in
      match run (mapper hist) row_new hist with
      | (XErr e, _, h1) => Ret (mk_fetched 0 (Some e) false h1 None)
      | (XPanic, _, h1) => Ret (mk_fetched 0 None true h1 None)
      | (XDone _, r, h1) =>
        match set_fetchable q (map snd (r_cols r)) with
        | None => Ret (mk_fetched 0 (Some ENotFetchable) false h1 None)
        | Some q1 =>
          let m := render dl q1 (RenderModel.ctx None []) in
          pooled_n 2 x
            (bind (cmds_p nested x (Datatypes.S (Datatypes.S x)) dl st0 (fst m)) (fun s =>
             let log := log_fetch_p h lg q x (st_args s) in
             match snd m with
             | SErr => log [] (mk_fetched 0 (Some ERender) false h1 None) (Some ERender) false
             | SPanic => log [] (mk_fetched 0 (Some ERuntime) false h1 None) None false
             | SOk =>
               Read x (fun o =>
               let req := (ctx, fst o, st_args s) in
               Ask (QQuery req) (fun a =>
               match an_query a with
               | QFail e => log (fst o) (mk_fetched 0 (Some (EDriver e)) false h1 (Some req)) (Some (EDriver e)) true
               | QRows rows close iter =>
                 match r_cols r with
                 | [] => log (fst o) (mk_fetched 0 None false h1 (Some req)) None true
                 | _ =>
                   bind (rows_p nested h dl limit (Datatypes.S x) mapper (r_cols r) rows
                           (mk_row true (r_index r) (r_cols r) (r_dest r) (r_err r) (r_processed r) (r_closed r)) h1 0 []) (fun res =>
                   match res with
                   | (n, Some e, p, h2, seen) => log (fst o) (mk_fetched n (Some e) p h2 (Some req)) seen true
                   | (n, None, true, h2, seen) => log (fst o) (mk_fetched n None true h2 (Some req)) seen true
                   | (n, None, false, h2, _) =>
                     let err := first_some (option_map EClose close) (option_map EIter iter) in
                     let done := log (fst o) (mk_fetched n err false h2 (Some req)) err true in
                     match err with
                     | None => if (0 <? limit)%Z && (limit <? Z.of_nat n)%Z                       (* 162-164 *)
                               then Write (Datatypes.S x) (nl ++ B "..." ++ nl ++ B "(" ++ format_int (Z.of_nat n - limit) ++ B " more rows)") done
                               else done
                     | Some _ => done
                     end
                   end)
                 end
               end))
             end))
        end
      end
    | _, _, _ => Ret (mk_fetched 0 (Some ENil) false hist None)
    end.
End Fetching.

(** ** fetch.go:256-357 [fetchExistsContext] *)
Definition exists_p (nested : helper_fn) (x : nat) (h : host) (ctx : nat) (db : bool) (lg : logset) (q : option node) : prog exists_result :=
  match db, q with
  | true, Some q =>
    match fetchable q with
    | FCrash => Ret (mk_exists false None true None)
    | FFail => Ret (mk_exists false (Some ENotFetchable) false None)
    | FFields fs =>
      match match fs with [] => set_fetchable q [NLiteral (B "1") []] | _ => Some q end with
      | None => Ret (mk_exists false (Some ENotFetchable) false None)
      | Some q1 =>
        let dl := dialect_of (get_dialect q) in
        let m := render dl q1 (RenderModel.ctx None []) in
        pooled x
          (Write x (B "SELECT EXISTS (")
          (bind (cmds_p nested x (Datatypes.S x) dl st0 (fst m)) (fun s =>
           let log (rendered : bytes) (f : exists_result) (asked : bool) : prog exists_result :=           (* 306-325 *)
             match lg with
             | None => Ret f
             | Some (flags, limit) =>
               let ls := get_settings flags limit in
               Read x (fun o =>
                 send_log_p h flags (Datatypes.S x)
                   (mk_stats (get_dialect q) (B "SELECT") ([], []) (logged_query h rendered (fst o) (e_err f)) (st_args s)
                      (e_err f) None None None (Some (e_exists f)) (if asked then time_taken h ls else 0%N) [] (caller_info h ls))
                   f (mk_exists false None true (e_sent f)))
             end in
           match snd m with
           | SErr => log [] (mk_exists false (Some ERender) false None) false
           | SPanic => log [] (mk_exists false None true None) false
           | SOk =>
             Write x (B ")") (Read x (fun o =>
             let req := (ctx, fst o, st_args s) in
             Ask (QQuery req) (fun a =>
             match an_query a with
             | QFail e => log (fst o) (mk_exists false (Some (EDriver e)) false (Some req)) true
             | QRows rows close iter =>
               let finish b := log (fst o) (mk_exists b (first_some (option_map EClose close) (option_map EIter iter)) false (Some req)) true in
               match rows with
               | [] => finish false
               | r :: _ => match scan_bool r with
                           | inl e => log (fst o) (mk_exists false (Some e) false (Some req)) true
                           | inr b => finish b
                           end
               end
             end)))
           end)))
      end
    end
  | _, _ => Ret (mk_exists false (Some ENil) false None)
  end.

(** ** exec.go:18-120 [execContext] *)
Definition exec_p (nested : helper_fn) (x : nat) (h : host) (ctx : nat) (db : bool) (lg : logset) (q : option node) : prog exec_result :=
  match db, q with
  | true, Some q =>
    let dl := dialect_of (get_dialect q) in
    let m := render dl q (RenderModel.ctx None []) in
    pooled x
      (bind (cmds_p nested x (Datatypes.S x) dl st0 (fst m)) (fun s =>
       let log (rendered : bytes) (f : exec_result) (asked : bool) (affected lastid : option Z) : prog exec_result :=   (* 75-89 *)
         match lg with
         | None => Ret f
         | Some (flags, limit) =>
           let ls := get_settings flags limit in
           Read x (fun o =>
             send_log_p h flags (Datatypes.S x)
               (mk_stats (get_dialect q) (query_type q) (table_modified q) (logged_query h rendered (fst o) (x_err f)) (st_args s)
                  (x_err f) None affected lastid None (if asked then time_taken h ls else 0%N) [] (caller_info h ls))
               f (mk_exec 0 0 None true (x_sent f)))
         end in
       match snd m with
       | SErr => log [] (mk_exec 0 0 (Some ERender) false None) false None None
       | SPanic => log [] (mk_exec 0 0 None true None) false None None
       | SOk =>
         Read x (fun o =>
         let req := (ctx, fst o, st_args s) in
         Ask (QExec req) (fun a =>
         match an_exec a with
         | XFail e => log (fst o) (mk_exec 0 0 (Some (EDriver e)) false (Some req)) true None None
         | XResult affected lastid =>
           match affected with
           | inl e => log (fst o) (mk_exec 0 0 (Some (EResult e)) false (Some req)) true None None
           | inr n =>
             if beqb (get_dialect q) (B "sqlite") || beqb (get_dialect q) (B "mysql") then
               match lastid with
               | inl e => log (fst o) (mk_exec 0 0 (Some (EResult e)) false (Some req)) true (Some n) None
               | inr l => log (fst o) (mk_exec n l None false (Some req)) true (Some n) (Some l)
               end
             else log (fst o) (mk_exec n 0 None false (Some req)) true (Some n) None
           end
         end))
       end))
  | _, _ => Ret (mk_exec 0 0 (Some ENil) false None)
  end.
