(** * FetchModel: Row, Fetch, FetchExists and Exec *)
From Verif Require Import GoBase QuoteModel SprintModel TokenModel EffectModel RenderModel BuildModel.

(** The types a destination can have (row.go): sql.NullBool, NullFloat64,
    NullInt32, NullInt64, NullString, NullTime, []byte, other pointer types. *)
Inductive kind := KBool | KFloat64 | KInt32 | KInt64 | KString | KTime | KBytes | KPtr (ty : nat).
Definition kind_eqb (a b : kind) : bool :=
  match a, b with
  | KBool, KBool | KFloat64, KFloat64 | KInt32, KInt32 | KInt64, KInt64 | KString, KString
  | KTime, KTime | KBytes, KBytes => true
  | KPtr m, KPtr n => Nat.eqb m n
  | _, _ => false
  end.

(** The zero value an accessor returns in the passive phase.  A destination of
    another type keeps its own value (written GNil). *)
Definition zero_of (k : kind) : gval :=
  match k with
  | KBool => GNullBool false false | KFloat64 => GNullFloat false (B "0")
  | KInt32 | KInt64 => GNullInt false 0 | KString => GNullString false []
  | KTime => GNullTime false [] | KBytes => GBytes [] | KPtr _ => GNil
  end.

(** Where an error comes from; the numbers tell apart different errors. *)
Inductive gerr :=
| EUser (n : nat)          (* returned, or passed to panic, by the user's functions *)
| ERuntime                 (* a Go run-time error (index out of range, type assertion) *)
| ENil                     (* nil db, query or mapper *)
| ENotFetchable            (* ErrNonFetchableQuery *)
| ERender                  (* AppendSQL failed *)
| EDriver (n : nat)        (* QueryContext / ExecContext failed *)
| EScan (n : nat) | EClose (n : nat) | EIter (n : nat) | EResult (n : nat).

Section Fetch.
  (** [A]: the externally visible actions of the user's functions.  A closure
      with state is modelled as a function of the actions done so far. *)
  Context {A : Type}.

  (** What a function given to Fetch, Process or ProcessErr does. *)
  Inductive prog :=
  | PEnd (e : option gerr)                       (* return (e: only for ProcessErr) *)
  | PDo (a : A) (k : prog)
  | PGet (ty : kind) (f : node) (k : gval -> prog) (* row.NullInt64(f), row.Bytes(f), row.ScanInto(&x, f) ... *)
  | PActive (k : bool -> prog)                   (* row.IsActive() *)
  | PClose (k : prog)                            (* row.Close() *)
  | PProcess (witherr : bool) (fn : prog) (k : list A -> prog)  (* row.Process(fn), row.ProcessErr(fn) *)
  | PPanicErr (e : gerr)                         (* panic(err), e.g. ScanJSON row.go:168 *)
  | PPanic.                                      (* panic with a non-error *)

  (** row.go:14-22 [Row].  [r_cols]: the fields and the types of dest;
      [r_dest]: the values the destinations hold. *)
  Record row := mk_row {
    r_active : bool; r_index : nat; r_cols : list (kind * node); r_dest : list gval;
    r_err : option gerr; r_processed : bool; r_closed : bool }.
  Definition row_new : row := mk_row false 0 [] [] None false false.

  (** How a call ends. *)
  Inductive ending := XDone (e : option gerr) | XErr (e : gerr) | XPanic.

  (** One run of a function on a row: row.go:37-62 (Process, ProcessErr, Close,
      IsActive) and 67-139, 141-183, 185-320 (the accessors).
      In the passive phase an accessor registers its field and returns the zero
      value; in the active phase it reads destination [index].  A wrong type
      assertion or an index out of range is a run-time error; a wrong pointer
      type makes reflect panic with a string. *)
  Fixpoint run (p : prog) (r : row) (h : list A) : ending * row * list A :=
    match p with
    | PEnd e => (XDone e, r, h)
    | PDo a k => run k r (h ++ [a])
    | PGet ty f k =>
      if negb (r_active r) then
        run (k (zero_of ty)) (mk_row false (r_index r) (r_cols r ++ [(ty, f)]) (r_dest r ++ [zero_of ty])
                        (r_err r) (r_processed r) (r_closed r)) h
      else
        match nth_error (r_cols r) (r_index r), nth_error (r_dest r) (r_index r) with
        | Some (ty', _), Some v =>
          if kind_eqb ty ty' then
            run (k v) (mk_row true (S (r_index r)) (r_cols r) (r_dest r) (r_err r) (r_processed r) (r_closed r)) h
          else match ty with KPtr _ => (XPanic, r, h) | _ => (XErr ERuntime, r, h) end
        | _, _ => (XErr ERuntime, r, h)
        end
    | PActive k => run (k (r_active r)) r h
    | PClose k => run k (mk_row (r_active r) (r_index r) (r_cols r) (r_dest r) (r_err r) (r_processed r) true) h
    | PProcess witherr fn k =>
      if negb (r_active r) || r_processed r then run (k h) r h
      else
        match run fn r h with
        | (XDone e, r1, h1) =>
          run (k h1) (mk_row (r_active r1) (r_index r1) (r_cols r1) (r_dest r1)
                        (if witherr then e else r_err r1) true (r_closed r1)) h1
        | other => other
        end
    | PPanicErr e => (XErr e, r, h)
    | PPanic => (XPanic, r, h)
    end.

  (** ** The database *)
  (** A row of a result as Scan sees it: given the destination types, an error
      or the values. *)
  Definition dbrow := list kind -> nat + list gval.
  Inductive response :=
  | QFail (e : nat)
  | QRows (rows : list dbrow) (close iter : option nat).    (* rows.Close(), rows.Err() *)
  (** Context (0: Background), query and arguments. *)
  Definition request := (nat * bytes * list gval)%type.
  Definition database := request -> response.

  (** rows.Scan(dest...): also an error if the numbers differ. *)
  Definition scan (r : dbrow) (cols : list (kind * node)) : gerr + list gval :=
    match r (map fst cols) with
    | inl e => inl (EScan e)
    | inr vs => if Nat.eqb (length vs) (length cols) then inr vs else inl (EScan 0)
    end.

  (** What Fetch does and returns: the row count, the error (or a panic), the
      actions done, and the query sent. *)
  Record fetched_ := mk_fetched {
    f_count : nat; f_err : option gerr; f_panic : bool; f_hist : list A; f_sent : option request }.

  (** fetch.go:168-197 [decorateScanError]: Scan's error is wrapped in one that
      shows the fields with their arguments; a panic while it is made takes its
      place (22-32).  The text of the error is not modelled. *)
  Definition explains (dl : dialect) (f : node) : bool :=
    let r := append_sql dl f None [] st0 in
    match snd r with
    | SErr => true                                             (* 184-187 *)
    | SPanic => false
    | SOk => match sprintf dl (out_text dl (st_out (fst r))) (st_args (fst r)) with Panic => false | _ => true end
    end.
  Definition decorated (dl : dialect) (cols : list (kind * node)) (e : gerr) : gerr :=
    if forallb (fun c => explains dl (snd c)) cols then e else ERuntime.

  (** fetch.go:127-153: the loop.  [RowReset] (row.go:28-31) resets index and
      processed, but not processingErr and closed. *)
  Fixpoint fetch_rows (dl : dialect) (mapper : list A -> prog) (rows : list dbrow) (r : row) (h : list A) (n : nat)
    : nat * (option gerr) * bool * list A :=
    match rows with
    | [] => (n, None, false, h)
    | d :: rest =>
      match scan d (r_cols r) with
      | inl e => (S n, Some (decorated dl (r_cols r) e), false, h)
      | inr vs =>
        match run (mapper h) (mk_row (r_active r) 0 (r_cols r) vs (r_err r) false (r_closed r)) h with
        | (XErr e, _, h1) => (S n, Some e, false, h1)          (* 22-32: recovered *)
        | (XPanic, _, h1) => (S n, None, true, h1)
        | (XDone _, r1, h1) =>
          match r_err r1 with
          | Some e => (S n, Some e, false, h1)
          | None => if r_closed r1 then (S n, None, false, h1) else fetch_rows dl mapper rest r1 h1 (S n)
          end
        end
      end
    end.

  (** [SetFetchableFields]: select_query.go:172-175, insert_query.go:197-205,
      update_query.go:202-210, delete_query.go:178-186, variadic_query.go:80-82,
      fmt.go:567-569. *)
  Definition set_fetchable (q : node) (fs : list node) : option node :=
    match q with
    | NSelect q =>
      Some (NSelect (mk_select (sq_dialect q) (sq_env q) (sq_ctes q) (sq_distinct q) fs (sq_distinct_on q)
        (sq_from q) (sq_joins q) (sq_where q) (sq_group q) (sq_having q) (sq_order q) (sq_limit q) (sq_offset q)))
    | NInsert q =>
      if returning_dialect (iq_dialect q) then
        Some (NInsert (mk_insert (iq_dialect q) (iq_env q) (iq_mapper q) (iq_ctes q) (iq_ignore q) (iq_into q)
          (iq_columns q) (iq_rows q) (iq_rowalias q) (iq_colaliases q) (iq_select q) (iq_constraint q)
          (iq_cfields q) (iq_cpred q) (iq_nothing q) (iq_resolution q) (iq_rpred q) fs))
      else None
    | NUpdate q =>
      if returning_dialect (uq_dialect q) then
        Some (NUpdate (mk_update (uq_dialect q) (uq_env q) (uq_mapper q) (uq_ctes q) (uq_table q) (uq_from q)
          (uq_joins q) (uq_assigns q) (uq_where q) (uq_order q) (uq_limit q) (uq_offset q) fs))
      else None
    | NDelete q =>
      if returning_dialect (dq_dialect q) then
        Some (NDelete (mk_delete (dq_dialect q) (dq_env q) (dq_ctes q) (dq_tables q) (dq_using q) (dq_joins q)
          (dq_where q) (dq_order q) (dq_limit q) (dq_offset q) fs))
      else None
    | _ => None
    end.

  Definition first_some {T} (a b : option T) : option T := match a with Some _ => a | None => b end.

  (** fetch.go:21-166 [fetchContext].  Without a LoggerDB (with one: [LogModel.fetch_l]).
       A panic while rendering is a run-time error and recovered. *)
  Definition fetch (ctx : nat) (db : option database) (q : option node)
      (mapper : option (list A -> prog)) (h : list A) : fetched_ :=
    match db, q, mapper with
    | Some db, Some q, Some mapper =>
      let dialect := get_dialect q in
      match run (mapper h) row_new h with
      | (XErr e, _, h1) => mk_fetched 0 (Some e) false h1 None
      | (XPanic, _, h1) => mk_fetched 0 None true h1 None
      | (XDone _, r, h1) =>
        match set_fetchable q (map snd (r_cols r)) with
        | None => mk_fetched 0 (Some ENotFetchable) false h1 None
        | Some q1 =>
          let out := to_sql dialect q1 in
          match BuildModel.r_status out with
          | SErr => mk_fetched 0 (Some ERender) false h1 None
          | SPanic => mk_fetched 0 (Some ERuntime) false h1 None
          | SOk =>
            let req := (ctx, r_query out, r_args out) in
            match db req with
            | QFail e => mk_fetched 0 (Some (EDriver e)) false h1 (Some req)
            | QRows rows close iter =>
              match r_cols r with
              | [] => mk_fetched 0 None false h1 (Some req)
              | _ =>
                match fetch_rows (dialect_of dialect) mapper rows
                        (mk_row true (r_index r) (r_cols r) (r_dest r) (r_err r) (r_processed r) (r_closed r)) h1 0 with
                | (n, Some e, p, h2) => mk_fetched n (Some e) p h2 (Some req)
                | (n, None, true, h2) => mk_fetched n None true h2 (Some req)
                | (n, None, false, h2) =>
                  mk_fetched n (first_some (option_map EClose close) (option_map EIter iter)) false h2 (Some req)
                end
              end
            end
          end
        end
      end
    | _, _, _ => mk_fetched 0 (Some ENil) false h None
    end.
End Fetch.
Arguments prog : clear implicits.
Arguments fetched_ : clear implicits.

(** fetch.go:256-357 [fetchExistsContext]: the answer, the error (None with
    [e_panic]: a panic, there is no recover), and what was sent. *)
Record exists_result := mk_exists {
  e_exists : bool; e_err : option gerr; e_panic : bool; e_sent : option request }.
(** The truth value of a scanned boolean. *)
Definition scan_bool (r : dbrow) : gerr + bool :=
  match scan r [(KBool, NRaw GNil)] with
  | inl e => inl e
  | inr [GBool b] => inr b
  | inr _ => inl (EScan 0)
  end.
Definition fetch_exists (ctx : nat) (db : option database) (q : option node) : exists_result :=
  match db, q with
  | Some db, Some q =>
    match fetchable q with
    | FCrash => mk_exists false None true None
    | FFail => mk_exists false (Some ENotFetchable) false None
    | FFields fs =>
      match match fs with [] => set_fetchable q [NLiteral (B "1") []] | _ => Some q end with
      | None => mk_exists false (Some ENotFetchable) false None
      | Some q1 =>
        let out := to_sql (get_dialect q) q1 in
        match BuildModel.r_status out with
        | SErr => mk_exists false (Some ERender) false None
        | SPanic => mk_exists false None true None
        | SOk =>
          let req := (ctx, B "SELECT EXISTS (" ++ r_query out ++ B ")", r_args out) in
          match db req with
          | QFail e => mk_exists false (Some (EDriver e)) false (Some req)
          | QRows rows close iter =>
            let finish b := mk_exists b (first_some (option_map EClose close) (option_map EIter iter)) false (Some req) in
            match rows with
            | [] => finish false
            | r :: _ => match scan_bool r with
                        | inl e => mk_exists false (Some e) false (Some req)
                        | inr b => finish b
                        end
            end
          end
        end
      end
    end
  | _, _ => mk_exists false (Some ENil) false None
  end.
(** fetch.go:252-254 [FetchExistsContext]. *)
Definition fetch_exists_ctx (ctx : nat) (db : option database) (q : option node) : exists_result :=
  fetch_exists 0 db q.

(** exec.go:18-120 [execContext]. *)
Inductive exec_response := XFail (e : nat) | XResult (affected lastid : nat + Z).
Record exec_result := mk_exec {
  x_affected : Z; x_lastid : Z; x_err : option gerr; x_panic : bool; x_sent : option request }.
Definition exec_query (ctx : nat) (db : option (request -> exec_response)) (q : option node) : exec_result :=
  match db, q with
  | Some db, Some q =>
    let out := to_sql (get_dialect q) q in
    match BuildModel.r_status out with
    | SErr => mk_exec 0 0 (Some ERender) false None
    | SPanic => mk_exec 0 0 None true None
    | SOk =>
      let req := (ctx, r_query out, r_args out) in
      match db req with
      | XFail e => mk_exec 0 0 (Some (EDriver e)) false (Some req)
      | XResult affected lastid =>
        match affected with
        | inl e => mk_exec 0 0 (Some (EResult e)) false (Some req)
        | inr n =>
          if beqb (get_dialect q) (B "sqlite") || beqb (get_dialect q) (B "mysql") then
            match lastid with
            | inl e => mk_exec 0 0 (Some (EResult e)) false (Some req)
            | inr l => mk_exec n l None false (Some req)
            end
          else mk_exec n 0 None false (Some req)
        end
      end
    end
  | _, _ => mk_exec 0 0 (Some ENil) false None
  end.
