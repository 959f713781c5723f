(** * SpecPoolCalls: what each call does when nobody else runs

    In terms of the other models, which know no pools. *)
From Verif Require Import GoBase QuoteModel SprintModel TokenModel EffectModel RenderModel BuildModel NameModel FetchModel LogModel
  PoolModel PoolCalls.
Notation event := (PoolModel.event question answer logjob).

(** What Sprintf returns: with an error, also the text so far. *)
Definition sprintf_returns (d : dialect) (query : bytes) (args : list gval) : outcome bytes * bytes :=
  (sprintf d query args, match sprintf d query args with Err _ => sprintf_partial d query args | _ => [] end).
(** What ToSQLExclude returns. *)
Definition to_sql_excluding (dname : bytes) (n : node) (excl : list bytes) : sql_result :=
  let r := append_sql (dialect_of dname) n None excl st0 in
  mk_result (out_text (dialect_of dname) (st_out (fst r))) (st_args (fst r)) (st_params (fst r)) (snd r).
(** What ddl's sprintf returns. *)
Definition printed (d : dialect) (m : M) : outcome bytes :=
  let s := exec d st0 (fst m) in
  match snd m with SOk => sprintf d (out_text d (st_out s)) (st_args s) | SErr => Err (B "error") | SPanic => Panic end.

(** What LogQueryStats does with this record: one line, or a panic. *)
Definition returns (h : host) (flags : N) (st : qstats) : bool := match log_line h flags false st with Some _ => true | None => false end.
Definition line_written (h : host) (flags : N) (st : qstats) (t : list event) : Prop :=
  match log_line h flags false st with Some line => exists a, t = [Asked (QLine line) a] | None => t = [] end.
(** The logging that goes with a logger: one in its own goroutine may panic
    there, and the caller does not see it. *)
Definition logging_of (h : host) (lg : logset) : logging :=
  match lg with
  | None => LNone
  | Some (flags, limit) => LLogs (get_settings flags limit) (fun st => l_async flags || returns h flags st)
  end.
(** What becomes of the records: goroutines that log them, or lines. *)
Definition recorded (h : host) (lg : logset) (records : list qstats) (t : list event) : Prop :=
  match lg with
  | None => t = []
  | Some (flags, _) =>
    match records with
    | [] => t = []
    | [st] => if l_async flags then t = [Spawned (h, flags, st)] else line_written h flags st t
    | _ => False
    end
  end.
(** What was asked, if anything was sent. *)
Definition asked_query (sent : option request) (a : answer) : list event :=
  match sent with Some r => [Asked (QQuery r) a] | None => [] end.
Definition asked_exec (sent : option request) (a : answer) : list event :=
  match sent with Some r => [Asked (QExec r) a] | None => [] end.
Definition no_answer : answer := mk_answer (QFail 0) (XFail 0).
(** The statements on a database that answers [a], with the records logged. *)
Definition fetch_alone {A} (h : host) (ctx : nat) (db : bool) (lg : logset) (q : option node)
    (mapper : option (list A -> FetchModel.prog A)) (hist : list A) (a : answer) : fetched_ A * list qstats :=
  fetch_l h ctx (if db then Some (fun _ => an_query a) else None) (logging_of h lg) q mapper hist.
Definition exists_alone (h : host) (ctx : nat) (db : bool) (lg : logset) (q : option node) (a : answer) : exists_result * list qstats :=
  fetch_exists_l h ctx (if db then Some (fun _ => an_query a) else None) (logging_of h lg) q.
Definition exec_alone (h : host) (ctx : nat) (db : bool) (lg : logset) (q : option node) (a : answer) : exec_result * list qstats :=
  exec_l h ctx (if db then Some (fun _ => an_exec a) else None) (logging_of h lg) q.

Section Calls.
  (** The actions of row mappers. *)
  Context {A : Type}.
  Inductive call :=
  | CEscape (str : bytes) (q : ascii)                           (* sq.EscapeQuote *)
  | CQuote (d : dialect) (identifier : bytes)                   (* sq.QuoteIdentifier *)
  | CSprint (d : dialect) (v : gval)                            (* sq.Sprint *)
  | CSprintf (d : dialect) (query : bytes) (args : list gval)   (* sq.Sprintf *)
  | CToSQL (dname : bytes) (n : node)                           (* sq.ToSQL *)
  | CToSQLExclude (dname : bytes) (n : node) (excl : list bytes)(* sq.ToSQLExclude *)
  | CName (ty table : bytes) (columns : list bytes)             (* ddl: the name of a constraint or index *)
  | CList (strs : list bytes)                                   (* ddl: the names in an introspection query *)
  | CPrinted (d : dialect) (m : M)                              (* ddl: defaults, checks, view queries *)
  | CLog (h : host) (flags : N) (s : qstats)                    (* LogQueryStats of sq.NewLogger *)
  | CFetch (h : host) (ctx : nat) (db : bool) (lg : logset) (q : option node)
      (mapper : option (list A -> FetchModel.prog A)) (hist : list A)                          (* sq.Fetch, FetchContext *)
  | CExists (h : host) (ctx : nat) (db : bool) (lg : logset) (q : option node)                 (* sq.FetchExists *)
  | CExec (h : host) (ctx : nat) (db : bool) (lg : logset) (q : option node).                  (* sq.Exec *)
  Inductive result :=
  | RText (b : bytes) | RValue (o : outcome bytes) | RFormatted (o : outcome bytes * bytes) | RSql (r : sql_result)
  | RLogged (ok : bool) | RFetched (f : fetched_ A) | RExists (e : exists_result) | RExec (e : exec_result).

  (** What a call does and returns. *)
  Definition alone (c : call) (r : result) (t : list event) : Prop :=
    match c with
    | CEscape s q => r = RText (escape_quote s q) /\ t = []
    | CQuote d s => r = RText (quote_identifier d s) /\ t = []
    | CSprint d v => r = RValue (sprint d v) /\ t = []
    | CSprintf d q args => r = RFormatted (sprintf_returns d q args) /\ t = []
    | CToSQL dn n => r = RSql (to_sql dn n) /\ t = []
    | CToSQLExclude dn n excl => r = RSql (to_sql_excluding dn n excl) /\ t = []
    | CName ty tb cols => r = RText (generate_name ty tb cols) /\ t = []
    | CList strs => r = RText (print_list strs) /\ t = []
    | CPrinted d m => r = RValue (printed d m) /\ t = []
    | CLog h flags s => r = RLogged (returns h flags s) /\ line_written h flags s t
    | CFetch h ctx db lg q m hist => exists a f records t', fetch_alone h ctx db lg q m hist a = (f, records) /\
        r = RFetched f /\ t = asked_query (f_sent f) a ++ t' /\ recorded h lg records t'
    | CExists h ctx db lg q => exists a f records t', exists_alone h ctx db lg q a = (f, records) /\
        r = RExists f /\ t = asked_query (e_sent f) a ++ t' /\ recorded h lg records t'
    | CExec h ctx db lg q => exists a f records t', exec_alone h ctx db lg q a = (f, records) /\
        r = RExec f /\ t = asked_exec (x_sent f) a ++ t' /\ recorded h lg records t'
    end.

  (** The program of a call: PoolCalls. *)
  Definition returning {R} (p : PoolCalls.prog R) (f : R -> result) : PoolCalls.prog result := bind p (fun r => Ret (f r)).
  Definition program (nested : helper_fn) (c : call) : PoolCalls.prog result :=
    match c with
    | CEscape s q => returning (escape_p 0 s q) RText
    | CQuote d s => returning (quote_identifier_p 0 d s) RText
    | CSprint d v => returning (sprint_p 0 d v) RValue
    | CSprintf d q args => returning (sprintf_p 0 d q args) RFormatted
    | CToSQL dn n => returning (to_sql_p nested 0 dn n) RSql
    | CToSQLExclude dn n excl => returning (to_sql_exclude_p nested 0 dn n excl) RSql
    | CName ty tb cols => returning (generate_name_p 0 ty tb cols) RText
    | CList strs => returning (print_list_p 0 strs) RText
    | CPrinted d m => returning (printed_p nested 0 d m) RValue
    | CLog h flags s => returning (log_p h flags 0 s) RLogged
    | CFetch h ctx db lg q m hist => returning (fetch_p nested 0 h ctx db lg q m hist) RFetched
    | CExists h ctx db lg q => returning (exists_p nested 0 h ctx db lg q) RExists
    | CExec h ctx db lg q => returning (exec_p nested 0 h ctx db lg q) RExec
    end.
  (** The goroutine of a go statement. *)
  Definition log_goroutine (j : logjob) : call := let '(h, flags, st) := j in CLog h flags st.
End Calls.
Arguments call : clear implicits.
Arguments result : clear implicits.

(** ** A goroutine that makes one call after the other; what it calls next may
    depend on what the earlier calls returned *)
Inductive session {A} := Done | Then (c : call A) (k : result A -> session).
Arguments session : clear implicits.
Fixpoint session_program {A} (nested : helper_fn) (s : session A) : PoolCalls.prog (list (result A)) :=
  match s with
  | Done => Ret []
  | Then c k => bind (program nested c) (fun r => bind (session_program nested (k r)) (fun rs => Ret (r :: rs)))
  end.
(** The same with nobody else around. *)
Inductive history {A} : session A -> list (result A) -> list event -> Prop :=
| h_done : history Done [] []
| h_then c k r t rs ts : alone c r t -> history (k r) rs ts -> history (Then c k) (r :: rs) (t ++ ts).
