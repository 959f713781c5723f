(** * LifeModel: the control flow of the calls that talk to the database

    Every function that sends statements, as a program that keeps its control
    flow (branches, loops, return, break, defer, panic, recover), its calls to the
    database and to the user's code, and forgets the data: a condition may turn
    out either way, a loop may run any number of times, and every call to the
    outside may fail or panic.  So each execution of the Go code is one of the
    executions of the program. *)
From Verif Require Import GoBase SpecLife.

(** ** The language *)
Inductive stmt :=
| Skip
| Seq (a b : stmt)
| Either (a b : stmt)              (* if, switch *)
| Break
| Return
| Range (body : stmt)              (* a loop over data *)
| Compute                          (* code without a call to the outside; it may panic *)
| Call (c : callee)
| Exec                             (* db.ExecContext *)
| Query (failed : stmt)            (* rows, err := db.QueryContext(...); if err != nil { failed } *)
| ForNext (body : stmt)            (* for rows.Next() { body } *)
| Scan                             (* rows.Scan *)
| Check                            (* rows.Err *)
| Close                            (* rows.Close *)
| Defer (d : stmt)
| Recover                          (* in a deferred function: if r := recover() is an error, the call returns it *)
| Func (body : stmt).              (* a call of a function of the library *)
Declare Scope stmt_scope.
Delimit Scope stmt_scope with stmt.
Bind Scope stmt_scope with stmt.
Notation "a ;; b" := (Seq a b) (at level 60, right associativity) : stmt_scope.

(** ** Its executions *)
Inductive outcome := Normal | Broke | Returned | Panicked.
(** The variable rows of a function and its deferred calls, the last one first. *)
Record frame := mk_frame { rows : option nat; defers : list stmt }.

(** [run n s f tr o n' f']: [s], started when [n] result sets have been opened so
    far, can do [tr] and end as [o]. *)
Inductive run : nat -> stmt -> frame -> list event -> outcome -> nat -> frame -> Prop :=
| run_skip n f : run n Skip f [] Normal n f
| run_seq n a b f t1 n1 f1 t2 o n2 f2 : run n a f t1 Normal n1 f1 -> run n1 b f1 t2 o n2 f2 -> run n (Seq a b) f (t1 ++ t2) o n2 f2
| run_stop n a b f t o n1 f1 : run n a f t o n1 f1 -> o <> Normal -> run n (Seq a b) f t o n1 f1
| run_left n a b f t o n1 f1 : run n a f t o n1 f1 -> run n (Either a b) f t o n1 f1
| run_right n a b f t o n1 f1 : run n b f t o n1 f1 -> run n (Either a b) f t o n1 f1
| run_break n f : run n Break f [] Broke n f
| run_return n f : run n Return f [] Returned n f
| run_range_end n s f : run n (Range s) f [] Normal n f
| run_range_step n s f t1 n1 f1 t2 o n2 f2 :
    run n s f t1 Normal n1 f1 -> run n1 (Range s) f1 t2 o n2 f2 -> run n (Range s) f (t1 ++ t2) o n2 f2
| run_range_break n s f t n1 f1 : run n s f t Broke n1 f1 -> run n (Range s) f t Normal n1 f1
| run_range_stop n s f t o n1 f1 : run n s f t o n1 f1 -> o = Returned \/ o = Panicked -> run n (Range s) f t o n1 f1
| run_compute n f : run n Compute f [] Normal n f
| run_compute_panic n f : run n Compute f [] Panicked n f
| run_call n c f : run n (Call c) f [Called c] Normal n f
| run_call_panic n c f : run n (Call c) f [Called c] Panicked n f
| run_exec n f : run n Exec f [Executed] Normal n f
| run_exec_panic n f tr : tr = [] \/ tr = [Executed] -> run n Exec f tr Panicked n f
| run_query n s f : run n (Query s) f [Opened n] Normal (S n) (mk_frame (Some n) (defers f))
| run_query_failed n s f t o n1 f1 : run n s f t o n1 f1 -> run n (Query s) f (Refused :: t) o n1 f1
| run_query_panic n s f : run n (Query s) f [] Panicked n f
| run_next_end n s f h : rows f = Some h -> run n (ForNext s) f [Asked h] Normal n f
| run_next_panic n s f h : rows f = Some h -> run n (ForNext s) f [Asked h] Panicked n f
| run_next_step n s f h t1 n1 f1 t2 o n2 f2 : rows f = Some h ->
    run n s f t1 Normal n1 f1 -> run n1 (ForNext s) f1 t2 o n2 f2 -> run n (ForNext s) f (Asked h :: t1 ++ t2) o n2 f2
| run_next_break n s f h t n1 f1 : rows f = Some h -> run n s f t Broke n1 f1 -> run n (ForNext s) f (Asked h :: t) Normal n1 f1
| run_next_stop n s f h t o n1 f1 : rows f = Some h ->
    run n s f t o n1 f1 -> o = Returned \/ o = Panicked -> run n (ForNext s) f (Asked h :: t) o n1 f1
| run_scan n f h o : rows f = Some h -> o = Normal \/ o = Panicked -> run n Scan f [Scanned h] o n f
| run_check n f h o : rows f = Some h -> o = Normal \/ o = Panicked -> run n Check f [Checked h] o n f
| run_close n f h o : rows f = Some h -> o = Normal \/ o = Panicked -> run n Close f [Closed h] o n f
| run_nil n s f : rows f = None -> (s = Scan \/ s = Check \/ s = Close \/ exists b, s = ForNext b) -> run n s f [] Panicked n f
| run_defer n d f : run n (Defer d) f [] Normal n (mk_frame (rows f) (d :: defers f))
| run_recover n f : run n Recover f [] Normal n f
| run_func n b f t1 o1 n1 f1 t2 o2 n2 :
    run n b (mk_frame None []) t1 o1 n1 f1 -> unwind n1 (rows f1) (defers f1) o1 t2 o2 n2 ->
    run n (Func b) f (t1 ++ t2) (match o2 with Panicked => Panicked | _ => Normal end) n2 f
(** [unwind n r ds o tr o' n']: a function that ended as [o] runs its deferred
    calls.  They share its variables; none of them defers anything itself. *)
with unwind : nat -> option nat -> list stmt -> outcome -> list event -> outcome -> nat -> Prop :=
| unwind_end n r o : unwind n r [] o [] o n
| unwind_call n r d ds o t1 o1 n1 f1 t2 o2 n2 :
    run n d (mk_frame r []) t1 o1 n1 f1 -> unwind n1 (rows f1) ds (match o1 with Panicked => Panicked | _ => o end) t2 o2 n2 ->
    unwind n r (d :: ds) o (t1 ++ t2) o2 n2
| unwind_recover n r ds t o2 n2 :
    unwind n r ds Returned t o2 n2 -> unwind n r (Recover :: ds) Panicked t o2 n2.

(** ** The functions *)
Local Open Scope stmt_scope.
(** [if err != nil { return ..., err }] *)
Definition if_err : stmt := Either Return Skip.
(** fetch.go:45-54, 266-275, exec.go:28-37: asking for the log settings. *)
Definition log_settings : stmt := Either Skip (Call GetLogSettings ;; Either Skip if_err).
(** fetch.go:88-107, 306-321, exec.go:75-88: the deferred log.  `go logQueryStats`
    starts a goroutine and is not an event of this call. *)
Definition log_call : stmt := Either Return (Compute ;; Either Skip (Call LogQueryStats)).

(** fetch.go:21-166 [fetchContext]. *)
Definition fetch : stmt := Func (
  Defer Recover ;;                                                   (* 22-32 *)
  Either Return Skip ;;                                              (* 33-41 *)
  log_settings ;;                                                    (* 42-54 *)
  Call UserCode ;;                                                   (* 55-72: q.GetDialect *)
  Call RowMapper ;; Compute ;;                                       (* 73-75 *)
  Call UserCode ;; if_err ;;                                         (* 76-79: q.SetFetchableFields *)
  Defer Skip ;;                                                      (* 80-87: the buffers *)
  Defer log_call ;;                                                  (* 88-107 *)
  Call UserCode ;; if_err ;;                                         (* 108-111: q.AppendSQL *)
  Query Return ;;                                                    (* 112-122 *)
  Defer Close ;;                                                     (* 123 *)
  Either Return Skip ;;                                              (* 124-126 *)
  Compute ;;                                                         (* 127 *)
  ForNext (                                                          (* 129 *)
    Scan ;;                                                          (* 134 *)
    Either (Call UserCode ;; Compute ;; Return) Skip ;;              (* 135-137: decorateScanError renders the fields *)
    Either Skip (Call UserCode ;; Compute) ;;                        (* 138-143 *)
    Call RowMapper ;; Compute ;;                                     (* 144-146 *)
    if_err ;;                                                        (* 147-149 *)
    Either Break Skip) ;;                                            (* 150-152 *)
  Close ;; if_err ;;                                                 (* 154-157 *)
  Check ;; if_err ;;                                                 (* 158-161 *)
  Compute ;; Return).                                                (* 162-165 *)

(** fetch.go:256-357 [fetchExistsContext]: there is no recover. *)
Definition fetch_exists : stmt := Func (
  Either Return Skip ;;                                              (* 257-262 *)
  log_settings ;;                                                    (* 263-275 *)
  Call UserCode ;;                                                   (* 276-290: q.GetDialect *)
  Call UserCode ;; if_err ;;                                         (* 291-294 *)
  Either Skip (Call UserCode ;; if_err) ;;                           (* 295-300 *)
  Defer Skip ;; Defer log_call ;;                                    (* 301-321 *)
  Call UserCode ;; if_err ;;                                         (* 322-328 *)
  Query Return ;;                                                    (* 329-339 *)
  Defer Close ;;                                                     (* 340 *)
  ForNext (Scan ;; if_err ;; Break) ;;                               (* 341-347 *)
  Close ;; if_err ;; Check ;; if_err ;; Return).                     (* 348-356 *)

(** exec.go:18-120 [execContext]. *)
Definition exec : stmt := Func (
  Either Return Skip ;;                                              (* 19-24 *)
  log_settings ;;
  Call UserCode ;;                                                   (* 41-69: q.GetDialect, table.GetName *)
  Defer Skip ;; Defer log_call ;;                                    (* 70-88 *)
  Call UserCode ;; if_err ;;                                         (* 89-92 *)
  Exec ;; if_err ;;                                                  (* 93-104 *)
  Compute ;; if_err ;;                                               (* 105-110: result.RowsAffected *)
  Either Skip (Compute ;; if_err) ;; Return).                        (* 111-119: result.LastInsertId *)

(** introspect.go:56-75 [NewDatabaseIntrospector]. *)
Definition new_introspector : stmt := Func (Either Return Skip ;; Exec ;; if_err ;; Return).
(** introspect.go:92-130 [queryContext], whose result is the caller's rows: reading,
    parsing and executing the template, then the query. *)
Definition script_query : stmt := Compute ;; if_err ;; Query Return.
(** [switch dbi.dialect { case ...: rows, err = q; if err != nil { return }; default: return }] *)
Definition dialect_switch (q : stmt) : stmt := Either q (Either q (Either q Return)).
(** After the loop: Close, Err. *)
Definition finish : stmt := Close ;; if_err ;; Check ;; if_err ;; Return.
(** introspect.go:132-187 [GetVersionNums]. *)
Definition get_version : stmt := Func (
  dialect_switch (Query Return) ;; Defer Close ;;                    (* 133-154 *)
  ForNext (Scan ;; if_err ;; Compute ;; Break) ;;                    (* 156-168 *)
  Range if_err ;;                                                    (* 169-177: Atoi *)
  finish).                                                           (* 178-187 *)
(** introspect.go:189-227 [GetDatabaseName]. *)
Definition get_database : stmt := Func (
  dialect_switch (Query Return) ;; Defer Close ;; ForNext (Scan ;; if_err ;; Break) ;; finish).
(** introspect.go:229-264 [GetCurrentSchema]: sqlite has none. *)
Definition get_schema : stmt := Func (
  Either Return (Either (Query Return) (Either (Query Return) Return)) ;; Defer Close ;; ForNext (Scan ;; if_err ;; Break) ;; finish).
(** introspect.go:266-284 [GetExtensions]: no Close and no Err after the loop. *)
Definition get_extensions : stmt := Func (
  Either Return Skip ;; script_query ;; Defer Close ;; ForNext (Scan ;; if_err ;; Compute) ;; Return).
(** introspect.go:286-334 [GetTables], 337-433 [GetColumns], 435-556 [GetConstraints],
    822-891 [GetViews]: the loops differ in what is scanned and computed. *)
Definition get_objects : stmt := Func (
  dialect_switch script_query ;; Defer Close ;; ForNext (Scan ;; if_err ;; Compute) ;; finish).
(** introspect.go:558-685 [GetIndexes]: 611 returns from within the loop; 609, 646
    and 670 may panic. *)
Definition get_indexes : stmt := Func (
  dialect_switch script_query ;; Defer Close ;; ForNext (Scan ;; if_err ;; Range (Compute ;; if_err) ;; Compute) ;; finish).
(** introspect.go:687-770 [GetTriggers]. *)
Definition get_triggers : stmt := Func (
  dialect_switch script_query ;; Defer Close ;; Defer Skip ;; ForNext (Scan ;; if_err ;; Compute) ;; finish).
(** introspect.go:772-820 [GetFunctions]: postgres only. *)
Definition get_functions : stmt := Func (
  Either Return script_query ;; Defer Close ;; ForNext (Scan ;; if_err ;; Compute) ;; finish).
(** database_metadata.go:197-338, the function that [WithDB] returns. *)
Definition with_db : stmt := Func (
  new_introspector ;; if_err ;;                                      (* 199-202 *)
  get_version ;; if_err ;; get_database ;; if_err ;; get_schema ;; if_err ;; (* 204-215 *)
  Either Skip (get_extensions ;; if_err) ;;                          (* 216-221 *)
  get_objects ;; if_err ;; Range Compute ;;                          (* 222-241: tables *)
  get_objects ;; if_err ;; Range Compute ;;                          (* 242-251: views *)
  get_objects ;; if_err ;; Range Compute ;;                          (* 252-266: columns *)
  get_objects ;; if_err ;; Range Compute ;;                          (* 267-292: constraints *)
  get_indexes ;; if_err ;; Range Compute ;;                          (* 293-305 *)
  Either Skip (get_functions ;; if_err ;; Range Compute) ;;          (* 306-318 *)
  get_triggers ;; if_err ;; Range Compute ;; Return).                (* 319-337 *)
(** database_metadata.go:186-195 [NewDatabaseMetadata]: options are functions, of
    the library or of the user. *)
Definition new_metadata : stmt := Func (
  Range (Either with_db (Either (Compute ;; Call UserCode) (Call UserCode)) ;; if_err) ;; Return).
(** migration.go:709-867 [ExecContext]: 16 loops like this one, one after another. *)
Definition exec_cmds : stmt := Range (Either Skip (Compute ;; if_err ;; Exec ;; if_err)).
Fixpoint times (k : nat) (s : stmt) : stmt := match k with O => Skip | S k' => s ;; times k' s end.
Definition migration_exec : stmt := Func (times 16 exec_cmds ;; Return).
(** migration.go:47-68 [AutoMigrate]. *)
Definition auto_migrate : stmt := Func (
  new_metadata ;; if_err ;; new_metadata ;; if_err ;; Compute ;; if_err ;; migration_exec ;; if_err ;; Return).

(** The exported functions that are given a database. *)
Definition calls : list stmt :=
  [fetch; fetch_exists; exec; new_introspector; get_version; get_database; get_schema; get_extensions; get_objects; get_indexes; get_triggers;
   get_functions; with_db; new_metadata; migration_exec; auto_migrate].
